(** Error analysis of the filters of the exact-sign predicate. *)
From Coq Require Import Reals ZArith Bool Lia Lra List Psatz.
From Flocq Require Import Core.
From Verif Require Import Model_Base Model_Robust Spec_Robust Proof_Robust1 Proof_Robust2 Proof_Robust4.
Import ListNotations.
Open Scope R_scope.

Lemma close_sign : forall x y c, Rabs (y - x) <= c * Rabs x -> 0 <= c < 1 -> same_sign x y.
Proof.
  intros x y c Hc Hc1. assert (Hn : Rabs (y - x) < Rabs x \/ (x = 0 /\ y = 0)).
  { destruct (Req_dec x 0) as [->|N].
    - right. rewrite Rabs_R0, Rmult_0_r, Rminus_0_r in Hc. split; [ reflexivity | ].
      destruct (Req_dec y 0) as [E|N]; [ exact E | ]. apply Rabs_pos_lt in N. lra.
    - left. apply Rabs_pos_lt in N. nra. }
  destruct Hn as [Hn|[-> ->]]; [ | unfold same_sign; tauto ].
  unfold same_sign, Rabs in *. destruct (Rcase_abs (y - x)), (Rcase_abs x); repeat split; intros; lra.
Qed.

Lemma lt_sign : forall x y, Rabs (y - x) < Rabs x -> same_sign x y.
Proof.
  intros x y Hn.
  unfold same_sign, Rabs in *. destruct (Rcase_abs (y - x)), (Rcase_abs x); repeat split; intros; lra.
Qed.

Lemma same_cases : forall x y, same_sign x y <->
  (0 < x /\ 0 < y) \/ (x < 0 /\ y < 0) \/ (x = 0 /\ y = 0).
Proof.
  intros x y. unfold same_sign. split.
  - intros [H1 [H2 H3]]. destruct (Rtotal_order x 0) as [H|[H|H]]; tauto.
  - intros [[H1 H2]|[[H1 H2]|[H1 H2]]]; repeat split; intros; lra.
Qed.

Lemma same_sign_mul : forall a b a' b', same_sign a a' -> same_sign b b' -> same_sign (a * b) (a' * b').
Proof.
  intros a b a' b' HA HB. rewrite same_cases in *.
  destruct HA as [[A1 A2]|[[A1 A2]|[A1 A2]]], HB as [[B1 B2]|[[B1 B2]|[B1 B2]]].
  - left. split; apply Rmult_lt_0_compat; assumption.
  - right; left. split; nra.
  - right; right. subst. split; ring.
  - right; left. split; nra.
  - left. split; nra.
  - right; right. subst. split; ring.
  - right; right. subst. split; ring.
  - right; right. subst. split; ring.
  - right; right. subst. split; ring.
Qed.

Section Prec.
Variable p : Z.
Hypothesis Hp : (10 <= p)%Z.
Notation F := (is_float p).
Notation rd := (fl p).
Notation u := (u p).

Lemma u_pos : 0 < u.
Proof. apply b2_pos. Qed.
Lemma u_small : 1024 * u <= 1.
Proof.
  unfold Proof_Robust1.u. assert (b2 (- p) <= b2 (-10)) as X by (apply bpow_le; lia).
  replace (b2 (-10)) with (/ 1024) in X by reflexivity. lra.
Qed.

Lemma key1 : 7 + 22 * u < (1 - u) * (1 - u) * (1 - u) * (9 + 64 * u).
Proof.
  pose proof u_pos. pose proof u_small.
  assert (1 - 3 * u <= (1 - u) * (1 - u) * (1 - u)) by nra. nra.
Qed.
Lemma key2 : 2 + 4 * u <= (1 - u) * (1 - u) * (1 - u) * (3 + 8 * u).
Proof.
  pose proof u_pos. pose proof u_small.
  assert (1 - 3 * u <= (1 - u) * (1 - u) * (1 - u)) by nra. nra.
Qed.

Lemma rd_sign : forall x, same_sign (rd x) x.
Proof.
  intros x. pose proof u_pos. pose proof u_small. apply (close_sign _ _ u).
  - rewrite Rabs_minus_sym. apply rd_err'. exact Hp.
  - lra.
Qed.

(** Bounds in the form used below *)
Lemma rd_up : forall x, Rabs (rd x) <= (1 + u) * Rabs x.
Proof.
  intros x. pose proof (rd_err p Hp x). pose proof (Rabs_triang (rd x - x) x) as T.
  replace (rd x - x + x) with (rd x) in T by ring. lra.
Qed.
Lemma rd_up' : forall x, Rabs x <= (1 + u) * Rabs (rd x).
Proof.
  intros x. pose proof (rd_err' p Hp x) as E. rewrite Rabs_minus_sym in E.
  pose proof (Rabs_triang (x - rd x) (rd x)) as T. replace (x - rd x + rd x) with x in T by ring. lra.
Qed.
Lemma rd_low : forall x, (1 - u) * Rabs x <= Rabs (rd x).
Proof.
  intros x. pose proof (rd_err p Hp x) as E. rewrite Rabs_minus_sym in E.
  pose proof (Rabs_triang (x - rd x) (rd x)) as T. replace (x - rd x + rd x) with x in T by ring. lra.
Qed.
Lemma rd_pos : forall x, 0 <= x -> 0 <= rd x.
Proof. intros x Hx. rewrite <- (rd_0 p). apply rd_le; assumption. Qed.

(** The estimate of a four-component expansion *)
Lemma est_err : forall x0 x1 x2 x3,
  NA (Rabs x0 + Rabs x1) x2 -> NA (Rabs x0 + Rabs x1 + Rabs x2) x3 ->
  F x0 -> F x1 -> F x2 -> F x3 ->
  (exists V, x3 = rd V /\ x2 = V - x3) ->
  let det := rd (rd (rd (x0 + x1) + x2) + x3) in
  Rabs (x0 + x1 + x2 + x3 - det) <= (2 * u + 4 * u * u) * Rabs det.
Proof.
  intros x0 x1 x2 x3 N2 N3 F0 F1 F2 F3 [V [E3 E2]] det.
  pose proof u_pos as Pu. pose proof u_small as Su.
  set (q := rd (x0 + x1)) in *. set (q2 := rd (q + x2)) in *.
  set (a := Rabs x0 + Rabs x1) in *.
  assert (Pa : 0 <= a) by (unfold a; pose proof (Rabs_pos x0); pose proof (Rabs_pos x1); lra).
  assert (Ha : Rabs (x0 + x1) <= a) by apply Rabs_triang.
  assert (Hx2 : Rabs x2 <= u * Rabs x3).
  { rewrite E2, E3. rewrite Rabs_minus_sym. apply rd_err'. exact Hp. }
  pose proof (rd_err p Hp (x0 + x1)) as Dq. fold q in Dq.
  pose proof (rd_up (x0 + x1)) as Uq. fold q in Uq.
  pose proof (rd_err' p Hp (q2 + x3)) as Dd. fold det in Dd.
  pose proof (rd_low (q2 + x3)) as Ld. fold det in Ld.
  pose proof (Rabs_pos det) as Pd.
  assert (T3 : Rabs x3 <= Rabs (q2 + x3) + Rabs q2).
  { pose proof (Rabs_triang (q2 + x3) (- q2)) as T. replace (q2 + x3 + - q2) with x3 in T by ring.
    rewrite Rabs_Ropp in T. exact T. }
  assert (TT : Rabs (x0 + x1 + x2 + x3 - det) <=
    Rabs (q - (x0 + x1)) + Rabs (q2 - (q + x2)) + Rabs (det - (q2 + x3))).
  { replace (x0 + x1 + x2 + x3 - det) with (- (q - (x0 + x1)) + - (q2 - (q + x2)) + - (det - (q2 + x3))) by ring.
    eapply Rle_trans; [ apply Rabs_triang | ]. rewrite Rabs_Ropp.
    pose proof (Rabs_triang (- (q - (x0 + x1))) (- (q2 - (q + x2)))) as T. rewrite !Rabs_Ropp in T. lra. }
  destruct (Req_dec x2 0) as [Z2|Z2].
  - assert (Eq : q2 = q).
    { unfold q2. rewrite Z2, Rplus_0_r. apply rd_id. apply F_rd, Hp. }
    rewrite Eq in *. rewrite Z2 in TT at 2. rewrite (Rminus_diag_eq q (q + 0)), Rabs_R0 in TT by ring.
    destruct (Req_dec x3 0) as [Z3|Z3].
    + assert (Ed : det = q).
      { unfold det. rewrite Eq, Z3, Rplus_0_r. apply rd_id. apply F_rd, Hp. }
      pose proof (rd_err' p Hp (x0 + x1)) as Dq'. fold q in Dq'. rewrite Z2, Z3, Ed, !Rplus_0_r.
      rewrite Rabs_minus_sym. pose proof (Rabs_pos q). nra.
    + destruct N3 as [s [M B]]. pose proof (mult_ge s x3 M Z3).
      assert (H2 : 2 * a <= Rabs x3) by (pose proof (Rabs_pos x2); lra).
      assert (A1 : (1 - u) * (1 - u) * a <= Rabs det).
      { assert (Rabs q <= (1 + u) * a) by nra. assert ((1 - u) * a <= Rabs (q + x3)) by nra. nra. }
      assert (A2 : a <= (1 + 4 * u) * Rabs det).
      { assert (1 <= (1 + 4 * u) * ((1 - u) * (1 - u))) by nra. 
        assert ((1 + 4 * u) * ((1 - u) * (1 - u) * a) <= (1 + 4 * u) * Rabs det) by (apply Rmult_le_compat_l; lra).
        nra. }
      nra.
  - destruct N2 as [s [M B]]. pose proof (mult_ge s x2 M Z2).
    assert (H2 : 2 * a <= Rabs x2) by lra.
    pose proof (rd_err p Hp (q + x2)) as Dq2. fold q2 in Dq2.
    pose proof (rd_up (q + x2)) as Uq2. fold q2 in Uq2.
    pose proof (Rabs_triang q x2) as T2. pose proof (Rabs_pos x3) as P3. pose proof (Rabs_pos x2) as P2.
    assert (Bq : Rabs q <= (1 + u) * a) by nra.
    assert (Bq2 : Rabs (q + x2) <= 2 * Rabs x2) by nra.
    assert (Bx : Rabs q2 <= 3 * u * Rabs x3) by nra.
    assert (B3 : Rabs x3 <= 2 * Rabs det) by nra.
    assert (E1 : Rabs (q - (x0 + x1)) <= u * (u * Rabs x3)) by nra.
    assert (E4 : Rabs (q2 - (q + x2)) <= u * (2 * (u * Rabs x3))) by nra.
    assert (E5 : 3 * u * (u * Rabs x3) <= u * Rabs det).
    { assert (3 * (u * Rabs x3) <= Rabs det) by nra. nra. }
    nra.
Qed.

Section Filter.
Variables ax ay bx by_ cx cy : R.
Hypothesis Fax : F ax. Hypothesis Fay : F ay. Hypothesis Fbx : F bx.
Hypothesis Fby : F by_. Hypothesis Fcx : F cx. Hypothesis Fcy : F cy.
Let acx := rd (ax - cx). Let acy := rd (ay - cy). Let bcx := rd (bx - cx). Let bcy := rd (by_ - cy).
Let tax := ax - cx - acx. Let tay := ay - cy - acy. Let tbx := bx - cx - bcx. Let tby := by_ - cy - bcy.
Let L := acx * bcy. Let R0 := acy * bcx.
Let dl := rd L. Let dr := rd R0.
Let D := (ax - cx) * (by_ - cy) - (ay - cy) * (bx - cx).
Let M := L - R0.

Lemma tail : forall x, Rabs (x - rd x) <= u * Rabs (rd x).
Proof. intros x. rewrite Rabs_minus_sym. apply rd_err'. exact Hp. Qed.

Lemma cross : forall a t b c, Rabs t <= c * Rabs b -> Rabs (a * t) <= c * Rabs (a * b).
Proof.
  intros a t b c Ht. rewrite !Rabs_mult. pose proof (Rabs_pos a). nra.
Qed.

Lemma four : Rabs (acx * tby) <= u * Rabs L /\ Rabs (bcy * tax) <= u * Rabs L /\
  Rabs (acy * tbx) <= u * Rabs R0 /\ Rabs (bcx * tay) <= u * Rabs R0 /\
  Rabs (tax * tby) <= u * (u * Rabs L) /\ Rabs (tay * tbx) <= u * (u * Rabs R0).
Proof.
  pose proof (tail (ax - cx)) as T1. pose proof (tail (ay - cy)) as T2.
  pose proof (tail (bx - cx)) as T3. pose proof (tail (by_ - cy)) as T4.
  fold acx acy bcx bcy in T1, T2, T3, T4. fold tax tay tbx tby in T1, T2, T3, T4.
  assert (C2 : Rabs (bcy * tax) <= u * Rabs (bcy * acx)) by (apply cross; exact T1).
  assert (C4 : Rabs (bcx * tay) <= u * Rabs (bcx * acy)) by (apply cross; exact T2).
  rewrite (Rmult_comm bcy acx) in C2. rewrite (Rmult_comm bcx acy) in C4. fold L in C2. fold R0 in C4.
  assert (C5 : Rabs (tax * tby) <= u * Rabs (tax * bcy)) by (apply cross; exact T4).
  assert (C6 : Rabs (tay * tbx) <= u * Rabs (tay * bcx)) by (apply cross; exact T3).
  rewrite (Rmult_comm tax bcy) in C5. rewrite (Rmult_comm tay bcx) in C6.
  pose proof u_pos.
  repeat split; auto; try (apply cross; assumption); nra.
Qed.

Lemma D_split : D = M + ((acx * tby + bcy * tax) - (acy * tbx + bcx * tay)) + (tax * tby - tay * tbx).
Proof. unfold D, M, L, R0, tax, tay, tbx, tby. ring. Qed.

Lemma tri4 : forall a b c d, Rabs (a + b - (c + d)) <= Rabs a + Rabs b + Rabs c + Rabs d.
Proof.
  intros a b c d. unfold Rabs. 
  destruct (Rcase_abs (a + b - (c + d))), (Rcase_abs a), (Rcase_abs b), (Rcase_abs c), (Rcase_abs d); lra.
Qed.
Lemma tri2 : forall a b, Rabs (a - b) <= Rabs a + Rabs b.
Proof. intros a b. unfold Rabs. destruct (Rcase_abs (a - b)), (Rcase_abs a), (Rcase_abs b); lra. Qed.

Lemma DM : Rabs (D - M) <= (2 * u + u * u) * (Rabs L + Rabs R0).
Proof.
  destruct four as [H1 [H2 [H3 [H4 [H5 H6]]]]].
  replace (D - M) with ((acx * tby + bcy * tax - (acy * tbx + bcx * tay)) + (tax * tby - tay * tbx)) by (rewrite D_split; ring).
  eapply Rle_trans; [ apply Rabs_triang | ].
  pose proof (tri4 (acx * tby) (bcy * tax) (acy * tbx) (bcx * tay)).
  pose proof (tri2 (tax * tby) (tay * tbx)). nra.
Qed.

Variable s : R.
Hypothesis Ps : 0 < s.
Hypothesis Hs : Rabs dl + Rabs dr <= (1 + u) * s.

Lemma LR : Rabs L + Rabs R0 <= (1 + u) * (1 + u) * s.
Proof.
  pose proof (rd_up' L) as H1. pose proof (rd_up' R0) as H2. fold dl in H1. fold dr in H2.
  pose proof u_pos. nra.
Qed.

Lemma DMs : Rabs (D - M) <= (2 * u + u * u) * ((1 + u) * (1 + u)) * s.
Proof. pose proof DM. pose proof LR. pose proof u_pos. nra. Qed.

Lemma stageA : let det := rd (dl - dr) in
  rd ((3 + 16 * u) * u * s) <= Rabs det -> same_sign det D.
Proof.
  intros det Hd. pose proof u_pos as Pu. pose proof u_small as Su. apply lt_sign.
  pose proof (rd_err' p Hp (dl - dr)) as E1. fold det in E1.
  pose proof (rd_err' p Hp L) as E2. fold dl in E2. pose proof (rd_err' p Hp R0) as E3. fold dr in E3.
  pose proof DMs as E4.
  assert (T : Rabs (D - det) <= Rabs (D - M) + Rabs (dl - L) + Rabs (dr - R0) + Rabs (det - (dl - dr))).
  { replace (D - det) with ((D - M) + (dr - R0) - ((dl - L) + (det - (dl - dr)))) by (unfold M; ring).
    eapply Rle_trans; [ apply tri4 | ]. lra. }
  assert (P0 : 0 <= (3 + 16 * u) * u * s) by (apply Rmult_le_pos; nra).
  pose proof (rd_low ((3 + 16 * u) * u * s)) as Lo. rewrite (Rabs_pos_eq _ (rd_pos _ P0)), (Rabs_pos_eq _ P0) in Lo.
  assert (K : u * (1 + u) + (2 * u + u * u) * ((1 + u) * (1 + u)) < (1 - u) * ((1 - u) * ((3 + 16 * u) * u))) by nra.
  apply (Rmult_lt_compat_r s) in K; [ | exact Ps ].
  assert (K2 : (1 - u) * ((1 - u) * ((3 + 16 * u) * u * s)) <= (1 - u) * Rabs det) by (apply Rmult_le_compat_l; lra).
  assert (K3 : u * (Rabs dl + Rabs dr) <= u * ((1 + u) * s)) by (apply Rmult_le_compat_l; lra).
  lra.
Qed.

Section WithDet.
Variable det : R.
Hypothesis Hdet : Rabs (M - det) <= (2 * u + 4 * u * u) * Rabs det.

Lemma stageB : rd ((2 + 12 * u) * u * s) <= Rabs det -> same_sign det D.
Proof.
  intros Hd. pose proof u_pos as Pu. pose proof u_small as Su. apply lt_sign.
  pose proof DMs as E4.
  assert (T : Rabs (D - det) <= Rabs (D - M) + Rabs (M - det)).
  { replace (D - det) with ((D - M) + (M - det)) by ring. apply Rabs_triang. }
  assert (P0 : 0 <= (2 + 12 * u) * u * s) by (apply Rmult_le_pos; nra).
  pose proof (rd_low ((2 + 12 * u) * u * s)) as Lo. rewrite (Rabs_pos_eq _ (rd_pos _ P0)), (Rabs_pos_eq _ P0) in Lo.
  assert (K : (2 * u + u * u) * ((1 + u) * (1 + u)) < (1 - (2 * u + 4 * u * u)) * ((1 - u) * ((2 + 12 * u) * u))).
  { assert (u * u * (1 - 60 * u) > 0) by nra. nra. }
  apply (Rmult_lt_compat_r s) in K; [ | exact Ps ].
  assert (K2 : (1 - (2 * u + 4 * u * u)) * ((1 - u) * ((2 + 12 * u) * u * s)) <= (1 - (2 * u + 4 * u * u)) * Rabs det)
    by (apply Rmult_le_compat_l; nra).
  lra.
Qed.

Lemma stage0 : tax = 0 -> tay = 0 -> tbx = 0 -> tby = 0 -> same_sign det D.
Proof.
  intros H1 H2 H3 H4. pose proof u_pos. pose proof u_small.
  assert (E : D = M) by (rewrite D_split, H1, H2, H3, H4; ring). rewrite E.
  apply (close_sign _ _ (2 * u + 4 * u * u)); [ exact Hdet | nra ].
Qed.

Lemma stageC :
  let T := rd (rd (rd (acx * tby) + rd (bcy * tax)) - rd (rd (acy * tbx) + rd (bcx * tay))) in
  let det' := rd (det + T) in
  rd (rd ((9 + 64 * u) * u * u * s) + rd ((3 + 8 * u) * u * Rabs det)) <= Rabs det' -> same_sign det' D.
Proof.
  intros T det' Hd. pose proof u_pos as Pu. pose proof u_small as Su. apply lt_sign.
  destruct four as [H1 [H2 [H3 [H4 [H5 H6]]]]]. pose proof LR as HLR.
  pose proof (Rabs_pos L) as PL. pose proof (Rabs_pos R0) as PR. pose proof (Rabs_pos det) as Pd.
  assert (Mu : forall x y, x <= y -> u * x <= u * y) by (intros; apply Rmult_le_compat_l; lra).
  pose proof (rd_err p Hp (acx * tby)) as e1. pose proof (rd_err p Hp (bcy * tax)) as e2.
  pose proof (rd_err p Hp (acy * tbx)) as e3. pose proof (rd_err p Hp (bcx * tay)) as e4.
  pose proof (rd_up (acx * tby)) as v1. pose proof (rd_up (bcy * tax)) as v2.
  pose proof (rd_up (acy * tbx)) as v3. pose proof (rd_up (bcx * tay)) as v4.
  set (r1 := rd (acx * tby)) in *. set (r2 := rd (bcy * tax)) in *.
  set (r3 := rd (acy * tbx)) in *. set (r4 := rd (bcx * tay)) in *.
  pose proof (rd_err p Hp (r1 + r2)) as e5. pose proof (rd_err p Hp (r3 + r4)) as e6.
  pose proof (rd_up (r1 + r2)) as v5. pose proof (rd_up (r3 + r4)) as v6.
  pose proof (Rabs_triang r1 r2) as t5. pose proof (Rabs_triang r3 r4) as t6.
  set (t1 := rd (r1 + r2)) in *. set (t2 := rd (r3 + r4)) in *.
  pose proof (rd_err p Hp (t1 - t2)) as e7. fold T in e7. pose proof (tri2 t1 t2) as t7.
  pose proof (rd_err' p Hp (det + T)) as e8. fold det' in e8.
  (* magnitudes *)
  assert (m1 : Rabs r1 <= (1 + u) * (u * Rabs L)) by nra.
  assert (m2 : Rabs r2 <= (1 + u) * (u * Rabs L)) by nra.
  assert (m3 : Rabs r3 <= (1 + u) * (u * Rabs R0)) by nra.
  assert (m4 : Rabs r4 <= (1 + u) * (u * Rabs R0)) by nra.
  assert (m5 : Rabs (r1 + r2) <= 2 * ((1 + u) * (u * Rabs L))) by lra.
  assert (m6 : Rabs (r3 + r4) <= 2 * ((1 + u) * (u * Rabs R0))) by lra.
  assert (m7 : Rabs t1 <= (1 + u) * (2 * ((1 + u) * (u * Rabs L)))).
  { eapply Rle_trans; [ exact v5 | ]. apply Rmult_le_compat_l; lra. }
  assert (m8 : Rabs t2 <= (1 + u) * (2 * ((1 + u) * (u * Rabs R0)))).
  { eapply Rle_trans; [ exact v6 | ]. apply Rmult_le_compat_l; lra. }
  (* errors *)
  pose proof (Mu _ _ H1) as k1. pose proof (Mu _ _ H2) as k2. pose proof (Mu _ _ H3) as k3. pose proof (Mu _ _ H4) as k4.
  pose proof (Mu _ _ m5) as k5. pose proof (Mu _ _ m6) as k6.
  assert (k7 : u * Rabs (t1 - t2) <= u * ((1 + u) * (2 * ((1 + u) * (u * Rabs L))) + (1 + u) * (2 * ((1 + u) * (u * Rabs R0))))).
  { apply Mu. lra. }
  assert (ET : Rabs (D - M - T) <= u * u * (7 + 6 * u + 2 * u * u) * (Rabs L + Rabs R0)).
  { replace (D - M - T) with
      ((((acx * tby - r1) + (bcy * tax - r2) - ((acy * tbx - r3) + (bcx * tay - r4)))
        + ((r1 + r2 - t1) - (r3 + r4 - t2)) + (t1 - t2 - T)) + (tax * tby - tay * tbx)) by (rewrite D_split; ring).
    eapply Rle_trans; [ apply Rabs_triang | ].
    pose proof (tri2 (tax * tby) (tay * tbx)) as g1.
    pose proof (Rabs_triang ((acx * tby - r1) + (bcy * tax - r2) - ((acy * tbx - r3) + (bcx * tay - r4))
        + ((r1 + r2 - t1) - (r3 + r4 - t2))) (t1 - t2 - T)) as g2.
    pose proof (Rabs_triang ((acx * tby - r1) + (bcy * tax - r2) - ((acy * tbx - r3) + (bcx * tay - r4)))
        ((r1 + r2 - t1) - (r3 + r4 - t2))) as g3.
    pose proof (tri4 (acx * tby - r1) (bcy * tax - r2) (acy * tbx - r3) (bcx * tay - r4)) as g4.
    pose proof (tri2 (r1 + r2 - t1) (r3 + r4 - t2)) as g5.
    rewrite (Rabs_minus_sym (acx * tby)), (Rabs_minus_sym (bcy * tax)), (Rabs_minus_sym (acy * tbx)),
      (Rabs_minus_sym (bcx * tay)) in g4.
    rewrite (Rabs_minus_sym (r1 + r2)), (Rabs_minus_sym (r3 + r4)) in g5.
    rewrite (Rabs_minus_sym (t1 - t2)) in g2. lra. }
  assert (ETs : Rabs (D - M - T) <= (7 * (u * u) + 22 * (u * u * u)) * s).
  { eapply Rle_trans; [ exact ET | ].
    assert (W : 0 <= u * u * (7 + 6 * u + 2 * u * u)) by nra.
    eapply Rle_trans; [ apply (Rmult_le_compat_l _ _ _ W HLR) | ].
    rewrite <- Rmult_assoc. apply Rmult_le_compat_r; [ lra | ].
    replace (u * u * (7 + 6 * u + 2 * u * u) * ((1 + u) * (1 + u)))
      with (u * u * ((7 + 6 * u + 2 * u * u) * ((1 + u) * (1 + u)))) by ring.
    replace (7 * (u * u) + 22 * (u * u * u)) with (u * u * (7 + 22 * u)) by ring.
    apply Rmult_le_compat_l; [ nra | ]. nra. }
  assert (TD : Rabs (D - det') <= Rabs (D - M - T) + Rabs (M - det) + Rabs (det' - (det + T))).
  { replace (D - det') with ((D - M - T) + (M - det) - (det' - (det + T))) by ring.
    eapply Rle_trans; [ apply tri2 | ].
    pose proof (Rabs_triang (D - M - T) (M - det)). lra. }
  (* the bound *)
  set (c1 := (9 + 64 * u) * u * u * s) in *. set (c2 := (3 + 8 * u) * u * Rabs det) in *.
  assert (Pc1 : 0 <= c1). { unfold c1. apply Rmult_le_pos; [ | lra ]. apply Rmult_le_pos; nra. }
  assert (Pc2 : 0 <= c2). { unfold c2. apply Rmult_le_pos; nra. }
  pose proof (rd_pos _ Pc1) as Q1. pose proof (rd_pos _ Pc2) as Q2.
  pose proof (rd_low c1) as l1. pose proof (rd_low c2) as l2.
  rewrite (Rabs_pos_eq (rd c1)), (Rabs_pos_eq c1) in l1 by assumption.
  rewrite (Rabs_pos_eq (rd c2)), (Rabs_pos_eq c2) in l2 by assumption.
  pose proof (rd_low (rd c1 + rd c2)) as l3.
  rewrite (Rabs_pos_eq (rd (_ + _))), (Rabs_pos_eq (_ + _)) in l3 by (try apply rd_pos; lra).
  assert (l4 : (1 - u) * ((1 - u) * ((1 - u) * (c1 + c2))) <= (1 - u) * Rabs det').
  { apply Rmult_le_compat_l; [ lra | ]. eapply Rle_trans; [ | exact Hd ].
    eapply Rle_trans; [ | exact l3 ]. apply Rmult_le_compat_l; lra. }
  assert (c1L : (7 * (u * u) + 22 * (u * u * u)) * s < (1 - u) * ((1 - u) * ((1 - u) * c1))).
  { replace ((1 - u) * ((1 - u) * ((1 - u) * c1))) with (u * u * ((1 - u) * (1 - u) * (1 - u) * (9 + 64 * u)) * s) by (unfold c1; ring).
    apply Rmult_lt_compat_r; [ exact Ps | ].
    replace (7 * (u * u) + 22 * (u * u * u)) with (u * u * (7 + 22 * u)) by ring.
    apply Rmult_lt_compat_l; [ nra | ]. 
    apply key1. }
  assert (c2L : (2 * u + 4 * u * u) * Rabs det <= (1 - u) * ((1 - u) * ((1 - u) * c2))).
  { replace ((1 - u) * ((1 - u) * ((1 - u) * c2))) with (u * ((1 - u) * (1 - u) * (1 - u) * (3 + 8 * u)) * Rabs det) by (unfold c2; ring).
    apply Rmult_le_compat_r; [ lra | ].
    replace (2 * u + 4 * u * u) with (u * (2 + 4 * u)) by ring.
    apply Rmult_le_compat_l; [ lra | ].
    apply key2. }
  lra.
Qed.
End WithDet.
End Filter.
End Prec.
