(** Joining surfaces. *)
From Coq Require Import List Arith ZArith Reals Lia Lra Bool.
From Verif Require Import Model_Base Spec_Base Spec_Basis Spec_Knots Spec_Eval Spec_Surface Spec_Elevate Spec_Unify Spec_Curve Spec_Gordon Spec_Stools
  Model_Basis Model_Knots Model_Curve Model_Surface Model_Elevate Model_Unify Model_Interp Model_Gordon Model_Connect Model_Stools
  Proof_Base Proof_Basis Proof_Eval Proof_Insert Proof_Curve Proof_Trim Proof_PropBasis
  Proof_Knots Proof_Builders Proof_Elevate2 Proof_Elevate3 Proof_Elevate4 Proof_Unify Proof_Unify2 Proof_Unify3 Proof_Unify4 Proof_Unify5
  Proof_Join Proof_Join2 Proof_Json
  Proof_Interp3 Proof_Eval Proof_Interp Proof_Surface Proof_SurfEdit Proof_Skin1 Proof_Gordon1 Proof_Gordon2 Proof_Gordon4 Proof_Connect4 Proof_Stools1.
Import ListNotations.
Local Open Scope R_scope.

Section AtR.
Variable eps : R.
Local Hint Extern 0 (Num R) => exact (NumR eps) : typeclass_instances.
Hypothesis He : 0 < eps.

Lemma cs_clamped s : csurf eps s <-> clamped_surface eps s.
Proof.
  split.
  - intros H. destruct (csurf_bounds eps He s H) as (B1 & B2 & B3 & B4 & _).
    destruct H as ((_ & _ & LP) & _ & (U & M & C1 & E1 & N1) & (V & N & C2 & E2 & N2) & D1 & D2).
    exists U, M, V, N. rewrite N1, N2 in LP. tauto.
  - intros (U & M & V & N & C1 & C2 & E1 & E2 & LP & B1 & B2 & B3 & B4 & D1 & D2).
    assert (CU : ckn_of eps (s_degU s) (s_ku s) (poles_for (s_degU s) M)) by (exists U, M; auto).
    assert (CV : ckn_of eps (s_degV s) (s_kv s) (poles_for (s_degV s) N)) by (exists V, N; auto).
    pose proof (nU_of eps s _ _ _ eq_refl eq_refl CU He) as NU. pose proof (nV_of eps s _ _ _ eq_refl eq_refl CV He) as NV.
    rewrite <- NU in CU. rewrite <- NV in CV.
    destruct (ckn_ok eps He _ _ _ CU) as (K1 & _). destruct (ckn_ok eps He _ _ _ CV) as (K2 & _).
    split; [split; [exact K1|split; [exact K2|rewrite LP, NU, NV; reflexivity]]|]. split; [|tauto].
    destruct K1 as (L1 & _). destruct K2 as (L2 & _). unfold first_knot, last_knot in *. rewrite L1 in B2. rewrite L2 in B4.
    split; [exact B1|]. split; [rewrite B2; f_equal; lia|]. split; [exact B3|]. rewrite B4. f_equal. lia.
Qed.

Lemma csurf_make P ku kv p q n m : (p <= 12)%nat -> (q <= 12)%nat -> ckn_of eps p ku n -> ckn_of eps q kv m -> length P = (n * m)%nat ->
  (Z.of_nat (length ku * length kv) < 2 ^ 64)%Z ->
  exists s, mk_surf P ku kv p q = Ok s /\ csurf eps s /\ s_degU s = p /\ s_degV s = q /\ s_ku s = ku /\ s_kv s = kv /\ s_poles s = P /\ s_nU s = n /\ s_nV s = m.
Proof.
  intros Hp Hq C1 C2 LP Hz. destruct (ckn_gk eps He _ _ _ C1) as (K1 & _). destruct (ckn_gk eps He _ _ _ C2) as (K2 & _).
  pose proof K1 as (L1 & P1 & N1 & _). pose proof K2 as (L2 & P2 & N2 & _).
  rewrite (mk_surf_accepts eps) by (try lia; try assumption; try (rewrite LP, L1, L2; f_equal; lia); try (rewrite LP; nia); nia).
  eexists. split; [reflexivity|].
  set (s := mks p q P ku kv (kn ku 0) (kn ku (length ku - 1)) (kn kv 0) (kn kv (length kv - 1))).
  assert (CU : ckn_of eps (s_degU s) (s_ku s) n) by exact C1. assert (CV : ckn_of eps (s_degV s) (s_kv s) m) by exact C2.
  pose proof (nU_of eps s _ _ _ eq_refl eq_refl CU He) as NU. pose proof (nV_of eps s _ _ _ eq_refl eq_refl CV He) as NV.
  split; [|repeat split; assumption].
  split; [split; [rewrite NU; exact K1|split; [rewrite NV; exact K2|rewrite NU, NV; exact LP]]|].
  split; [|rewrite NU, NV; repeat split; assumption].
  unfold natural_surface. rewrite NU, NV. cbn [s s_u1 s_u2 s_v1 s_v2 s_ku s_kv s_degU s_degV].
  split; [reflexivity|]. split; [f_equal; lia|]. split; [reflexivity|]. f_equal. lia.
Qed.

Lemma as_bssurf_ok s : csurf eps s -> (Z.of_nat (length (s_ku s) * length (s_kv s)) < 2 ^ 64)%Z -> as_bssurf s = Ok s.
Proof.
  intros H Hz. pose proof H as ((_ & _ & LP) & _ & CU & CV & D1 & D2). destruct (csurf_bounds eps He s H) as (B1 & B2 & B3 & B4 & _).
  destruct (ckn_gk eps He _ _ _ CU) as (K1 & _). destruct (ckn_gk eps He _ _ _ CV) as (K2 & _).
  pose proof K1 as (L1 & P1 & N1 & _). pose proof K2 as (L2 & P2 & N2 & _).
  unfold as_bssurf. rewrite (mk_surf_accepts eps) by (try lia; try assumption; try (rewrite LP, L1, L2; f_equal; lia); try (rewrite LP; nia); nia).
  unfold first_knot, last_knot in *. rewrite <- B1, <- B2, <- B3, <- B4. destruct s; reflexivity.
Qed.

Lemma same_v_refl (k : list R) : same_v_knots k k = Ok tt.
Proof.
  unfold same_v_knots. rewrite Nat.eqb_refl.
  destruct (for_inv (fun _ (_ : unit) => True) (fun i _ => let* a := get k i in let* b := get k i in
      if nltb neps (nabs (nsub a b)) then Throw RuntimeError else Ok tt) 0 (length k) tt I) as (r & Hr & _).
  - intros i [] Hi _. rewrite (get_nth k i 0) by lia. cbn [bind]. nsimp.
    rewrite nabs_R. replace (nth i k 0 - nth i k 0) with 0 by ring. rewrite Rabs_R0.
    destruct (Rltb_spec eps 0); [lra|]. exists tt. auto.
  - rewrite Hr. destruct r. reflexivity.
Qed.

Theorem surf_join_ok dim s1 s2 : csurf eps s1 -> csurf eps s2 -> s_kv s1 = s_kv s2 -> (1 <= max (s_degU s1) (s_degU s2))%nat ->
  countable (length (s_ku s1) + length (s_ku s2)) (length (s_kv s1)) ->
  meet_along eps dim s1 s2 ->
  let L := s_u2 s1 - s_u1 s2 in
  exists s, surf_join s1 s2 = Ok s /\ csurf eps s /\ s_degU s = max (s_degU s1) (s_degU s2) /\ s_degV s = s_degV s1 /\ s_kv s = s_kv s1 /\
    s_u1 s = s_u1 s1 /\ s_u2 s = s_u2 s2 + L /\
    (forall u v du dv, s_v1 s1 <= v <= s_v2 s1 -> s_u1 s1 <= u < s_u2 s1 \/ u = s_u2 s1 /\ du = 0%nat -> same_at eps dim s1 u v s u v du dv) /\
    (forall u v du dv, s_v1 s1 <= v <= s_v2 s1 -> s_u1 s2 <= u <= s_u2 s2 -> same_at eps dim s2 u v s (u + L) v du dv).
Proof.
  intros H1 H2 Ek Hd Hz Hm L. unfold countable in Hz.
  pose proof H1 as (_ & _ & CU1 & CV1 & D1 & D1'). pose proof H2 as (_ & _ & CU2 & CV2 & D2 & D2').
  destruct (csurf_bounds eps He s1 H1) as (B1 & B2 & B3 & B4 & B5 & B6).
  destruct (csurf_bounds eps He s2 H2) as (A1 & A2 & A3 & A4 & A5 & A6).
  unfold surf_join. rewrite (as_bssurf_ok s1) by (auto; nia). cbn [bind]. rewrite (as_bssurf_ok s2) by (auto; rewrite <- Ek; nia). cbn [bind].
  unfold elevate_to. set (m := max (s_degU s1) (s_degU s2)) in *.
  destruct (elevU eps (s_degU s2 - s_degU s1) s1 (s_degU s1) He H1 ltac:(lia)) as (t1 & -> & T1 & Dt1 & Vt1 & Kt1 & It1 & Gt1). cbn [bind].
  assert (Em1 : s_degU t1 = m) by lia. rewrite Em1.
  destruct (elevU eps (m - s_degU s2) s2 (s_degU s2) He H2 ltac:(lia)) as (t2 & -> & T2 & Dt2 & Vt2 & Kt2 & It2 & Gt2). cbn [bind].
  assert (Em2 : s_degU t2 = m) by lia.
  rewrite Kt1, Kt2, <- Ek, same_v_refl. cbn [bind].
  pose proof T1 as (Ok1 & _ & TU1 & TV1 & _). pose proof T2 as (Ok2 & _ & TU2 & TV2 & _).
  rewrite (nPolesU_ok t1 Ok1), (nPolesV_ok t1 Ok1), (nPolesU_ok t2 Ok2). cbn [bind].
  set (n1 := s_nU t1) in *. set (n2 := s_nU t2) in *. set (nv := s_nV t1) in *.
  assert (Q : s_degV t1 = s_degV t2 /\ nv = s_nV t2).
  { apply (ckn_degree eps He _ _ (s_kv t1)); [exact TV1|]. rewrite Kt1, Ek, <- Kt2. exact TV2. }
  destruct Q as (Qd & Qn).
  pose proof (ckn_gk eps He _ _ _ TU1) as G1. pose proof (ckn_gk eps He _ _ _ TU2) as G2. rewrite Em1 in *. rewrite Em2 in *.
  destruct (csurf_bounds eps He t1 T1) as (B1' & B2' & B3' & B4' & B5' & B6').
  destruct (csurf_bounds eps He t2 T2) as (A1' & A2' & A3' & A4' & A5' & A6').
  (* same bounds *)
  assert (Bd : forall s t, csurf eps s -> csurf eps t -> agree eps s t -> s_u1 t = s_u1 s /\ s_u2 t = s_u2 s /\ s_v1 t = s_v1 s /\ s_v2 t = s_v2 s).
  { intros s t Hs Ht (Ag & _). destruct (csurf_bounds eps He s Hs) as (_ & _ & _ & _ & X1 & X2). destruct (csurf_bounds eps He t Ht) as (_ & _ & _ & _ & Y1 & Y2).
    assert (E : forall u v, (s_u1 t <= u <= s_u2 t /\ s_v1 t <= v <= s_v2 t) <-> (s_u1 s <= u <= s_u2 s /\ s_v1 s <= v <= s_v2 s)).
    { intros u v. rewrite <- (csurf_dom eps He t u v Ht), <- (csurf_dom eps He s u v Hs). apply Ag. }
    pose proof (proj1 (E (s_u1 t) (s_v1 t)) ltac:(repeat split; lra)) as Z1. pose proof (proj1 (E (s_u2 t) (s_v2 t)) ltac:(repeat split; lra)) as Z2.
    pose proof (proj2 (E (s_u1 s) (s_v1 s)) ltac:(repeat split; lra)) as Z3. pose proof (proj2 (E (s_u2 s) (s_v2 s)) ltac:(repeat split; lra)) as Z4.
    repeat split; lra. }
  destruct (Bd s1 t1 H1 T1 Gt1) as (W1 & W2 & W3 & W4). destruct (Bd s2 t2 H2 T2 Gt2) as (W5 & W6 & W7 & W8). clear Bd.
  (* the common edge *)
  assert (HP : forall j c, (j < nv)%nat -> (c < dim)%nat -> pole (s_poles t1) c ((n1 - 1) + n1 * j) = pole (s_poles t2) c (n2 * j)).
  { apply (edge_poles eps He); auto; [congruence|]. intros v Hv. rewrite W3, W4 in Hv. destruct (Hm v Hv) as (z & z' & Z1 & Z2 & Z3).
    destruct (proj2 Gt1 (s_u2 s1) v 0%nat 0%nat) as (y & Y1 & y' & Y2 & Y3); [apply (csurf_dom eps He); auto; repeat split; lra|].
    destruct (proj2 Gt2 (s_u1 s2) v 0%nat 0%nat) as (x & X1 & x' & X2 & X3); [apply (csurf_dom eps He); auto; rewrite A3, A4, <- Ek, <- B3, <- B4; repeat split; lra|].
    rewrite Z1 in Y1. injection Y1 as <-. rewrite Z2 in X1. injection X1 as <-. rewrite W2, W5. exists y', x'. split; [exact Y2|]. split; [exact X2|].
    intros c Hc. rewrite Y3, X3. symmetry. apply Z3, Hc. }
  (* the rows *)
  pose proof Ok1 as (K1 & KV & LP1). pose proof Ok2 as (K2 & KV2 & LP2). fold n1 nv in LP1, KV. fold n2 in LP2. rewrite <- Qn in LP2.
  rewrite Em1 in K1. rewrite Em2 in K2. fold n1 in K1. fold n2 in K2.
  set (F := fun j => row (s_poles t1) n1 j ++ tl (row (s_poles t2) n2 j)).
  match goal with |- context [for_ 0 nv ?b []] => destruct (for_inv (fun i acc => acc = rows F i) b 0 nv []) as (P & -> & EP) end.
  { reflexivity. }
  { intros j acc Hj ->. rewrite (row_slice _ n1 nv) by (auto; lia). rewrite (row_slice _ n2 nv) by (auto; lia). cbn [bind].
    assert (Hn : row (s_poles t2) n2 j <> []).
    { intros E. pose proof (row_length n2 (s_poles t2) j) as Z. rewrite E in Z. destruct K2 as (_ & Z2 & _). simpl in Z. lia. }
    rewrite rows_S. change (F j) with (row (s_poles t1) n1 j ++ tl (row (s_poles t2) n2 j)). destruct (row (s_poles t2) n2 j) as [|b b']; [congruence|]. eexists. split; reflexivity. }
  cbn [bind]. rewrite Nat.add_0_l in EP. subst P.
  pose proof K1 as (LK1 & Hn1 & _). pose proof K2 as (LK2 & Hn2 & _).
  rewrite back_kn by lia. rewrite (front_nth (s_ku t2) 0) by lia. cbn [bind]. nsimp.
  rewrite map_length. destruct (Nat.ltb_spec (length (s_ku t2)) (m + 1)) as [Hl|_]; [lia|].
  pose proof G1 as (_ & E1 & S1 & Z1 & TT1 & V1). pose proof G2 as (_ & E2 & S2 & Z2 & TT2 & V2).
  set (k := joined (s_ku t1) (s_ku t2) n1 m).
  match goal with |- context [removelast ?a ++ ?b] => replace (removelast a ++ b) with k end.
  2:{ unfold k, joined. f_equal. f_equal. apply map_ext. intros x. rewrite TT1. unfold last_knot, kn. ring. }
  assert (LF : forall j, (j < nv)%nat -> length (F j) = (n1 + n2 - 1)%nat).
  { intros j Hj. unfold F. rewrite app_length, row_length. pose proof (row_length n2 (s_poles t2) j) as Z.
    destruct (row (s_poles t2) n2 j); cbn [tl length] in *; lia. }
  assert (Ck : ckn_of eps m k (n1 + n2 - 1)).
  { destruct TU1 as (U1 & M1 & C1 & Eq1 & Nq1). destruct TU2 as (U2 & M2 & C2 & Eq2 & Nq2).
    destruct (joined_clamped eps m U1 M1 U2 M2 C1 C2 Hd) as (U & M & C & Eq & Nq & _).
    exists U, M. split; [exact C|]. split; [|fold n1 in Nq1; fold n2 in Nq2; lia]. rewrite <- Eq. unfold k, joined. rewrite <- Eq1, <- Eq2. f_equal. f_equal.
    apply map_ext. intros x. rewrite TT1. destruct (re_ends m U1 M1 (ck_ckn eps m U1 M1 ltac:(lra) C1)) as (_ & R1).
    destruct (re_ends m U2 M2 (ck_ckn eps m U2 M2 ltac:(lra) C2)) as (R2 & _). rewrite <- Eq1 in R1. rewrite <- Eq2 in R2.
    unfold first_knot in R2. rewrite R1, R2. ring. }
  assert (Lku1 : (length (s_ku t1) <= 13 * length (s_ku s1))%nat) by (apply (ckn_length eps He m _ n1); auto; lia).
  assert (Lku2 : (length (s_ku t2) <= 13 * length (s_ku s2))%nat) by (apply (ckn_length eps He m _ n2); auto; lia).
  destruct (ckn_gk eps He _ _ _ Ck) as (Kk & _). pose proof Kk as (Lk & _).
  destruct (csurf_make (rows F nv) k (s_kv s1) m (s_degV t1) (n1 + n2 - 1) nv) as (s & Es & Cs & X1 & X2 & X3 & X4 & X5 & X6 & X7);
    [lia|lia|exact Ck|rewrite <- Kt1; exact TV1|apply rows_length, LF|nia|].
  exists s. split; [exact Es|]. split; [exact Cs|]. split; [exact X1|]. split; [congruence|]. split; [exact X4|].
  destruct (csurf_bounds eps He s Cs) as (Bs1 & Bs2 & Bs3 & Bs4 & _). rewrite X3 in Bs1, Bs2. rewrite X4 in Bs3, Bs4.
  destruct (joined_dom (s_ku t1) (s_ku t2) n1 n2 m K1 K2 ltac:(lia) E1 S2) as (J1 & J2). fold k in J1, J2.
  destruct (ckn_gk eps He _ _ _ Ck) as (_ & _ & Sk & _ & Tk & _).
  assert (Hu1 : s_u1 s = s_u1 s1).
  { rewrite Bs1, <- W1, B1'. unfold first_knot. rewrite <- (Sk m), J1 by lia. apply S1. lia. }
  assert (Hu2 : s_u2 s = s_u2 s2 + L).
  { rewrite Bs2, <- Tk, J2, TT2, TT1. unfold L. rewrite <- W2, <- W5, <- W6, A2', B2', A1'. reflexivity. }
  split; [exact Hu1|]. split; [exact Hu2|].
  pose proof Cs as (Oks & _). pose proof Oks as (Ks & Kvs & LPs). rewrite X1, X3, X6 in Ks. rewrite X7, X2, X4 in Kvs. rewrite X5, X6, X7 in LPs.
  assert (RS : forall j, (j < nv)%nat -> row (rows F nv) (n1 + n2 - 1) j = F j) by (intros j Hj; apply row_rows; auto).
  assert (HPj : forall j c, (j < nv)%nat -> (c < dim)%nat -> pole (row (s_poles t1) n1 j) c (n1 - 1) = pole (row (s_poles t2) n2 j) c 0).
  { intros j c Hj Hc. rewrite !pole_row by lia. rewrite HP by assumption. reflexivity. }
  assert (Gg1 : Spec_Surface.grid_ok (s_ku t1) n1 m (s_kv s1) nv (s_degV t1) (s_poles t1)) by (split; [exact K1|split; [rewrite <- Kt1; exact KV|exact LP1]]).
  assert (Gg2 : Spec_Surface.grid_ok (s_ku t2) n2 m (s_kv s1) nv (s_degV t1) (s_poles t2)) by (split; [exact K2|split; [rewrite <- Kt1; exact KV|exact LP2]]).
  assert (Ggs : Spec_Surface.grid_ok k (n1 + n2 - 1) m (s_kv s1) nv (s_degV t1) (rows F nv)) by (split; [exact Kk|split; [rewrite <- Kt1; exact KV|apply rows_length, LF]]).
  assert (Ev : forall ku n, evaluable2 eps ku n m (s_kv s1) nv (s_degV t1)) by (intros; left; lia).
  assert (InS : forall u v, s_u1 s <= u <= s_u2 s -> s_v1 s1 <= v <= s_v2 s1 -> in_surface s u v).
  { intros u v Hu Hv. apply (csurf_dom eps He s u v Cs). split; [exact Hu|]. rewrite Bs3, Bs4, <- B3, <- B4. exact Hv. }
  assert (Hvk : forall v, s_v1 s1 <= v <= s_v2 s1 -> kn (s_kv s1) (s_degV t1) <= v <= kn (s_kv s1) nv).
  { intros v Hv. rewrite <- Kt1. apply (csurf_span eps He t1 v T1). rewrite W3, W4. exact Hv. }
  split.
  - intros u v du dv Hv Hu.
    assert (Hu' : s_u1 s1 <= u <= s_u2 s1) by (destruct Hu as [Hu|[Hu _]]; lra).
    destruct (proj2 Gt1 u v du dv) as (z & Z & z1 & Zz & Zq); [apply (csurf_dom eps He); auto|].
    assert (In1 : in_surface t1 u v) by (apply (csurf_dom eps He); auto; rewrite W1, W2, W3, W4; auto).
    destruct (csurf_value eps t1 u v du dv He T1 In1) as (z1' & Y1 & Y2 & _). rewrite Y1 in Zz. injection Zz as ->.
    assert (In2 : in_surface s u v) by (apply InS; [unfold L in *; lra|exact Hv]).
    destruct (csurf_value eps s u v du dv He Cs In2) as (z2 & Y3 & Y4 & _).
    destruct (row_transfer_on eps (fun c => (c < dim)%nat) (s_ku t1) n1 k (n1 + n2 - 1) m (s_kv s1) nv (s_degV t1) (s_poles t1) (rows F nv) u u du dv v Gg1 Ggs (Ev _ _) (Ev _ _))
      as (y & y' & Q1 & Q2 & Q3).
    + pose proof (csurf_span_u eps He t1 u T1) as Z0. rewrite Em1, W1, W2 in Z0. apply Z0. exact Hu'.
    + pose proof (csurf_span_u eps He s u Cs) as Z0. rewrite X1, X3, X6 in Z0. apply Z0. unfold L in *; lra.
    + apply Hvk, Hv.
    + intros j c Hj Hc. rewrite (RS j Hj).
      destruct (finish_first eps (s_ku t1) (s_ku t2) n1 n2 m (row (s_poles t1) n1 j) (row (s_poles t1) n1 j) (row (s_poles t2) n2 j) G1 G2 ltac:(lia)
        (row_length _ _ _) (row_length _ _ _) (row_length _ _ _) (fun c => (c < dim)%nat) ltac:(auto) ltac:(intros; apply HPj; auto) u du) as (q & q' & R1 & R2 & R3).
      { rewrite <- B1', <- B2', W1, W2. destruct Hu as [Hu|[Hu Hd0]]; [left; exact Hu|right; auto]. }
      unfold F. fold k in R2. rewrite R1, R2. cbn [val]. apply R3, Hc.
    + rewrite Kt1, Em1 in Y2. rewrite Y2 in Q1. injection Q1 as <-. rewrite X1, X2, X3, X4, X5 in Y4. rewrite Y4 in Q2. injection Q2 as <-.
      exists z, z2. split; [exact Z|]. split; [exact Y3|]. intros c Hc. rewrite Q3 by exact Hc. apply Zq.
  - intros u v du dv Hv Hu.
    destruct (proj2 Gt2 u v du dv) as (z & Z & z1 & Zz & Zq); [apply (csurf_dom eps He); auto; rewrite A3, A4, <- Ek, <- B3, <- B4; auto|].
    assert (In1 : in_surface t2 u v) by (apply (csurf_dom eps He); auto; rewrite W5, W6, W7, W8, A3, A4, <- Ek, <- B3, <- B4; auto).
    destruct (csurf_value eps t2 u v du dv He T2 In1) as (z1' & Y1 & Y2 & _). rewrite Y1 in Zz. injection Zz as ->.
    assert (In2 : in_surface s (u + L) v) by (apply InS; [unfold L in *; lra|exact Hv]).
    destruct (csurf_value eps s (u + L) v du dv He Cs In2) as (z2 & Y3 & Y4 & _).
    destruct (row_transfer_on eps (fun c => (c < dim)%nat) (s_ku t2) n2 k (n1 + n2 - 1) m (s_kv s1) nv (s_degV t1) (s_poles t2) (rows F nv) u (u + L) du dv v Gg2 Ggs (Ev _ _) (Ev _ _))
      as (y & y' & Q1 & Q2 & Q3).
    + pose proof (csurf_span_u eps He t2 u T2) as Z0. rewrite Em2, W5, W6 in Z0. apply Z0. exact Hu.
    + pose proof (csurf_span_u eps He s (u + L) Cs) as Z0. rewrite X1, X3, X6 in Z0. apply Z0. unfold L in *; lra.
    + apply Hvk, Hv.
    + intros j c Hj Hc. rewrite (RS j Hj).
      destruct (finish_second eps (s_ku t1) (s_ku t2) n1 n2 m (row (s_poles t1) n1 j) (row (s_poles t1) n1 j) (row (s_poles t2) n2 j) G1 G2 ltac:(lia)
        (row_length _ _ _) (row_length _ _ _) (row_length _ _ _) (fun c => (c < dim)%nat) ltac:(auto) ltac:(intros; apply HPj; auto) u du) as (q & q' & R1 & R2 & R3).
      { rewrite <- A1', <- A2', W5, W6. exact Hu. }
      unfold F. fold k in R2. replace (u + L) with (u + (last_knot (s_ku t1) - first_knot (s_ku t2))) by (unfold L; rewrite <- W2, <- W5, B2', A1'; ring).
      rewrite R1, R2. cbn [val]. apply R3, Hc.
    + rewrite Kt2, <- Ek, Em2, <- Qd in Y2. rewrite Y2 in Q1. injection Q1 as <-. rewrite X1, X2, X3, X4, X5 in Y4. rewrite Y4 in Q2. injection Q2 as <-.
      exists z, z2. split; [exact Z|]. split; [exact Y3|]. intros c Hc. rewrite Q3 by exact Hc. apply Zq.
Qed.
End AtR.
