(** The plane predicates over the reals. *)
From Coq Require Import List Arith Lia Bool Reals Lra ZArith Permutation.
From Verif Require Import Model_Base Model_Geom Spec_Geom Proof_Base Proof_Plane.
Import ListNotations.
Local Open Scope R_scope.

Notation C := (R * R)%type.
Section AtR.
Variable eps : R.
Local Hint Extern 0 (Num R) => exact (NumR eps) : typeclass_instances.

(** ** Circles *)
Lemma in_circle_id (a b c d o : C) :
  in_circle a b c d = (dist2 a o - dist2 d o) * orr b c d + (dist2 b o - dist2 d o) * orr c a d + (dist2 c o - dist2 d o) * orr a b d.
Proof. unfold in_circle, dist2, orr. nsimp. ring. Qed.
Lemma in_circle_power (a b c d o : C) r2 : circle_through o r2 [a; b; c] -> in_circle a b c d = area2 a b c * (r2 - dist2 d o).
Proof.
  intros H. rewrite (in_circle_id a b c d o). rewrite (H a), (H b), (H c) by (cbn; auto).
  rewrite <- orr_area, <- (orr_sum a b c d). ring.
Qed.
Lemma in_circle_sign (a b c d o : C) r2 : circle_through o r2 [a; b; c] ->
  (ccw a b c -> (0 < in_circle a b c d <-> dist2 d o < r2) /\ (in_circle a b c d = 0 <-> dist2 d o = r2) /\ (in_circle a b c d < 0 <-> r2 < dist2 d o)) /\
  (ccw a c b -> (in_circle a b c d < 0 <-> dist2 d o < r2) /\ (in_circle a b c d = 0 <-> dist2 d o = r2) /\ (0 < in_circle a b c d <-> r2 < dist2 d o)).
Proof.
  intros H. rewrite (in_circle_power a b c d o r2 H). unfold ccw. split; intros W.
  - set (A := area2 a b c) in *. set (x := r2 - dist2 d o). assert (X : (0 < x <-> dist2 d o < r2) /\ (x = 0 <-> dist2 d o = r2) /\ (x < 0 <-> r2 < dist2 d o)) by (unfold x; repeat split; lra).
    destruct X as (<- & <- & <-). clearbody x. repeat split; intros Y.
    + apply Rnot_le_lt. intros Z. assert (0 <= A * - x) by (apply Rmult_le_pos; lra). lra.
    + now apply Rmult_lt_0_compat.
    + apply Rmult_integral in Y as [?|?]; lra.
    + subst. ring.
    + apply Rnot_le_lt. intros Z. assert (0 <= A * x) by (apply Rmult_le_pos; lra). lra.
    + assert (0 < A * - x) by (apply Rmult_lt_0_compat; lra). lra.
  - assert (E : area2 a b c = - area2 a c b) by (unfold area2; ring). rewrite E. set (A := area2 a c b) in *. clear E.
    set (x := r2 - dist2 d o). assert (X : (0 < x <-> dist2 d o < r2) /\ (x = 0 <-> dist2 d o = r2) /\ (x < 0 <-> r2 < dist2 d o)) by (unfold x; repeat split; lra).
    destruct X as (<- & <- & <-). clearbody x. repeat split; intros Y.
    + apply Rnot_le_lt. intros Z. assert (0 <= A * - x) by (apply Rmult_le_pos; lra). lra.
    + assert (0 < A * x) by (apply Rmult_lt_0_compat; lra). lra.
    + apply Rmult_integral in Y as [?|?]; lra.
    + subst. ring.
    + apply Rnot_le_lt. intros Z. assert (0 <= A * x) by (apply Rmult_le_pos; lra). lra.
    + assert (0 < A * - x) by (apply Rmult_lt_0_compat; lra). lra.
Qed.
Lemma circle_center_ok (a b c : C) : 0 < eps ->
  match circle_center a b c with
  | None => 2 * Rabs (area2 a b c) < eps
  | Some o => eps <= 2 * Rabs (area2 a b c) /\ circle_through o (dist2 a o) [a; b; c]
  end.
Proof.
  intros He. unfold circle_center. cbv zeta. rewrite nabs_R. nsimp. cbn [neps NumR].
  match goal with |- context [Rltb (Rabs ?g) _] => set (G := g) end.
  assert (EG : G = 2 * area2 a b c) by (unfold G, area2; ring). assert (AG : Rabs G = 2 * Rabs (area2 a b c)) by (rewrite EG, Rabs_mult, (Rabs_pos_eq 2); lra).
  destruct (Rltb_spec (Rabs G) eps) as [L|L]; [now rewrite <- AG|]. split; [now rewrite <- AG|].
  assert (GN : G <> 0) by (intros Z; rewrite Z, Rabs_R0 in L; lra).
  intros p Ip. assert (X : forall p q : C, dist2 p q = fst p * fst p + snd p * snd p - 2 * (fst p * fst q + snd p * snd q) + (fst q * fst q + snd q * snd q)) by (intros; unfold dist2; ring).
  rewrite !X. cbn [fst snd]. cbn in Ip. unfold G in *. clear G EG AG L. destruct Ip as [<-|[<-|[<-|[]]]]; auto.
  all: assert (GN' : (fst b - fst a) * (snd c - snd b) - (snd b - snd a) * (fst c - fst b) <> 0) by (intros Z; apply GN; rewrite Z; ring); field; exact GN'.
Qed.

(** ** Triangles *)
Lemma in_triangle_ok (a b c d : C) : area2 a b c <> 0 -> (in_triangle a b c d = true <-> in_closed a b c d).
Proof.
  intros NF. assert (E : forall x y : C, (fst d - fst y) * (snd x - snd y) - (fst x - fst y) * (snd d - snd y) = orr x y d) by (intros; unfold orr; ring).
  unfold in_triangle. cbv zeta. nsimp. rewrite !E. rewrite negb_true_iff.
  assert (HB : (Rltb (orr a b d) 0 || Rltb (orr b c d) 0 || Rltb (orr c a d) 0) && (Rltb 0 (orr a b d) || Rltb 0 (orr b c d) || Rltb 0 (orr c a d)) = false <->
     (0 <= orr a b d /\ 0 <= orr b c d /\ 0 <= orr c a d) \/ (orr a b d <= 0 /\ orr b c d <= 0 /\ orr c a d <= 0)).
  { destruct (Rltb_spec (orr a b d) 0), (Rltb_spec (orr b c d) 0), (Rltb_spec (orr c a d) 0), (Rltb_spec 0 (orr a b d)), (Rltb_spec 0 (orr b c d)), (Rltb_spec 0 (orr c a d)); cbn;
    split; try discriminate; try (intros [(? & ? & ?)|(? & ? & ?)]; lra); try reflexivity; intros _; try (left; repeat split; lra); (right; repeat split; lra). }
  rewrite HB. pose proof (orr_sum a b c d) as SM. rewrite (orr_area a b c) in SM. destruct (Rtotal_order 0 (area2 a b c)) as [P|[P|P]]; [|lra|].
  - rewrite (in_closed_iff a b c d P). split; auto. intros [|(H1 & H2 & H3)]; auto. exfalso. lra.
  - assert (P' : ccw a c b) by (unfold ccw, area2 in *; lra).
    assert (SW : in_closed a b c d <-> in_closed a c b d).
    { split; intros (r & s & t & R0 & S0 & T0 & E1 & ->); exists r, t, s; repeat split; try lra; unfold mix; f_equal; ring. }
    rewrite SW, (in_closed_iff a c b d P'). rewrite (orr_swap c a d), (orr_swap b c d), (orr_swap a b d).
    split; [intros [(H1 & H2 & H3)|(H1 & H2 & H3)]; [exfalso; lra|]|intros (H1 & H2 & H3); right]; repeat split; lra.
Qed.
Lemma bary_denom (a b c : C) : let u := (fst c - fst a, snd c - snd a) in let v := (fst b - fst a, snd b - snd a) in
  (fst u * fst u + snd u * snd u) * (fst v * fst v + snd v * snd v) - (fst u * fst v + snd u * snd v) * (fst u * fst v + snd u * snd v) = area2 a b c * area2 a b c.
Proof. unfold area2. cbn. ring. Qed.
Lemma barycentric_ok (a b c d : C) : (flat a b c -> triangle_barycentric_coordinates a b c d = None) /\
  (~ flat a b c -> exists u v, triangle_barycentric_coordinates a b c d = Some (u, v) /\ d = mix a b c (1 - u - v) v u).
Proof.
  unfold flat, triangle_barycentric_coordinates. cbv zeta. pose proof (bary_denom a b c) as BD. cbn [fst snd] in BD. cbv zeta in BD.
  split; intros F.
  - match goal with |- context [neqb ?x ?y] => replace (neqb x y) with true; [reflexivity|] end. symmetry. apply neqb_R. nsimp. rewrite BD, F. ring.
  - match goal with |- context [neqb ?x ?y] => replace (neqb x y) with false end.
    2:{ symmetry. apply neqb_R_false. nsimp. rewrite BD. intros Z. apply Rmult_integral in Z as [?|?]; contradiction. }
    do 2 eexists. split; [reflexivity|]. nsimp. unfold mix. destruct d as [dx dy]. cbn [fst snd].
    assert (GN : (fst c - fst a) * (fst c - fst a) + (snd c - snd a) * (snd c - snd a) <> 0 -> True) by auto.
    match goal with |- context [1 / ?g] => assert (DN : g <> 0) by (rewrite BD; intros Z; apply Rmult_integral in Z as [?|?]; contradiction) end.
    f_equal; field; exact DN.
Qed.
Lemma mix_unique (a b c : C) r s t r' s' t' : ~ flat a b c -> r + s + t = 1 -> r' + s' + t' = 1 -> mix a b c r s t = mix a b c r' s' t' -> r = r' /\ s = s' /\ t = t'.
Proof.
  intros F E E' Q. assert (T : forall r s t, r + s + t = 1 -> orr a b (mix a b c r s t) = t * area2 a b c /\ orr c a (mix a b c r s t) = s * area2 a b c).
  { intros r0 s0 t0 E0. split; [rewrite orr_mix by auto; now rewrite orr_area|]. rewrite (mix_rot a b c r0 s0 t0), (mix_rot b c a s0 t0 r0). rewrite orr_mix by lra.
    rewrite orr_area. unfold area2. ring. }
  destruct (T _ _ _ E) as (T1 & S1). destruct (T _ _ _ E') as (T2 & S2). rewrite Q in T1, S1. unfold flat in F.
  assert (t = t') by (apply (Rmult_eq_reg_r (area2 a b c)); [congruence|auto]). assert (s = s') by (apply (Rmult_eq_reg_r (area2 a b c)); [congruence|auto]). lra.
Qed.
Lemma in_bary_ok (a b c d : C) : ~ flat a b c -> exists r, in_triangle_barycentric a b c d = Some r /\ (r = true <-> in_closed a b c d).
Proof.
  intros F. unfold in_triangle_barycentric. destruct (p2_eqb d a || p2_eqb d b || p2_eqb d c) eqn:Q.
  - exists true. split; auto. split; auto. intros _. unfold p2_eqb in Q. rewrite !orb_true_iff, !andb_true_iff, !neqb_R in Q.
    assert (X : d = a \/ d = b \/ d = c).
    { destruct d as [dx dy], a as [ax ay], b as [bx by_], c as [cx cy]. cbn [fst snd] in Q. destruct Q as [[(-> & ->)|(-> & ->)]|(-> & ->)]; auto. }
    destruct X as [-> |[-> | ->]]; [exists 1, 0, 0|exists 0, 1, 0|exists 0, 0, 1]; repeat split; try lra; unfold mix; cbn;
      match goal with |- ?p = _ => destruct p as [px py]; cbn; f_equal; ring end.
  - clear Q. destruct (barycentric_ok a b c d) as (_ & X). destruct (X F) as (u & v & -> & E). eexists. split; [reflexivity|]. nsimp.
    rewrite !andb_true_iff. split.
    + intros ((H1 & H2) & H3). destruct (Rleb_spec 0 u), (Rleb_spec 0 v), (Rleb_spec (u + v) 1); try discriminate. exists (1 - u - v), v, u. repeat split; auto; lra.
    + intros (r & s & t & R0 & S0 & T0 & E1 & E2). rewrite E in E2. assert (E0 : 1 - u - v + v + u = 1) by lra. destruct (mix_unique a b c _ _ _ _ _ _ F E0 E1 E2) as (E3 & E4 & E5).
      destruct (Rleb_spec 0 u), (Rleb_spec 0 v), (Rleb_spec (u + v) 1); auto; lra.
Qed.

(** ** Segments *)
Lemma seg_seg_ok (a b c d : C) tol : 0 <= tol -> seg_seg_strict_intersection a b c d tol = true ->
  exists q, between a b q /\ between c d q.
Proof.
  intros T0. unfold seg_seg_strict_intersection. cbv zeta. destruct (_ || _) eqn:G; [discriminate|].
  apply orb_false_iff in G as (_ & G). apply neqb_R_false in G. nsimp. cbn [nopp NumR] in *. intros H.
  match type of G with ?x <> _ => set (D := x) in * end.
  match type of H with (Rltb _ ?x && _ && Rltb _ ?y && _ = true) => set (s := x) in *; set (t := y) in * end.
  destruct (Rltb_spec tol s), (Rltb_spec s (1 - tol)), (Rltb_spec tol t), (Rltb_spec t (1 - tol)); try discriminate.
  exists (along a b t). split; [exists t; split; [split; lra|reflexivity]|]. exists s. split; [split; lra|].
  unfold along. f_equal; unfold s, t, D; field; exact G.
Qed.
Lemma Rabs_lt_opp x y : Rabs (- x) < y <-> Rabs x < y.
Proof. now rewrite Rabs_Ropp. Qed.
Lemma Rltb_ext x y x' y' : (x < y <-> x' < y') -> Rltb x y = Rltb x' y'.
Proof. intros H. destruct (Rltb_spec x y), (Rltb_spec x' y'); auto; exfalso; tauto || (apply Rlt_not_le in r; lra) || intuition lra. Qed.
(** the answer in terms of the four signed areas *)
Definition crossing (a b c d : C) tol : Prop :=
  let D := (fst b - fst a) * (snd d - snd c) - (fst d - fst c) * (snd b - snd a) in
  D <> 0 /\ tol <= Rabs D /\ ~ (Rabs (fst b - fst a) < tol /\ Rabs (snd b - snd a) < tol) /\ ~ (Rabs (fst d - fst c) < tol /\ Rabs (snd d - snd c) < tol) /\
  exists s t, tol < s < 1 - tol /\ tol < t < 1 - tol /\ along a b t = along c d s.
Lemma along_det (a b c d : C) s t : let D := (fst b - fst a) * (snd d - snd c) - (fst d - fst c) * (snd b - snd a) in
  along a b t = along c d s -> D * s = (snd a - snd b) * (fst a - fst c) + (fst b - fst a) * (snd a - snd c) /\
     D * t = (fst d - fst c) * (snd a - snd c) - (snd d - snd c) * (fst a - fst c).
Proof.
  intros D H. unfold along in H. injection H as H1 H2. assert (X : fst a - fst c = s * (fst d - fst c) - t * (fst b - fst a)) by lra.
  assert (Y : snd a - snd c = s * (snd d - snd c) - t * (snd b - snd a)) by lra. rewrite X, Y. unfold D. split; ring.
Qed.
Lemma seg_seg_iff (a b c d : C) tol : seg_seg_strict_intersection a b c d tol = true <-> crossing a b c d tol.
Proof.
  unfold seg_seg_strict_intersection, crossing. cbv zeta. set (D := (fst b - fst a) * (snd d - snd c) - (fst d - fst c) * (snd b - snd a)).
  rewrite !nabs_R. nsimp. cbn [nopp NumR].
  replace (- (fst d - fst c) * (snd b - snd a) + (fst b - fst a) * (snd d - snd c)) with D by (unfold D; ring).
  destruct (neqb D 0) eqn:N.
  { rewrite !orb_true_r. apply (neqb_R eps) in N. split; [discriminate|]. intros (Z & _). contradiction. }
  apply (neqb_R_false eps) in N. rewrite orb_false_r.
  destruct (Rltb_spec (Rabs D) tol) as [L1|L1]; cbn [orb]; [split; [discriminate|intros (_ & Z & _); lra]|].
  destruct (Rltb_spec (Rabs (fst b - fst a)) tol) as [L2|L2], (Rltb_spec (Rabs (snd b - snd a)) tol) as [L3|L3]; cbn [andb orb];
   try (split; [discriminate|intros (_ & _ & Z & _); tauto]).
  all: destruct (Rltb_spec (Rabs (fst d - fst c)) tol) as [L4|L4], (Rltb_spec (Rabs (snd d - snd c)) tol) as [L5|L5]; cbn [andb orb];
   try (split; [discriminate|intros (_ & _ & _ & Z & _); tauto]).
  all: match goal with |- (Rltb _ ?x && _ && Rltb _ ?y && _ = true) <-> _ => set (s := x); set (t := y) end.
  all: split; [intros H; destruct (Rltb_spec tol s), (Rltb_spec s (1 - tol)), (Rltb_spec tol t), (Rltb_spec t (1 - tol)); try discriminate;
     (split; [auto|]); (split; [auto|]); (split; [lra|]); (split; [lra|]); exists s, t; (split; [lra|]); (split; [lra|]); unfold along; f_equal; unfold s, t, D; field; exact N
   |intros (_ & _ & _ & _ & s' & t' & Hs & Ht & Q); apply along_det in Q as (Q1 & Q2); fold D in Q1, Q2;
    assert (Es : s = s') by (apply (Rmult_eq_reg_l D); [rewrite Q1; unfold s; field; exact N|exact N]);
    assert (Et : t = t') by (apply (Rmult_eq_reg_l D); [rewrite Q2; unfold t; field; exact N|exact N]); rewrite Es, Et;
    destruct (Rltb_spec tol s'), (Rltb_spec s' (1 - tol)), (Rltb_spec tol t'), (Rltb_spec t' (1 - tol)); auto; lra].
Qed.
Lemma crossing_swap a b c d tol : crossing a b c d tol -> crossing c d a b tol.
Proof.
  unfold crossing. cbv zeta. intros (N & L & E1 & E2 & s & t & Hs & Ht & Q).
  replace ((fst d - fst c) * (snd b - snd a) - (fst b - fst a) * (snd d - snd c)) with (- ((fst b - fst a) * (snd d - snd c) - (fst d - fst c) * (snd b - snd a))) by ring.
  rewrite Rabs_Ropp. split; [lra|]. split; auto. split; auto. split; auto. exists t, s. auto.
Qed.
Lemma crossing_rev a b c d tol : crossing a b c d tol -> crossing b a c d tol.
Proof.
  unfold crossing. cbv zeta. intros (N & L & E1 & E2 & s & t & Hs & Ht & Q).
  replace ((fst a - fst b) * (snd d - snd c) - (fst d - fst c) * (snd a - snd b)) with (- ((fst b - fst a) * (snd d - snd c) - (fst d - fst c) * (snd b - snd a))) by ring.
  rewrite Rabs_Ropp, (Rabs_minus_sym (fst a)), (Rabs_minus_sym (snd a)). split; [lra|]. split; auto. split; auto. split; auto.
  exists s, (1 - t). split; [lra|]. split; [lra|]. rewrite <- Q. unfold along. f_equal; ring.
Qed.
Lemma seg_seg_sym (a b c d : C) tol : seg_seg_strict_intersection a b c d tol = seg_seg_strict_intersection c d a b tol /\
  seg_seg_strict_intersection a b c d tol = seg_seg_strict_intersection b a c d tol /\
  seg_seg_strict_intersection a b c d tol = seg_seg_strict_intersection a b d c tol.
Proof.
  assert (X : forall a b c d a' b' c' d' : C, (crossing a b c d tol <-> crossing a' b' c' d' tol) -> seg_seg_strict_intersection a b c d tol = seg_seg_strict_intersection a' b' c' d' tol).
  { intros. apply eq_true_iff_eq. now rewrite !seg_seg_iff. }
  split; [|split]; apply X; split; intros Y; auto using crossing_swap, crossing_rev.
Qed.
Lemma seg_seg_complete (a b c d : C) tol : 0 < tol ->
  tol <= Rabs ((fst b - fst a) * (snd d - snd c) - (fst d - fst c) * (snd b - snd a)) ->
  tol <= Rabs (fst b - fst a) \/ tol <= Rabs (snd b - snd a) -> tol <= Rabs (fst d - fst c) \/ tol <= Rabs (snd d - snd c) ->
  (exists s t, tol < s < 1 - tol /\ tol < t < 1 - tol /\ along a b t = along c d s) -> seg_seg_strict_intersection a b c d tol = true.
Proof.
  intros T0 L1 L2 L3 X. apply seg_seg_iff. unfold crossing. cbv zeta. split; [intros Z; rewrite Z, Rabs_R0 in L1; lra|]. split; auto. split; [lra|]. split; [lra|auto].
Qed.
(** ** Points of segments *)
Lemma on_segment_complete (a b p : C) tol : 0 <= tol -> a <> b -> on_seg a b p -> on_segment a b p tol = true.
Proof.
  intros T0 N (t & Ht & ->). unfold on_segment. cbv zeta. rewrite !nabs_R. nsimp.
  match goal with |- context [Rabs ?x] => replace x with 0 by (unfold along; cbn; ring) end. rewrite Rabs_R0.
  destruct (Rltb_spec tol 0); [lra|]. destruct (Rleb_spec (Rabs (snd b - snd a)) (Rabs (fst b - fst a))) as [L|L].
  - destruct (neqb (fst b - fst a) 0) eqn:Z.
    + exfalso. apply (neqb_R eps) in Z. rewrite Z, Rabs_R0 in L. pose proof (Rabs_pos (snd b - snd a)). assert (Y : Rabs (snd b - snd a) = 0) by lra.
      apply N. destruct (Req_dec (snd b - snd a) 0) as [E|E]; [|apply Rabs_no_R0 in E; lra]. destruct a, b. cbn in *. f_equal; lra.
    + apply (neqb_R_false eps) in Z. match goal with |- context [?x / ?y] => replace (x / y) with t by (unfold along; cbn; field; exact Z) end.
      destruct (Rleb_spec 0 t), (Rleb_spec t 1); auto; lra.
  - assert (Z : snd b - snd a <> 0) by (intros E; rewrite E, Rabs_R0 in L; pose proof (Rabs_pos (fst b - fst a)); lra).
    match goal with |- context [?x / ?y] => replace (x / y) with t by (unfold along; cbn; field; exact Z) end.
    destruct (Rleb_spec 0 t), (Rleb_spec t 1); auto; lra.
Qed.
Lemma on_segment_sound (a b p : C) tol : on_segment a b p tol = true -> near_seg a b tol p.
Proof.
  unfold near_seg.
  unfold on_segment. cbv zeta. rewrite !nabs_R. nsimp. set (cr := (fst b - fst a) * (snd p - snd a) - (fst p - fst a) * (snd b - snd a)).
  destruct (Rltb_spec tol (Rabs cr)) as [|L0]; [discriminate|]. destruct (Rleb_spec (Rabs (snd b - snd a)) (Rabs (fst b - fst a))) as [L|L].
  - destruct (neqb (fst b - fst a) 0) eqn:Z; [discriminate|]. apply (neqb_R_false eps) in Z. set (t := (fst p - fst a) / (fst b - fst a)). intros H.
    destruct (Rleb_spec 0 t), (Rleb_spec t 1); try discriminate. exists t. split; [lra|].
    rewrite Rmax_left by auto. unfold along. cbn [fst snd]. replace (fst p - (fst a + t * (fst b - fst a))) with 0 by (unfold t; field; auto).
    rewrite Rabs_R0, Rplus_0_l, <- Rabs_mult. replace ((fst b - fst a) * (snd p - (snd a + t * (snd b - snd a)))) with cr; auto. unfold cr, t. field. auto.
  - assert (Z : snd b - snd a <> 0) by (intros E; rewrite E, Rabs_R0 in L; pose proof (Rabs_pos (fst b - fst a)); lra).
    set (t := (snd p - snd a) / (snd b - snd a)). intros H. destruct (Rleb_spec 0 t), (Rleb_spec t 1); try discriminate. exists t. split; [lra|].
    rewrite Rmax_right by lra. unfold along. cbn [fst snd]. replace (snd p - (snd a + t * (snd b - snd a))) with 0 by (unfold t; field; auto).
    rewrite Rabs_R0, Rplus_0_r, <- Rabs_mult. replace ((snd b - snd a) * (fst p - (fst a + t * (fst b - fst a)))) with (- cr); [now rewrite Rabs_Ropp|]. unfold cr, t. field. auto.
Qed.
End AtR.
