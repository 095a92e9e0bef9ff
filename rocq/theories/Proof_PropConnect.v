(** Lemmas for the properties of connections and extensions. *)
From Coq Require Import List Arith Reals Lia Lra Bool.
From Verif Require Import Model_Base Model_Knots Model_Basis Model_Curve Model_Interp Model_Wrap Model_Elevate Model_Unify Model_Connect
  Spec_Base Spec_Basis Spec_Eval Spec_Knots Spec_Class Spec_Build Spec_Interp Spec_Solve Spec_Elevate Spec_Unify Spec_Connect Proof_Base Proof_Basis
  Proof_PropBasis Proof_Eval Proof_Gauss Proof_Elevate6 Proof_Join2 Proof_Join3 Proof_SurfEdit2 Proof_PropUnify Proof_PropSkin Proof_Connect3 Proof_Connect5 Proof_Connect6.
Import ListNotations.
Local Open Scope R_scope.

Definition norm_2 (v : pt R) : R := sqrt (sqlen 2 v).
Lemma norm_2_euclidean : euclidean 2 norm_2.
Proof. intros v. reflexivity. Qed.

Lemma lit_ends : exists e t e' t',
  @value R (NumR (1 / 10)) lit_curve 2 0 = Ok e /\ @value R (NumR (1 / 10)) lit_curve 2 1 = Ok t /\
  @value R (NumR (1 / 10)) lit_curve 0 0 = Ok e' /\ @value R (NumR (1 / 10)) lit_curve 0 1 = Ok t' /\
  (e 0%nat = 4 /\ e 1%nat = 1) /\ (t 0%nat = 2 /\ t 1%nat = 2) /\ (e' 0%nat = 0 /\ e' 1%nat = 0) /\ (t' 0%nat = 2 /\ t' 1%nat = 4).
Proof.
  pose proof lit_curve_object as Hc. pose proof Hc as (Hi & _ & _).
  destruct (info_gk (1 / 10) _ _ ltac:(lra) Hi) as (K & E & S1 & Z & T & W). unfold info_of, knots_of, poles_of in *. cbn [fst snd] in *.
  destruct (object_end (1 / 10) lit_curve ltac:(lra) Hc ltac:(simpl; lia)) as (e & E1 & H1).
  destruct (object_start (1 / 10) lit_curve ltac:(lra) Hc ltac:(simpl; lia)) as (e' & E2 & H2).
  destruct (eval_tangent_end (1 / 10) _ _ _ (c_poles lit_curve) K eq_refl ltac:(left; simpl; lia) ltac:(simpl; lia) E) as (t & E3 & H3).
  destruct (eval_tangent_start (1 / 10) _ _ _ (c_poles lit_curve) K eq_refl ltac:(left; simpl; lia) ltac:(simpl; lia) S1 Z) as (t' & E4 & H4).
  exists e, t, e', t'.
  rewrite !(value_guard_eval (1 / 10)) by (simpl; lra).
  split; [exact E1|]. split; [exact E3|]. split; [exact E2|]. split; [exact E4|].
  rewrite !H1, !H2, !H3, !H4. unfold pole, polec, kn. cbn. repeat split; field.
Qed.

Lemma sqlen2 v : sqlen 2 v = v 0%nat ^ 2 + v 1%nat ^ 2.
Proof. cbn [sqlen]. ring. Qed.

Lemma lit_extension : complete_solver gauss /\ euclidean 2 norm_2 /\ clamped_object (1 / 10) lit_curve /\ (1 <= c_deg lit_curve <= 12)%nat /\
  exists e t e' t', @value R (NumR (1 / 10)) lit_curve (c_hi lit_curve) 0 = Ok e /\ @value R (NumR (1 / 10)) lit_curve (c_hi lit_curve) 1 = Ok t /\
  @value R (NumR (1 / 10)) lit_curve (c_lo lit_curve) 0 = Ok e' /\ @value R (NumR (1 / 10)) lit_curve (c_lo lit_curve) 1 = Ok t' /\
  0 < sqlen 2 t /\ 0 < sqlen 2 t' /\
  1 / 10 * INR (c_deg lit_curve) < extension_length 2 e t (pt2 7 3) /\ 1 / 10 * INR (c_deg lit_curve) < extension_length 2 e' t' (pt2 7 3).
Proof.
  split; [exact gauss_complete|]. split; [exact norm_2_euclidean|]. split; [exact lit_curve_object|]. split; [simpl; lia|].
  destruct lit_ends as (e & t & e' & t' & E1 & E2 & E3 & E4 & (e0 & e1) & (t0 & t1) & (e0' & e1') & (t0' & t1')).
  exists e, t, e', t'. repeat (split; [assumption|]). unfold extension_length. rewrite !sqlen2, t0, t1, t0', t1', e0, e1, e0', e1'. cbn [pt2].
  split; [lra|]. split; [lra|].
  assert (B : forall a b, 0 < b <= 100 -> 10 <= a -> 1 / 10 * INR 2 < a / sqrt b).
  { intros a b Hb Ha. assert (S1 : sqrt b <= 10) by (replace 10 with (sqrt 100) by (replace 100 with (10 * 10) by ring; apply sqrt_square; lra); apply sqrt_le_1; lra).
    assert (S0 : 0 < sqrt b) by (apply sqrt_lt_R0; lra). simpl INR. apply (Rmult_lt_reg_r (sqrt b)); [exact S0|].
    unfold Rdiv. rewrite (Rmult_assoc a), Rinv_l by lra. lra. }
  split; apply B; unfold pt2; simpl; lra.
Qed.

Lemma lit_speed : exists r e t, @extended R (NumR (1 / 10)) gauss norm_2 (fun _ => 0) 2 lit_curve 2 true false false None = Ok r /\
  @value R (NumR (1 / 10)) lit_curve (c_hi lit_curve) 0 = Ok e /\ @value R (NumR (1 / 10)) lit_curve (c_hi lit_curve) 1 = Ok t /\
  passes (1 / 10) 2 r (c_hi r) 0 (fun i => e i + 2 * t i / norm_2 t) /\
  c_hi r - c_hi lit_curve <> 2 / norm_2 t.
Proof.
  destruct lit_ends as (e & t & _ & _ & E1 & E2 & _ & _ & (e0 & e1) & (t0 & t1) & _).
  assert (St : sqlen 2 t = 8) by (rewrite sqlen2, t0, t1; ring).
  assert (S0 : 0 < sqrt 8) by (apply sqrt_lt_R0; lra).
  assert (S1 : sqrt 8 <= 3) by (replace 3 with (sqrt 9) by (replace 9 with (3 * 3) by ring; apply sqrt_square; lra); apply sqrt_le_1; lra).
  destruct (extended_ok (1 / 10) ltac:(lra) gauss norm_2 (fun _ => 0) 2 lit_curve t e 2 true false false None gauss_complete norm_2_euclidean
    lit_curve_object ltac:(simpl; lia) E1 E2) as (r & Er & _ & _ & Br & _ & _ & Pr & _).
  - lra.
  - rewrite St. simpl INR. apply (Rmult_lt_reg_r (sqrt 8)); [exact S0|]. unfold Rdiv. rewrite (Rmult_assoc (2 ^ 2)), Rinv_l by lra. lra.
  - exists r, e, t. split; [exact Er|]. split; [exact E1|]. split; [exact E2|]. unfold norm_2. rewrite St in Pr, Br |- *. split.
    + destruct Pr as (v & Ev & Hv). exists v. split; [exact Ev|]. intros i Hi. rewrite Hv by exact Hi. field. lra.
    + unfold bounds in Br. assert (Bh : c_hi r = c_hi lit_curve + 2 ^ 2 / sqrt 8) by (injection Br as _ Bh; exact Bh). rewrite Bh. intros Q.
      assert (P : 2 ^ 2 / sqrt 8 = 2 / sqrt 8) by lra. apply (f_equal (fun z => z * sqrt 8)) in P. unfold Rdiv in P. rewrite !Rmult_assoc, !Rinv_l in P by lra. lra.
Qed.

(** Two arcs at a distance. *)
Definition lit_far : curve R := mk 1 [pt2 8 0; pt2 9 2] [0; 0; 1; 1] 0 1.
Lemma lit_far_object : clamped_object (1 / 10) lit_far.
Proof.
  split; [|split; reflexivity]. split; [reflexivity|]. exists [0; 1], [2; 2]%nat. split; [|split; reflexivity].
  split; [reflexivity|]. split; [simpl; lia|]. split; [|split; [reflexivity|split; [reflexivity|]]].
  - intros i Hi. simpl in Hi. destruct i as [|i]; [|lia]. unfold kn. simpl. lra.
  - intros i Hi. simpl in Hi. lia.
Qed.
Lemma lit_connection : complete_solver gauss /\ exists a b,
  jet_is (@of_curve R (NumR (1 / 10)) lit_curve) 2 3 a /\ jet_is (@of_curve R (NumR (1 / 10)) lit_far) 0 3 b /\ 0 < taxicab (b 0%nat) (a 0%nat).
Proof.
  split; [exact gauss_complete|].
  destruct (object_jet (1 / 10) lit_curve 2 3 ltac:(lra) lit_curve_object ltac:(simpl; lia) ltac:(simpl; lra)) as (a & Ha).
  destruct (object_jet (1 / 10) lit_far 0 3 ltac:(lra) lit_far_object ltac:(simpl; lia) ltac:(simpl; lra)) as (b & Hb).
  exists a, b. split; [exact Ha|]. split; [exact Hb|].
  destruct (object_end (1 / 10) lit_curve ltac:(lra) lit_curve_object ltac:(simpl; lia)) as (e & E1 & H1).
  destruct (object_start (1 / 10) lit_far ltac:(lra) lit_far_object ltac:(simpl; lia)) as (s & E2 & H2).
  assert (A0 := Ha 0%nat ltac:(lia)). assert (B0 := Hb 0%nat ltac:(lia)).
  rewrite (value_guard_eval (1 / 10)) in A0, B0 by (simpl; lra).
  assert (a 0%nat = e) by (cbn [c_hi lit_curve] in E1; congruence). assert (b 0%nat = s) by (cbn [c_lo lit_far] in E2; congruence). subst e s.
  unfold taxicab. rewrite !H1, !H2. unfold pole. cbn -[IZR]. pose proof (Rabs_pos (0 - 1)). assert (0 < Rabs (8 - 4)) by (apply Rabs_pos_lt; lra). lra.
Qed.
Lemma lit_speed_all : exists eps (lu : @solver R) norm c l r e t, complete_solver lu /\ euclidean 2 norm /\ clamped_object eps c /\
  @extended R (NumR eps) lu norm (fun _ => 0) 2 c l true false false None = Ok r /\
  @value R (NumR eps) c (c_hi c) 0 = Ok e /\ @value R (NumR eps) c (c_hi c) 1 = Ok t /\
  passes eps 2 r (c_hi r) 0 (fun i => e i + l * t i / norm t) /\
  c_hi r - c_hi c <> l / norm t.
Proof.
  destruct lit_speed as (r & e & t & H). exists (1 / 10), gauss, norm_2, lit_curve, 2, r, e, t.
  split; [exact gauss_complete|]. split; [exact norm_2_euclidean|]. split; [exact lit_curve_object|]. exact H.
Qed.
