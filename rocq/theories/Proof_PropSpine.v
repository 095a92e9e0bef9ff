(** Two literal sections along a literal spine, for Prop_Spine.v. *)
From Coq Require Import List Arith ZArith Reals Lia Lra Bool.
From Verif Require Import Model_Base Model_Math Model_Knots Model_Basis Model_Curve Model_Interp Model_Surface Model_Unify Model_Skin Model_Spine
  Spec_Base Spec_Basis Spec_Knots Spec_Eval Spec_Interp Spec_Surface Spec_Elevate Spec_Unify Spec_Skin Spec_Solve Spec_Spine
  Proof_Base Proof_Eval Proof_SurfEdit2 Proof_PropBasis Proof_Elevate6 Proof_Unify3 Proof_Join3 Proof_PropUnify Proof_Gauss Proof_PropSkin Proof_Spine6.
Import ListNotations.
Local Open Scope R_scope.
Local Hint Extern 0 (Num R) => exact (NumR (1 / 10)) : typeclass_instances.

(** A vertical spine; the foot of a section is at the height of its end. *)
Definition lit_spine : curve R := mk 1 [pt2 0 1; pt2 0 3] [1; 1; 3; 3] 1 3.
Definition lit_foot (_ c : curve R) : result R := let* q := value c (c_hi c) 0 in Ok (q 1%nat).

Lemma lit_spine_object : clamped_object (1 / 10) lit_spine.
Proof.
  split; [|split; reflexivity]. split; [reflexivity|]. exists [1; 3], [2; 2]%nat.
  split; [|split; reflexivity].
  split; [reflexivity|]. split; [simpl; lia|]. split; [intros i Hi; cbn in Hi; destruct i as [|i]; unfold kn; cbn; try lra; lia|]. split; [reflexivity|]. split; [reflexivity|].
  intros i Hi. simpl in Hi. lia.
Qed.
Lemma lit_spine_knots : knots_ok (c_knots lit_spine) 2 1.
Proof.
  split; [reflexivity|]. split; [lia|]. split; [|unfold kn; cbn; lra].
  intros i j Hij Hj. cbn in Hj. unfold kn. destruct i as [|[|[|[|i]]]]; destruct j as [|[|[|[|j]]]]; cbn; try lra; lia.
Qed.

Lemma lit_feet : forall m k us, common_form (1 / 10) lit_curve [lit_curve; lit_curve2] m k us -> exists ts feet D,
  Forall2 (fun c t => lit_foot lit_spine c = Ok t) us ts /\ Forall2 (fun t x => value lit_spine t 0 = Ok x) ts feet /\
  Forall2 (fun t x => value lit_spine t 1 = Ok x) ts D /\ taxicab (pts_at feet 0) (pts_at feet 1) <> 0.
Proof.
  intros m k us (LU & CF).
  assert (F : forall j c e, nth_error [lit_curve; lit_curve2] j = Some c -> first_knot (c_knots c) < last_knot (c_knots c) -> c_lo c <= c_hi c -> c_hi c = last_knot (c_knots c) ->
    (exists q, eval_value (c_hi c) (c_knots c) (c_poles c) (c_deg c) 0 = Ok q /\ q 1%nat = e) ->
    exists u, nth_error us j = Some u /\ lit_foot lit_spine u = Ok e).
  { intros j c e Hj Hlt Hle Hh (q & Eq & He). destruct (CF j c Hj) as (P & N & _ & V). eexists. split; [exact N|].
    destruct (V (c_hi c) 0%nat ltac:(lra)) as (z & z' & Z & Z' & R'). rewrite (value_guard_eval (1 / 10)) in Z by lra. rewrite Eq in Z. injection Z as <-.
    rewrite Hh in Z'. rewrite (proj2 (rescale_ends _ _ Hlt)) in Z'. unfold lit_foot. cbn [c_hi]. change (last_knot (c_knots lit_curve)) with (c_hi lit_curve) in Z'.
    rewrite Z'. cbn [bind]. f_equal. rewrite <- He, <- (R' 1%nat). cbn [pow]. ring. }
  destruct (F 0%nat lit_curve 1 eq_refl) as (u0 & N0 & E0); try (unfold first_knot, last_knot, kn; cbn; lra).
  { destruct (object_end (1 / 10) lit_curve ltac:(lra) lit_curve_object ltac:(simpl; lia)) as (q1 & E1 & H1). exists q1. split; [exact E1|]. rewrite H1. unfold pole. cbn. lra. }
  destruct (F 1%nat lit_curve2 3 eq_refl) as (u1 & N1 & E1); try (unfold first_knot, last_knot, kn; cbn; lra).
  { destruct (object_end (1 / 10) lit_curve2 ltac:(lra) lit_curve2_ok ltac:(simpl; lia)) as (q1 & E1 & H1). exists q1. split; [exact E1|]. rewrite H1. unfold pole. cbn. lra. }
  destruct us as [|a [|b [|]]]; try discriminate. cbn [nth_error] in N0, N1. injection N0 as ->. injection N1 as ->.
  assert (SV : forall t d, 1 <= t <= 3 -> exists x, value lit_spine t d = Ok x).
  { intros t d Ht. rewrite (value_guard_eval (1 / 10)) by (cbn; lra). apply (eval_value_total (1 / 10) _ 2 1); [exact lit_spine_knots|reflexivity|left; lia|unfold kn; cbn; lra]. }
  destruct (SV 1 1%nat ltac:(lra)) as (d0 & D0). destruct (SV 3 1%nat ltac:(lra)) as (d1 & D1).
  destruct (object_start (1 / 10) lit_spine ltac:(lra) lit_spine_object ltac:(simpl; lia)) as (x0 & X0 & H0).
  destruct (object_end (1 / 10) lit_spine ltac:(lra) lit_spine_object ltac:(simpl; lia)) as (x1 & X1 & H1).
  exists [1; 3], [x0; x1], [d0; d1]. split; [repeat constructor; assumption|]. split.
  { constructor; [|constructor; [|constructor]]; rewrite (value_guard_eval (1 / 10)) by (cbn; lra); assumption. }
  split; [repeat constructor; assumption|]. unfold taxicab, pts_at. cbn [nth]. rewrite (H0 1%nat), (H1 1%nat). unfold pole. cbn.
  pose proof (Rabs_pos (x0 0%nat - x1 0%nat)). replace (1 - 3) with (-2) by ring. rewrite (Rabs_left (-2)) by lra. lra.
Qed.

Lemma lit_spine_loft : exists s, loft_spine gauss (fun l => curve_parametrization taxicab sqrt l ChordLength true) taxicab lit_foot false 2 [lit_curve; lit_curve2] lit_spine 3 = Ok s /\
  evaluable_surface (1 / 10) s.
Proof.
  apply (spine_two_returns (1 / 10)); try lra; try lia.
  - apply gauss_complete. - apply taxicab_separates. - apply lit_loftable.
  - exact (lit_differ 0%nat _ _ eq_refl eq_refl). - reflexivity. - exact lit_feet.
Qed.
(** The same curves as rational sections of the line. *)
Lemma lit_spine_loft_rational : exists s, loft_spine gauss (fun l => curve_parametrization taxicab sqrt l ChordLength true) taxicab lit_foot true 1 [lit_curve; lit_curve2] lit_spine 3 = Ok s /\
  evaluable_surface (1 / 10) s.
Proof.
  apply (spine_two_returns (1 / 10)); try lra; try lia.
  - apply gauss_complete. - apply taxicab_separates. - apply lit_loftable.
  - exact (lit_differ 0%nat _ _ eq_refl eq_refl). - reflexivity. - exact lit_feet.
Qed.
