(** Literal cases behind Prop_Skin.v and Prop_Solve.v. *)
From Coq Require Import List Arith ZArith Reals Lia Lra Bool.
From Verif Require Import Model_Base Model_Math Model_Knots Model_Curve Model_Interp Model_Surface Model_Unify Model_Skin
  Spec_Base Spec_Basis Spec_Knots Spec_Eval Spec_Interp Spec_Surface Spec_Elevate Spec_Unify Spec_Skin Spec_Solve
  Proof_Base Proof_Eval Proof_SurfEdit2 Proof_Builders Proof_Builders2 Proof_Interp Proof_Interp4 Proof_Elevate6 Proof_Join3 Proof_PropUnify
  Proof_Skin1 Proof_Skin3 Proof_Skin4 Proof_Gauss Proof_SW2 Proof_SW3.
Import ListNotations.
Local Open Scope R_scope.

(** The taxicab distance of the plane. *)
Definition taxicab (a b : pt R) : R := Rabs (a 0%nat - b 0%nat) + Rabs (a 1%nat - b 1%nat).
Lemma taxicab_separates : separates 2 taxicab.
Proof.
  intros x y. unfold taxicab. split; [pose proof (Rabs_pos (x 0%nat - y 0%nat)); pose proof (Rabs_pos (x 1%nat - y 1%nat)); lra|].
  intros H i Hi. pose proof (Rabs_pos (x 0%nat - y 0%nat)) as A. pose proof (Rabs_pos (x 1%nat - y 1%nat)) as B.
  assert (HH : forall t, Rabs t = 0 -> t = 0) by (intros t Ht; destruct (Req_dec t 0); [assumption|]; exfalso; apply (Rabs_no_R0 t); assumption).
  destruct i as [|[|i]]; [| |lia].
  - pose proof (HH (x 0%nat - y 0%nat) ltac:(lra)). lra.
  - pose proof (HH (x 1%nat - y 1%nat) ltac:(lra)). lra.
Qed.

Definition lit_grid : list (pt R) := [pt2 0 0; pt2 1 0; pt2 3 1; pt2 0 2; pt2 1 3; pt2 3 3].
Lemma lit_grid_ok : length lit_grid = (3 * 2)%nat /\
  spread taxicab ChordLength (rows_of lit_grid 3 2) 3 /\ spread taxicab ChordLength (cols_of lit_grid 3 2) 2 /\
  exists s, @interpolate_grid R (NumR (1 / 10)) gauss
    (fun l => @curve_parametrization R (NumR (1 / 10)) taxicab sqrt l ChordLength true) 2 lit_grid 2 2 1 = Ok s /\
    evaluable_surface (1 / 10) s.
Proof.
  assert (Hpos : forall a b, 0 <= taxicab a b) by (intros a b; apply taxicab_separates).
  assert (Su : spread taxicab ChordLength (rows_of lit_grid 3 2) 3).
  { split; [intros r i _ _; apply Hpos|]. intros i Hi. exists (row lit_grid 3 0). split; [left; reflexivity|].
    destruct i as [|[|i]]; [| |lia]; unfold chord, taxicab, pts_at, row, lit_grid; cbn; unfold Rabs; repeat destruct Rcase_abs; lra. }
  assert (Sv : spread taxicab ChordLength (cols_of lit_grid 3 2) 2).
  { split; [intros r i _ _; apply Hpos|]. intros i Hi. exists (col lit_grid 3 2 0). split; [left; reflexivity|].
    assert (i = 0%nat) as -> by lia. unfold chord, taxicab, pts_at, col, lit_grid; cbn; unfold Rabs; repeat destruct Rcase_abs; lra. }
  split; [reflexivity|]. split; [exact Su|]. split; [exact Sv|].
  apply (grid_returns (1 / 10)) with (nu := 3%nat); try assumption; try lia; try lra; try reflexivity. apply gauss_complete.
Qed.

(** Values at the four corners of a bilinear patch. *)
Definition lit_corners : list (@scons R) :=
  [mksc 0 0 (pt2 0 0) 0 0; mksc 1 0 (pt2 1 0) 0 0; mksc 0 1 (pt2 0 2) 0 0; mksc 1 1 (pt2 4 4) 0 0].

Lemma lit_knots_2 (k : list R) : @build_mult_flat_knots_range R (NumR (1 / 10)) 0 1 (2 + (2 - (1 + 1)) / 1) 1 1 = Ok k -> 
  knots_ok k 2 1 /\ clamped_vector k 2 1 0 1 /\ kn k 1 = 0 /\ kn k 2 = 1.
Proof.
  intros E. destruct (mult_knots (1 / 10) 0 1 2 1 1 k ltac:(lra) ltac:(lia) ltac:(lia) E) as (L & H). destruct (H eq_refl) as (Hk & H1 & H2 & H3 & H4).
  cbn in L. assert (Lk : length k = 4%nat) by lia. split; [exact Hk|]. split; [|auto].
  split; [exact Lk|]. split; [apply Hk|]. rewrite Lk in H4. cbn in H4.
  split; [intros i Hi; destruct i as [|[|i]]; [exact H3|exact H1|lia]|].
  split; [intros i Hi; destruct i as [|[|[|[|i]]]]; try lia; [exact H2|exact H4]|]. intros; lia.
Qed.
Lemma lit_rv (k : list R) : @build_mult_flat_knots_range R (NumR (1 / 10)) 0 1 (2 + (2 - (1 + 1)) / 1) 1 1 = Ok k ->
  forall i j, (i < 2)%nat -> (j < 2)%nat -> rv (1 / 10) k 2 1 (nth i [0; 1] 0) 0 j = if Nat.eqb i j then 1 else 0.
Proof.
  intros E i j Hi Hj. destruct (lit_knots_2 k E) as (Hk & Hc & H1 & H2).
  apply (hat_rows (1 / 10) k 2 [0; 1]); auto; try lra.
  - intros a b Hab Hb. cbn in Hb. assert (a = 0%nat /\ b = 1%nat) as (-> & ->) by lia. unfold kn. cbn. lra.
  - intros a Ha. destruct a as [|[|a]]; [exact H1|exact H2|lia].
Qed.

Lemma lit_corners_ok : length lit_corners = (2 * 2)%nat /\
  (forall c, In c lit_corners -> 0 <= sc_u c <= 1 /\ 0 <= sc_v c <= 1) /\
  (forall ku kv, @build_mult_flat_knots_range R (NumR (1 / 10)) 0 1 (2 + (2 - (1 + 1)) / 1) 1 1 = Ok ku ->
     @build_mult_flat_knots_range R (NumR (1 / 10)) 0 1 (2 + (2 - (1 + 1)) / 1) 1 1 = Ok kv ->
     determine (1 / 10) lit_corners ku kv 1 1) /\
  exists s, @interpolate_surf_constraints R (NumR (1 / 10)) gauss 2 lit_corners 2 1 1 0 1 0 1 1 1 = Ok s /\ evaluable_surface (1 / 10) s.
Proof.
  assert (Hin : forall c, In c lit_corners -> 0 <= sc_u c <= 1 /\ 0 <= sc_v c <= 1).
  { intros c [<-|[<-|[<-|[<-|[]]]]]; cbn; lra. }
  assert (Hdet : forall ku kv, @build_mult_flat_knots_range R (NumR (1 / 10)) 0 1 (2 + (2 - (1 + 1)) / 1) 1 1 = Ok ku ->
     @build_mult_flat_knots_range R (NumR (1 / 10)) 0 1 (2 + (2 - (1 + 1)) / 1) 1 1 = Ok kv -> determine (1 / 10) lit_corners ku kv 1 1).
  { intros ku kv Eu Ev P LP H a Ha. change (length lit_corners) with (2 * 2)%nat in *.
    destruct (lit_knots_2 ku Eu) as (Hu & _ & U1 & U2). destruct (lit_knots_2 kv Ev) as (Hv & _ & V1 & V2).
    pose proof (lit_rv ku Eu) as Ru. pose proof (lit_rv kv Ev) as Rv.
    assert (G : forall i j x, (i < 2)%nat -> (j < 2)%nat -> In (mksc (nth i [0; 1] 0) (nth j [0; 1] 0) x 0 0) lit_corners -> pole P 0 (i + 2 * j) = 0).
    { intros i j x Hi Hj Hc. destruct (H _ Hc) as (z & Ez & Hz). cbn [sc_u sc_v sc_du sc_dv] in Ez.
      destruct (surf_rv (1 / 10) ku kv 2 2 1 1 Hu Hv ltac:(left; lia) P (nth i [0; 1] 0) (nth j [0; 1] 0) 0 0 LP) as (z' & Ez' & Vz).
      { split; [rewrite U1, U2|rewrite V1, V2]; [destruct i as [|[|]]|destruct j as [|[|]]]; cbn; try lra; lia. }
      rewrite Ez in Ez'. injection Ez' as <-. rewrite Vz in Hz. cbn [sumn] in Hz.
      rewrite !Ru, !Rv in Hz by lia.
      destruct i as [|[|]]; [| |lia]; (destruct j as [|[|]]; [| |lia]); cbn [Nat.eqb Nat.add Nat.mul] in Hz |- *; lra. }
    change (pole P 0 a = 0).
    destruct a as [|[|[|[|a]]]]; [| | | |cbn in Ha; lia].
    - apply (G 0%nat 0%nat (pt2 0 0)); [lia|lia|]. left. reflexivity.
    - apply (G 1%nat 0%nat (pt2 1 0)); [lia|lia|]. right. left. reflexivity.
    - apply (G 0%nat 1%nat (pt2 0 2)); [lia|lia|]. right. right. left. reflexivity.
    - apply (G 1%nat 1%nat (pt2 4 4)); [lia|lia|]. right. right. right. left. reflexivity. }
  split; [reflexivity|]. split; [exact Hin|]. split; [exact Hdet|].
  apply (surf_constraints_returns (1 / 10)) with (nu := 2%nat); try lia; try lra; try reflexivity; try assumption. apply gauss_complete.
Qed.

(** Two sections. *)
Lemma lit_loftable : loftable (1 / 10) lit_curve [lit_curve; lit_curve2].
Proof.
  split; [|exact lit_apart]. intros c [<-|[<-|[]]]; (split; [|cbn; lia]). - apply lit_curve_object. - apply lit_curve2_ok.
Qed.
Lemma lit_differ : forall j c c', nth_error [lit_curve; lit_curve2] j = Some c -> nth_error [lit_curve; lit_curve2] (S j) = Some c' ->
  sections_differ (1 / 10) 2 c c'.
Proof.
  intros j c c' Hj Hj'. destruct j as [|[|j]]; [|discriminate|destruct j; discriminate]. injection Hj as <-. injection Hj' as <-.
  destruct (object_end (1 / 10) lit_curve ltac:(lra) lit_curve_object ltac:(simpl; lia)) as (q1 & E1 & H1).
  destruct (object_end (1 / 10) lit_curve2 ltac:(lra) lit_curve2_ok ltac:(simpl; lia)) as (q2 & E2 & H2).
  exists 1, q1, q2, 0%nat. split; [lra|]. split; [lia|].
  rewrite !(value_guard_eval (1 / 10)) by (cbn; lra).
  split; [replace (c_lo lit_curve + 1 * (c_hi lit_curve - c_lo lit_curve)) with (c_hi lit_curve) by ring; exact E1|].
  split; [replace (c_lo lit_curve2 + 1 * (c_hi lit_curve2 - c_lo lit_curve2)) with (c_hi lit_curve2) by ring; exact E2|].
  rewrite H1, H2. unfold pole. cbn. lra.
Qed.
Lemma lit_loft : exists s, @loft R (NumR (1 / 10)) gauss 2 [lit_curve; lit_curve2] [0; 1] 3 = Ok s /\ evaluable_surface (1 / 10) s.
Proof.
  apply (loft_returns (1 / 10)); try lra; try lia; try reflexivity.
  - apply gauss_complete. - apply lit_loftable.
  - intros a b Hab Hb. cbn in Hb. assert (a = 0%nat /\ b = 1%nat) as (-> & ->) by lia. unfold kn. cbn. lra.
Qed.
Lemma lit_loft_auto : exists s, @loft_auto R (NumR (1 / 10)) gauss
  (fun l => @curve_parametrization R (NumR (1 / 10)) taxicab sqrt l ChordLength false) 2 [lit_curve; lit_curve2] 3 = Ok s /\
  evaluable_surface (1 / 10) s.
Proof.
  apply (loft_auto_returns (1 / 10)); try lra; try lia; try reflexivity.
  - apply gauss_complete. - apply taxicab_separates. - apply lit_loftable. - apply lit_differ.
Qed.

Lemma lit_params : strictly_increasing [0; 1; 3; 4] /\
  exists k, @build_simple_mult_flat_knots R (NumR (1 / 10)) [0; 1; 3; 4] 2 = Ok k /\ interlaced k 2 [0; 1; 3; 4] /\
    evaluable (1 / 10) k 4 2.
Proof.
  assert (S0 : strictly_increasing [0; 1; 3; 4]).
  { apply succ_strict. intros i Hi. cbn in Hi. unfold kn. destruct i as [|[|[|i]]]; cbn; try lra; lia. }
  split; [exact S0|]. destruct (build_simple_spec (1 / 10) [0; 1; 3; 4] 2 ltac:(lia) ltac:(cbn; lia) S0) as (k & Ek & _).
  exists k. split; [exact Ek|]. split; [|left; lia]. apply (averages_interlaced (1 / 10)); [lia|cbn; lia|exact S0|exact Ek].
Qed.
