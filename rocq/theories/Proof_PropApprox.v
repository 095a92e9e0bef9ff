(** Literal cases behind Prop_Approx.v. *)
From Coq Require Import List Arith ZArith Reals Lia Lra Bool.
From Verif Require Import Model_Base Model_Math Model_Knots Model_Curve Model_Interp Model_Surface Model_Skin
  Spec_Base Spec_Basis Spec_Knots Spec_Eval Spec_Interp Spec_Surface Spec_Elevate Spec_Skin Spec_Solve Spec_Approx
  Proof_Base Proof_Eval Proof_Interp Proof_Interp4 Proof_SurfEdit2 Proof_Skin1 Proof_Skin3 Proof_Gauss Proof_SW2 Proof_Lsq.
Import ListNotations.
Local Open Scope R_scope.

Definition unit_knots : list R := [0; 0; 1; 1].
Definition three_params : list R := [0; 1 / 2; 1].
Definition nine_points : list (pt R) :=
  [pt2 0 0; pt2 1 0; pt2 2 1; pt2 0 1; pt2 1 1; pt2 2 2; pt2 0 3; pt2 1 2; pt2 2 2].
Definition five_constraints : list (@scons R) :=
  [mksc 0 0 (pt2 0 0) 0 0; mksc 1 0 (pt2 1 0) 0 0; mksc 0 1 (pt2 0 2) 0 0; mksc 1 1 (pt2 4 4) 0 0; mksc (1 / 2) (1 / 2) (pt2 1 1) 1 0].
(** Normal equations solved by elimination. *)
Definition normal_solver : @solver R := fun N b => gauss (@gram R (NumR (1 / 10)) N) (@trans_mul R (NumR (1 / 10)) N b).

Lemma unit_interlaced : interlaced unit_knots 1 [0; 1].
Proof.
  split; [apply succ_strict; intros i Hi; cbn in Hi; assert (i = 0%nat) as -> by lia; unfold kn; cbn; lra|].
  split; [split; [reflexivity|]|].
  - split; [intros i j Hij Hj; cbn in Hj; unfold kn, unit_knots; destruct i as [|[|[|[|]]]], j as [|[|[|[|]]]]; cbn; lra || lia|].
    split; [intros i Hi; destruct i as [|[|]]; [reflexivity|reflexivity|lia]|].
    split; [intros i Hi; cbn in Hi; destruct i as [|[|[|[|]]]]; try lia; reflexivity|]. intros i Hi. cbn in Hi. lia.
  - split; intros i Hi; cbn in Hi; [|lia]. assert (i = 1%nat) as -> by lia. unfold kn. cbn. lra.
Qed.
Lemma unit_ok : knots_ok unit_knots 2 1 /\ evaluable2 (1 / 10) unit_knots 2 1 unit_knots 2 1 /\
  (forall x, In x three_params -> kn unit_knots 1 <= x <= kn unit_knots 2) /\ resolve (1 / 10) unit_knots 2 1 three_params.
Proof.
  destruct (interlaced_knots unit_knots 1 [0; 1] ltac:(lia) ltac:(cbn; lia) unit_interlaced) as (Hk & _).
  split; [exact Hk|]. split; [left; lia|]. split; [intros x [<-|[<-|[<-|[]]]]; unfold kn; cbn; lra|].
  apply (interlaced_resolve (1 / 10) unit_knots 1 [0; 1]); [lia|cbn; lia|exact unit_interlaced|left; lia|].
  intros x [<-|[<-|[]]]; unfold three_params; cbn; auto.
Qed.
Lemma nine_ok : exists P, @approx_grid R (NumR (1 / 10)) gauss 2 nine_points unit_knots unit_knots three_params three_params 1 1 = Ok P.
Proof.
  destruct unit_ok as (Hk & Hev & Hu & Hr). apply (approx_grid_returns (1 / 10)) with (n := 2%nat) (m := 2%nat); try assumption; try (cbn; lia). apply gauss_complete.
Qed.
Lemma five_ok : (forall c, In c five_constraints -> in_rect unit_knots 2 1 unit_knots 2 1 (sc_u c) (sc_v c)).
Proof. intros c [<-|[<-|[<-|[<-|[<-|[]]]]]]; split; unfold kn; cbn; lra. Qed.
Lemma normal_ok : complete_least_squares normal_solver.
Proof. apply (normal_complete (1 / 10)). apply gauss_complete. Qed.
Lemma unit_rv i j : (i < 2)%nat -> (j < 2)%nat -> rv (1 / 10) unit_knots 2 1 (nth i [0; 1] 0) 0 j = if Nat.eqb i j then 1 else 0.
Proof.
  intros Hi Hj. destruct unit_ok as (Hk & _).
  apply (hat_rows (1 / 10) unit_knots 2 [0; 1]); auto; try lra.
  - apply unit_interlaced. - apply unit_interlaced.
  - intros a Ha. destruct a as [|[|a]]; [reflexivity|reflexivity|lia].
Qed.
Lemma five_resolve : resolve_surface (1 / 10) unit_knots unit_knots 2 2 1 1 five_constraints.
Proof.
  intros P LP H a Ha. destruct unit_ok as (Hk & Hev & _).
  assert (G : forall i j x, (i < 2)%nat -> (j < 2)%nat -> In (mksc (nth i [0; 1] 0) (nth j [0; 1] 0) x 0 0) five_constraints -> pole P 0 (i + 2 * j) = 0).
  { intros i j x Hi Hj Hc. destruct (H _ Hc) as (z & Ez & Hz). cbn [sc_u sc_v sc_du sc_dv] in Ez.
    destruct (surf_rv (1 / 10) unit_knots unit_knots 2 2 1 1 Hk Hk Hev P (nth i [0; 1] 0) (nth j [0; 1] 0) 0 0 LP) as (z' & Ez' & Vz).
    { split; unfold kn; [destruct i as [|[|]]|destruct j as [|[|]]]; cbn; try lra; lia. }
    rewrite Ez in Ez'. injection Ez' as <-. rewrite Vz in Hz. cbn [sumn] in Hz.
    rewrite !unit_rv in Hz by lia.
    destruct i as [|[|]]; [| |lia]; (destruct j as [|[|]]; [| |lia]); cbn [Nat.eqb Nat.add Nat.mul] in Hz |- *; lra. }
  change (pole P 0 a = 0).
  destruct a as [|[|[|[|a]]]]; [| | | |cbn in Ha; lia].
  - apply (G 0%nat 0%nat (pt2 0 0)); [lia|lia|]. left. reflexivity.
  - apply (G 1%nat 0%nat (pt2 1 0)); [lia|lia|]. right. left. reflexivity.
  - apply (G 0%nat 1%nat (pt2 0 2)); [lia|lia|]. right. right. left. reflexivity.
  - apply (G 1%nat 1%nat (pt2 4 4)); [lia|lia|]. right. right. right. left. reflexivity.
Qed.
Lemma five_returns : exists s, @approx_surf_constraints R (NumR (1 / 10)) normal_solver 2 five_constraints unit_knots unit_knots 1 1 = Ok s.
Proof.
  destruct unit_ok as (Hk & Hev & _). apply (approx_surf_returns (1 / 10)) with (n := 2%nat) (m := 2%nat); auto; try (cbn; lia).
  - apply normal_ok. - exact five_ok. - exact five_resolve.
Qed.
