(** Literal cases of degree elevation. *)
From Coq Require Import List Arith Reals Lia Lra.
From Verif Require Import Model_Base Model_Curve Model_Surface Spec_Base Spec_Basis Spec_Knots Spec_Eval Spec_Class Spec_Surface Spec_Elevate
  Proof_Elevate2.
Import ListNotations.
Local Open Scope R_scope.

Definition lit_curve : curve R := mk 2 [pt2 0 0; pt2 1 2; pt2 3 0; pt2 4 1] [0; 0; 0; 1; 2; 2; 2] 0 2.
Definition lit_surf : surf R :=
  mks 2 1 [pt2 0 0; pt2 1 2; pt2 3 0; pt2 4 1; pt2 0 5; pt2 1 6; pt2 3 7; pt2 4 8] [0; 0; 0; 1; 2; 2; 2] [0; 0; 1; 1] 0 2 0 1.

Lemma lit_bezier : length [pt2 0 0; pt2 1 2; pt2 3 0] = (2 + 1)%nat /\ (2 + 1 <= 12)%nat.
Proof. cbn. lia. Qed.
Lemma lit_k1 : clamped_knots (1 / 10) 2 [0; 1; 2] [3; 1; 3]%nat.
Proof.
  split; [reflexivity|]. split; [cbn; lia|]. split.
  { intros i Hi. cbn in Hi. destruct i as [|[|i]]; unfold kn; cbn; try lra; lia. }
  do 2 (split; [reflexivity|]). intros i Hi. cbn in Hi. destruct i as [|[|i]]; cbn; lia.
Qed.
Lemma lit_k2 : clamped_knots (1 / 10) 1 [0; 1] [2; 2]%nat.
Proof.
  split; [reflexivity|]. split; [cbn; lia|]. split.
  { intros i Hi. cbn in Hi. destruct i as [|i]; unfold kn; cbn; try lra; lia. }
  do 2 (split; [reflexivity|]). intros i Hi. cbn in Hi. lia.
Qed.
Lemma lit_curve_ok : 0 < 1 / 10 /\ clamped_knots (1 / 10) 2 [0; 1; 2] [3; 1; 3]%nat /\
  c_knots lit_curve = repeat_each [0; 1; 2] [3; 1; 3]%nat /\ c_deg lit_curve = 2%nat /\
  length (c_poles lit_curve) = poles_for 2 [3; 1; 3]%nat /\ natural_bounds lit_curve /\ (2 + 1 <= 12)%nat.
Proof.
  split; [lra|]. split; [exact lit_k1|]. do 3 (split; [reflexivity|]). split; [split; reflexivity|lia].
Qed.
Lemma lit_segments_ok : 0 < 1 / 10 /\ clamped_knots (1 / 10) 2 [0; 1; 2] [3; 1; 3]%nat /\
  length (c_poles lit_curve) = poles_for 2 [3; 1; 3]%nat /\ (2 <= 24)%nat.
Proof. split; [lra|]. split; [exact lit_k1|]. split; [reflexivity|lia]. Qed.
Lemma lit_surf_ok : surface_ok lit_surf /\ natural_surface lit_surf /\
  s_ku lit_surf = repeat_each [0; 1; 2] [3; 1; 3]%nat /\ clamped_knots (1 / 10) (s_degU lit_surf) [0; 1; 2] [3; 1; 3]%nat /\
  s_kv lit_surf = repeat_each [0; 1] [2; 2]%nat /\ clamped_knots (1 / 10) (s_degV lit_surf) [0; 1] [2; 2]%nat /\
  evaluable_surface (1 / 10) lit_surf.
Proof.
  assert (K1 : ckn 2 [0; 1; 2] [3; 1; 3]%nat) by (apply (ck_ckn (1 / 10)); [lra|exact lit_k1]).
  assert (K2 : ckn 1 [0; 1] [2; 2]%nat) by (apply (ck_ckn (1 / 10)); [lra|exact lit_k2]).
  split. { split; [exact (ck_knots_ok _ _ _ K1)|]. split; [exact (ck_knots_ok _ _ _ K2)|reflexivity]. }
  split. { repeat split. }
  split; [reflexivity|]. split; [exact lit_k1|]. split; [reflexivity|]. split; [exact lit_k2|]. left. cbn. lia.
Qed.
