(** C15: the class invariant through histories of calls. *)
From Coq Require Import List Reals.
From Verif Require Import Model_Base Model_Curve Model_Elevate Spec_Base Spec_Basis Spec_Class Spec_History Proof_Elevate6 Proof_History.
Import ListNotations.
Local Open Scope R_scope.

(** From a clamped curve, every finite sequence of meaningful calls that return leads to a curve
    of the right shape, clamped, and with usable spans. *)
Theorem C15_history : forall eps c l c', 0 < eps -> standard c -> calls eps c l c' ->
  standard c' /\ shape_ok c' /\ well_formed c'.
Proof. exact calls_inv. Qed.
Print Assumptions C15_history.
Example C15_history_nonvacuous : standard lit_curve /\
  exists c', calls (1 / 10) lit_curve [Increase 1; Basic Reverse] c' /\ c_deg c' = 3%nat.
Proof. exact lit_calls. Qed.
