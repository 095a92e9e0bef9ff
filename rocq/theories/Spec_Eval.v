(** Observations on outcomes, used by the statements about evaluation. *)
From Coq Require Import List Reals.
From Verif Require Import Model_Base Spec_Base Spec_Basis.
Import ListNotations.
Local Open Scope R_scope.

(** Coordinate [c] of the i-th pole. *)
Definition polec (poles : list (pt R)) (c i : nat) : R := nth i poles (fun _ => 0) c.

(** Coordinate [c] of an evaluation that succeeded (0 otherwise: statements using it
    also say that the evaluation succeeds). *)
Definition val (r : result (pt R)) (c : nat) : R :=
  match r with Ok q => q c | _ => 0 end.

(** Degrees the stack evaluator handles (24 is bspline_stack_max_degree), or data
    on which the recursive evaluator is exact. *)
Definition evaluable (eps : R) (k : list R) (n p : nat) : Prop :=
  (p <= 24)%nat \/ (end_clamped k n p /\ separated eps k /\ 0 < eps).
