(** Histories of calls of the modifying member functions of a curve, increaseDegree included. *)
From Coq Require Import List Reals.
From Verif Require Import Model_Base Model_Curve Model_Elevate Spec_Base Spec_Basis Spec_Class.
Import ListNotations.
Local Open Scope R_scope.

(** A call: one of those of Spec_Class, or increaseDegree. *)
Inductive call := Basic (o : op) | Increase (step : nat).
Definition run_call (eps : R) (c : curve R) (a : call) : result (curve R) :=
  match a with Basic o => run_op eps c o | Increase t => @increaseDegree R (NumR eps) c t end.
(** Meaningful calls.  For increaseDegree: the knots are equal or more than eps apart, and the
    new degree is one for which the binomials fit in an int. *)
Definition meaningful (eps : R) (c : curve R) (a : call) : Prop :=
  match a with Basic o => sensible c o | Increase t => separated eps (c_knots c) /\ (c_deg c + t <= 12)%nat end.
(** Finite sequences of meaningful calls that return. *)
Inductive calls (eps : R) (c : curve R) : list call -> curve R -> Prop :=
| no_call : calls eps c [] c
| one_more l c1 a c2 : calls eps c l c1 -> meaningful eps c1 a -> run_call eps c1 a = Ok c2 -> calls eps c (l ++ [a]) c2.
