(** Vocabulary for the statements about the curve builders. *)
From Coq Require Import List Reals.
From Verif Require Import Model_Base Model_Curve Spec_Base Spec_Class.
Local Open Scope R_scope.

(** Squared euclidean length of a vector of [dim] coordinates. *)
Fixpoint sqlen (dim : nat) (a : nat -> R) : R :=
  match dim with O => 0 | S m => sqlen m a + a m ^ 2 end.

(** No knot of the curve has more than [degree] copies after the first copy and before the
    last one: the curve is continuous. *)
Definition continuous_knots (c : curve R) : Prop :=
  forall i, (1 <= i < c_n c)%nat -> kn (c_knots c) i < kn (c_knots c) (i + c_deg c).

(** Every basis function has a support of positive length. *)
Definition no_empty_support (c : curve R) : Prop :=
  forall i, (i < c_n c)%nat -> kn (c_knots c) i < kn (c_knots c) (i + c_deg c + 1).
