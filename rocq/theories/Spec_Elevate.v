(** Vocabulary of degree elevation and Bezier decomposition. *)
From Coq Require Import List Arith Reals.
From Verif Require Import Model_Base Spec_Base Spec_Basis Spec_Knots Spec_Eval Spec_Rational.
Import ListNotations.
Local Open Scope R_scope.

(** The Bezier polynomial of degree p with coefficients B at x in [0, 1]. *)
Definition bernstein (p : nat) (B : nat -> R) (x : R) : R :=
  sumn (p + 1) (fun j => INR (binom p j) * (1 - x) ^ (p - j) * x ^ j * B j).

(** The distinct knots U, more than eps apart, with multiplicities M: p + 1 at both ends, at
    most p inside. *)
Definition clamped_knots (eps : R) (p : nat) (U : list R) (M : list nat) : Prop :=
  length M = length U /\ (2 <= length U)%nat /\ spaced eps U /\
  nth 0 M 0%nat = (p + 1)%nat /\ nth (length U - 1) M 0%nat = (p + 1)%nat /\
  forall i, (0 < i < length U - 1)%nat -> (1 <= nth i M 0 <= p)%nat.

(** The number of poles that go with these multiplicities. *)
Definition poles_for (p : nat) (M : list nat) : nat := (list_sum M - p - 1)%nat.

(** A point of the plane, for the examples. *)
Definition pt2 (x y : R) : pt R := fun c => match c with 0%nat => x | 1%nat => y | _ => 0 end.
