(** Mathematical vocabulary used by the statements: finite sums over R, knot
    functions of knot lists. *)
From Coq Require Import List Reals.
Import ListNotations.
Local Open Scope R_scope.

(** sum_{i<n} f i *)
Fixpoint sumn (n : nat) (f : nat -> R) : R :=
  match n with O => 0 | S m => sumn m f + f m end.

(** The knot vector [k] seen as a sequence (only indices below its length are
    meaningful; statements guard the index). *)
Definition kn (k : list R) (i : nat) : R := nth i k 0.

(** k_0 <= k_1 <= ... *)
Definition nondecreasing (k : list R) : Prop :=
  forall i j, (i <= j)%nat -> (j < length k)%nat -> kn k i <= kn k j.
