(** Vocabulary for the statements about rotations and frames: plain vector algebra. *)
From Coq Require Import Reals.
From Verif Require Import Spec_Build.
Local Open Scope R_scope.

Definition vec := nat -> R.

(** Two points agree on the first [dim] coordinates. *)
Definition same (dim : nat) (a b : vec) : Prop := forall i, (i < dim)%nat -> a i = b i.

Definition dot3 (a b : vec) : R := a 0%nat * b 0%nat + a 1%nat * b 1%nat + a 2%nat * b 2%nat.
Definition cross3 (a b : vec) : vec := fun i =>
  match i with
  | 0%nat => a 1%nat * b 2%nat - a 2%nat * b 1%nat
  | 1%nat => a 2%nat * b 0%nat - a 0%nat * b 2%nat
  | 2%nat => a 0%nat * b 1%nat - a 1%nat * b 0%nat
  | _ => 0
  end.
Definition len (dim : nat) (a : vec) : R := sqrt (sqlen dim a).
(** Direction of a vector. *)
Definition unit (dim : nat) (a : vec) : vec := fun i => a i / len dim a.
Definition nonzero (dim : nat) (a : vec) : Prop := exists i, (i < dim)%nat /\ a i <> 0.
Definition sqdist (dim : nat) (a b : vec) : R := sqlen dim (fun i => a i - b i).

(** The right-handed rotation by the angle a about the unit vector n: the part of x along n
    is kept, the part normal to n turns by a (n, x, n x x direct). *)
Definition rot (n : vec) (a : R) (x : vec) : vec := fun i =>
  dot3 n x * n i + cos a * (x i - dot3 n x * n i) + sin a * cross3 n x i.
