(** Vocabulary for knot vectors given as knots and multiplicities. *)
From Coq Require Import List Reals.
From Verif Require Import Model_Base Model_Math Spec_Base.
Import ListNotations.
Local Open Scope R_scope.

(** Each knot repeated as often as its multiplicity says. *)
Fixpoint repeat_each (ks : list R) (ms : list nat) : list R :=
  match ks, ms with k :: ks, m :: ms => repeat k m ++ repeat_each ks ms | _, _ => [] end.

(** Consecutive knots are more than [gap] apart, in increasing order. *)
Definition spaced (gap : R) (ks : list R) : Prop :=
  forall i, (S i < length ks)%nat -> kn ks i + gap < kn ks (S i).

Definition strictly_increasing (ks : list R) : Prop :=
  forall i j, (i < j)%nat -> (j < length ks)%nat -> kn ks i < kn ks j.

(** A clamped knot vector of degree p with n poles on [a, b]: the first and the last p+1
    entries are the end points, the others strictly inside and in order. *)
Definition clamped_vector (k : list R) (n p : nat) (a b : R) : Prop :=
  length k = (n + p + 1)%nat /\ nondecreasing k /\
  (forall i, (i <= p)%nat -> kn k i = a) /\
  (forall i, (n <= i <= n + p)%nat -> kn k i = b) /\
  (forall i, (p < i < n)%nat -> a < kn k i < b).

(** The increments of the parametrisation of a list of points. *)
Definition pts_at (pts : list (pt R)) (i : nat) : pt R := nth i pts (fun _ => 0).
Definition chord (dist : pt R -> pt R -> R) (pts : list (pt R)) (mode : calc_mode) (j : nat) : R :=
  match mode with
  | ChordLength => dist (pts_at pts (S j)) (pts_at pts j)
  | Centripetal => sqrt (dist (pts_at pts (S j)) (pts_at pts j))
  | EquallySpaced => 1 / INR (length pts - 1)
  end.
