(** Vocabulary of connections and extensions of curves. *)
From Coq Require Import List Arith Reals.
From Verif Require Import Model_Base Model_Curve Model_Wrap Spec_Base Spec_Basis Spec_Eval Spec_Build.
Import ListNotations.
Local Open Scope R_scope.

(** The value and the derivatives up to order n of a curve at x are the points a_0 .. a_n. *)
Definition jet_is (g : gcurve R) (x : R) (n : nat) (a : nat -> pt R) : Prop :=
  forall d, (d <= n)%nat -> g_value g x d = Ok (a d).
Definition curve_jet (eps : R) (c : curve R) (x : R) (n : nat) (a : nat -> pt R) : Prop :=
  forall d, (d <= n)%nat -> @value R (NumR eps) c x d = Ok (a d).

(** The order of continuity an extension of a curve of degree p keeps: one less than the
    degree, or less on demand. *)
Definition continuity (p : nat) (max_cont : option nat) : nat :=
  match max_cont with None => p - 1 | Some m => min (p - 1) m end.

(** Two curves have the same points (first [dim] coordinates), up to a shift of the parameter. *)
Definition same_points (eps : R) (dim : nat) (c c' : curve R) (x y : R) (d : nat) : Prop :=
  exists q q', @value R (NumR eps) c x d = Ok q /\ @value R (NumR eps) c' y d = Ok q' /\
    forall i, (i < dim)%nat -> q' i = q i.

(** The euclidean norm of the first [dim] coordinates. *)
Definition euclidean (dim : nat) (norm : pt R -> R) : Prop := forall v, norm v = sqrt (sqlen dim v).

(** The parameter length the program gives to an extension from the end point e with the
    derivative t to the point q: |e - q|^2 / |t|. *)
Definition extension_length (dim : nat) (e t q : pt R) : R :=
  sqlen dim (fun i => e i - q i) / sqrt (sqlen dim t).

(** At x, the derivatives up to order m of the curve fit from both sides: each one below m
    has the next one as its left and its right derivative. *)
Definition smooth_through (eps : R) (dim m : nat) (c : curve R) (x : R) : Prop :=
  forall d i, (d < m)%nat -> (i < dim)%nat ->
    let f := fun y => val (@value R (NumR eps) c y d) i in
    let l := val (@value R (NumR eps) c x (S d)) i in
    left_deriv f x l /\ right_deriv f x l.
