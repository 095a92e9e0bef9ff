(** Vocabulary of the statements about lofts approximated along a spine. *)
From Coq Require Import List Arith Reals.
From Verif Require Import Model_Base Model_Knots Model_Curve Model_Basis Spec_Base Spec_Basis Spec_Knots Spec_Unify.
Local Open Scope R_scope.

(** The i-th of n parameters spread evenly from the first knot to the last. *)
Definition even_param (k : list R) (n i : nat) : R :=
  kn k 0 + INR i * ((kn k (length k - 1) - kn k 0) / INR (n - 1)).
(** The stations of the sections: the parameters of their feet on the spine, over the length of
    the range they cover. *)
Definition station (ts : list R) (j : nat) : R := kn ts j / (kn ts (length ts - 1) - kn ts 0).
(** The first and last sections have the extreme feet, and they are apart. *)
Definition ordered_feet (eps : R) (ts : list R) : Prop :=
  eps < kn ts (length ts - 1) - kn ts 0 /\ forall t, In t ts -> kn ts 0 <= t <= kn ts (length ts - 1).
(** Each curve has its foot on the spine. *)
Definition feet_of (extrema : curve R -> curve R -> result R) (spine : curve R) (us : list (curve R)) (ts : list R) : Prop :=
  Forall2 (fun c t => extrema spine c = Ok t) us ts.
(** The knots [ku] cover the interval of [c0], and the section [c], moved to it, is one of their
    splines of degree p. *)
Definition spanned (eps : R) (dim : nat) (ku : list R) (nu p : nat) (c0 c : curve R) : Prop :=
  exists P : list (pt R), length P = nu /\ forall x d, c_lo c <= x <= c_hi c -> exists z z',
    @value R (NumR eps) c x d = Ok z /\
    @eval_value R (NumR eps) (rescale (c_knots c0) (c_knots c) x) ku P p d = Ok z' /\
    forall i, (i < dim)%nat -> ratio (c_knots c0) (c_knots c) ^ d * z' i = z i.
(** All of them, in order. *)
Definition even_params (k : list R) (n : nat) : list R := map (even_param k n) (seq 0 n).
Definition stations (ts : list R) : list R := map (station ts) (seq 0 (length ts)).
