(** Vocabulary of the statements about lofts guided by a spine. *)
From Coq Require Import List Arith QArith Reals.
From Verif Require Import Model_Base Model_Math Model_Curve Model_Interp Model_Rational Model_Basis Spec_Base Spec_Basis Spec_Knots Spec_Unify.
Import ListNotations.
Local Open Scope R_scope.

(** The sections [cs] brought to the degree [m] and the knots [k], on the interval of the first
    one [c0]. *)
Definition common_form (eps : R) (c0 : curve R) (cs : list (curve R)) (m : nat) (k : list R) (us : list (curve R)) : Prop :=
  length us = length cs /\
  forall j c, nth_error cs j = Some c -> exists P, nth_error us j = Some (mk m P k (c_lo c0) (c_hi c0)) /\
    (length P + m + 1 = length k)%nat /\
    forall x d, c_lo c <= x <= c_hi c -> exists z z', @value R (NumR eps) c x d = Ok z /\
      @value R (NumR eps) (mk m P k (c_lo c0) (c_hi c0)) (rescale (c_knots c0) (c_knots c) x) d = Ok z' /\
      forall i, ratio (c_knots c0) (c_knots c) ^ d * z' i = z i.

(** The poles of index i of all sections. *)
Definition pole_column (us : list (curve R)) (i : nat) : list (pt R) := map (fun c => nth i (c_poles c) (fun _ => 0)) us.
Definition pole_columns (us : list (curve R)) (nu : nat) : list (list (pt R)) := map (pole_column us) (seq 0 nu).

(** The length of the steps next to point j, among n points; [len j] is the step from j to
    j + 1. *)
Definition around (n j : nat) (len : nat -> R) : R :=
  if (j =? 0)%nat then len 0%nat else if (j =? n - 1)%nat then len (n - 2)%nat else len j + len (j - 1)%nat.
Definition steps (dist : pt R -> pt R -> R) (l : list (pt R)) (j : nat) : R := dist (pts_at l j) (pts_at l (S j)).

(** How much longer the column is than the spine, next to section j. *)
Definition stretch (dist : pt R -> pt R -> R) (column feet : list (pt R)) (j : nat) : R :=
  around (length feet) j (steps dist column) / around (length feet) j (steps dist feet).

(** The spline function with the given coefficients takes the value y at x. *)
Definition spline_at (eps : R) (k : list R) (m : nat) (coefs : list R) (x y : R) : Prop :=
  exists z, @eval_value R (NumR eps) x k (map (fun a _ => a) coefs) m 0 = Ok z /\ z 0%nat = y.

(** Solvers over the rational numbers: the sums of their equations hold. *)
Fixpoint sumq (n : nat) (f : nat -> QArith_base.Q) : QArith_base.Q :=
  match n with O => 0%Q | S n => (sumq n f + f n)%Q end.
Definition exact_solver_q (S : @solver QArith_base.Q) : Prop :=
  forall N b x, S N b = Ok x -> length b = m_rows N ->
    forall i, (i < m_rows N)%nat -> (sumq (m_cols N) (fun j => m_cell N i j * nth j x 0) == nth i b 0)%Q.
