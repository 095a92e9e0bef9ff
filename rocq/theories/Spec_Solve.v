(** Linear systems with one solution; solvers that find it. *)
From Coq Require Import List Arith Reals.
From Verif Require Import Model_Base Model_Interp Spec_Base Spec_Basis Spec_Knots Spec_Interp.
Local Open Scope R_scope.

Definition nonsingular (n : nat) (A : nat -> nat -> R) : Prop :=
  forall x, (forall i, (i < n)%nat -> sumn n (fun j => A i j * x j) = 0) -> forall j, (j < n)%nat -> x j = 0.

(** What it returns is a solution, and it returns for every nonsingular matrix. *)
Definition complete_solver (S : @solver R) : Prop :=
  exact_solver S /\
  forall N b, m_rows N = m_cols N -> length b = m_rows N -> nonsingular (m_rows N) (m_cell N) ->
    exists x, S N b = Ok x.

(** Knots clamped at the first and last parameters, simple in between, and each parameter
    inside the support of the basis function of its rank. *)
Definition interlaced (k : list R) (p : nat) (u : list R) : Prop :=
  let n := length u in
  strictly_increasing u /\ clamped_vector k n p (kn u 0) (kn u (n - 1)) /\
  (forall i, (p <= i < n)%nat -> kn k i < kn k (S i)) /\
  (forall i, (0 < i < n - 1)%nat -> kn k i < kn u i < kn k (i + p + 1)).
