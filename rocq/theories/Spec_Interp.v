(** Vocabulary of the interpolation and approximation statements: matrices as
    functions of row and column, linear systems, exact solvers. *)
From Coq Require Import List Arith Bool Reals.
From Verif Require Import Model_Base Model_Curve Model_Interp Spec_Base Spec_Basis.
Import ListNotations.
Local Open Scope R_scope.

(** A x = b, for an n x m matrix *)
Definition solves (n m : nat) (A : nat -> nat -> R) (x b : list R) : Prop :=
  length x = m /\ length b = n /\
  forall i, (i < n)%nat -> sumn m (fun j => A i j * nth j x 0) = nth i b 0.

(** The matrix kept by a row-by-row band storage of half widths kl and ku:
    entry (i, j) with -kl <= j - i <= ku sits at i*(kl+ku+1) + (j-i+kl), the others
    are zero. *)
Definition banded (kl ku : nat) (M : list R) (i j : nat) : R :=
  if ((i <=? j + kl) && (j <=? i + ku))%nat
  then nth (i * (kl + ku + 1) + (j + kl - i)) M 0 else 0.

(** A linear solver that, when it returns, returns a solution. *)
Definition exact_solver (S : @solver R) : Prop :=
  forall N b x, S N b = Ok x -> length b = m_rows N ->
    solves (m_rows N) (m_cols N) (m_cell N) x b.

(** Leading LU factorisation without row exchanges, of an n x n matrix: unit lower
    factor with entries of size at most [g], pivots larger than [tol]. *)
Definition lu_factors (n : nat) (A : nat -> nat -> R) (tol g : R) (L U : nat -> nat -> R) : Prop :=
  (forall i m, (i < m)%nat -> L i m = 0) /\ (forall i, L i i = 1) /\
  (forall m j, (j < m)%nat -> U m j = 0) /\
  (forall m, (m < n)%nat -> tol < Rabs (U m m)) /\
  (forall i m, (m < i < n)%nat -> Rabs (L i m) <= g) /\
  (forall i j, (i < n)%nat -> (j < n)%nat -> A i j = sumn n (fun m => L i m * U m j)).

(** The d-th derivative of the curve [c] at [u] is the point [q] (of [dim] coordinates). *)
Definition passes (eps : R) (dim : nat) (c : curve R) (u : R) (d : nat) (q : pt R) : Prop :=
  exists v, @value R (NumR eps) c u d = Ok v /\ forall i, (i < dim)%nat -> v i = q i.

(** Coordinate [c] of the sum of squared distances between the points Q_i and the
    spline of poles [P] at u_i, lo <= i < lo + m. *)
Definition sq_err (k : list R) (n p : nat) (P : list (pt R)) (u : list R) (Q : list (pt R))
    (c lo m : nat) : R :=
  sumn m (fun i => (spline (kn k) n p (fun j => nth j P (fun _ => 0) c) (nth (lo + i) u 0)
                    - nth (lo + i) Q (fun _ => 0) c) ^ 2).

(** Neither undefined behaviour nor an endless loop: a value or an exception. *)
Definition defined {A} (r : result A) : Prop :=
  match r with Ok _ | Throw _ => True | _ => False end.
