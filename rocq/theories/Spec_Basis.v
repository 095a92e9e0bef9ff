(** Specification: the Cox - de Boor B-spline basis and B-spline curves, as in the
    textbooks, over the real numbers.  Independent of the model. *)
From Coq Require Import List Reals.
From Verif Require Import Spec_Base.
Import ListNotations.
Local Open Scope R_scope.

(** a / b with the B-spline convention 0/0 = 0. *)
Definition gdiv (a b : R) : R := if Req_EM_T b 0 then 0 else a / b.

(** N_{i,p}(u), half-open intervals [k_i, k_{i+1}). *)
Fixpoint N (k : nat -> R) (p i : nat) (u : R) : R :=
  match p with
  | O => if Rle_dec (k i) u then if Rlt_dec u (k (S i)) then 1 else 0 else 0
  | S q => gdiv (u - k i) (k (i + p)%nat - k i) * N k q i u
         + gdiv (k (i + p + 1)%nat - u) (k (i + p + 1)%nat - k (S i)) * N k q (S i) u
  end.

(** The same with half-open intervals (k_i, k_{i+1}]: N_{i,p}(u-). *)
Fixpoint NL (k : nat -> R) (p i : nat) (u : R) : R :=
  match p with
  | O => if Rlt_dec (k i) u then if Rle_dec u (k (S i)) then 1 else 0 else 0
  | S q => gdiv (u - k i) (k (i + p)%nat - k i) * NL k q i u
         + gdiv (k (i + p + 1)%nat - u) (k (i + p + 1)%nat - k (S i)) * NL k q (S i) u
  end.

(** Basis of a spline with [n] poles: right-continuous inside the domain
    [k_p, k_n], continuous from the left at its end k_n. *)
Definition Nbas (k : nat -> R) (n p i : nat) (u : R) : R :=
  if Rlt_dec u (k n) then N k p i u else NL k p i u.

(** A coordinate of the curve: sum_{i<n} N_{i,p}(u) P_i. *)
Definition spline (k : nat -> R) (n p : nat) (P : nat -> R) (u : R) : R :=
  sumn n (fun i => Nbas k n p i u * P i).

(** A knot vector fit for [n] poles of degree [p]: n+p+1 non-decreasing knots, at
    least p+1 poles, a non-empty last span of the domain [k_p, k_n]. *)
Definition knots_ok (k : list R) (n p : nat) : Prop :=
  length k = (n + p + 1)%nat /\ (p < n)%nat /\ nondecreasing k /\
  kn k (n - 1) < kn k n.

(** Both ends clamped: multiplicity p+1. *)
Definition clamped (k : list R) (n p : nat) : Prop :=
  (forall i, (i <= p)%nat -> kn k i = kn k 0) /\
  (forall i, (n <= i <= n + p)%nat -> kn k i = kn k n).

(** f has the right (left) derivative [l] at [x]. *)
Definition right_deriv (f : R -> R) (x l : R) : Prop :=
  forall e, 0 < e -> exists d, 0 < d /\
    forall h, 0 < h < d -> Rabs ((f (x + h) - f x) / h - l) < e.
Definition left_deriv (f : R -> R) (x l : R) : Prop :=
  forall e, 0 < e -> exists d, 0 < d /\
    forall h, 0 < h < d -> Rabs ((f (x - h) - f x) / (- h) - l) < e.

(** Last knot repeated up to the end of the vector. *)
Definition end_clamped (k : list R) (n p : nat) : Prop :=
  forall i, (n <= i <= n + p)%nat -> kn k i = kn k n.

(** Knots are equal or further apart than [eps]. *)
Definition separated (eps : R) (k : list R) : Prop :=
  forall i j, (i <= j)%nat -> (j < length k)%nat -> kn k i = kn k j \/ eps < kn k j - kn k i.
