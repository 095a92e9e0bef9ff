(** C95 and the derivatives of C05: the recursive basis functions of the host and of the device. *)
From Coq Require Import List Arith Reals.
From Verif Require Import Model_Base Model_Basis Model_Cuda Spec_Base Spec_Basis Proof_Cuda.
Import ListNotations.
Local Open Scope R_scope.

(** C05: between two knots, order d + 1 of the recursive basis function is the derivative of
    order d; above the degree it is 0. *)
Theorem C05_derivative : forall eps k n p i d l u f,
  knots_ok k n p -> end_clamped k n p -> separated eps k -> 0 < eps ->
  (p <= l < n)%nat -> kn k l < u < kn k (S l) -> (i < n)%nat ->
  (forall x, kn k l < x < kn k (S l) -> @basis_function R (NumR eps) x i p d k = Ok (f x)) ->
  exists v, @basis_function R (NumR eps) u i p (S d) k = Ok v /\ derivable_pt_lim f u v.
Proof. exact basis_derivative. Qed.
Print Assumptions C05_derivative.
Theorem C05_above : forall eps u i p d k, (p < d)%nat -> @basis_function R (NumR eps) u i p d k = Ok 0.
Proof. exact basis_above. Qed.
Print Assumptions C05_above.

(** C95: the basis function of the device is the textbook one, when distinct knots are further
    apart than the tolerance; the overload with an order agrees at order 0 ... *)
Theorem C95_device : forall eps k n p u i,
  knots_ok k n p -> end_clamped k n p -> separated eps k -> 0 < eps -> kn k p <= u <= kn k n -> (i < n)%nat ->
  @cuda_basis R (NumR eps) p u i k = Ok (Nbas (kn k) n p i u) /\
  @cuda_basis_der R (NumR eps) 0 p u i k = Ok (Nbas (kn k) n p i u).
Proof. exact cuda_value. Qed.
Print Assumptions C95_device.

(** ... is 0 above the degree ... *)
Theorem C95_above : forall eps d p u i k, (p < d)%nat -> @cuda_basis_der R (NumR eps) d p u i k = Ok 0.
Proof. exact cuda_above. Qed.
Print Assumptions C95_above.

(** ... is not the derivative at order 1 ... *)
Theorem C95_derivative_refuted : forall eps, 0 < eps < 1 -> exists k n p i u v w,
  knots_ok k n p /\ end_clamped k n p /\ separated eps k /\ kn k p < u < kn k n /\ (i < n)%nat /\ (1 <= p)%nat /\
  @cuda_basis_der R (NumR eps) 1 p u i k = Ok v /\ derivable_pt_lim (Nbas (kn k) n p i) u w /\ v <> w.
Proof. exact cuda_wrong. Qed.
Print Assumptions C95_derivative_refuted.

(** ... but for the last function, whose second term is absent. *)
Theorem C95_derivative_partial : forall eps k n p l u,
  knots_ok k n p -> end_clamped k n p -> separated eps k -> 0 < eps ->
  (1 <= p <= l)%nat -> (l < n)%nat -> kn k l < u < kn k (S l) ->
  exists v, @cuda_basis_der R (NumR eps) 1 p u (n - 1) k = Ok v /\ derivable_pt_lim (Nbas (kn k) n p (n - 1)) u v.
Proof. exact cuda_last_derivative. Qed.
Print Assumptions C95_derivative_partial.
Example C95_nonvacuous : forall eps, eps < 1 -> knots_ok [0;0;1;1] 2 1 /\ end_clamped [0;0;1;1] 2 1 /\ separated eps [0;0;1;1].
Proof. exact ex_line. Qed.
