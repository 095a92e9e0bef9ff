(** C03, C04, C06, C11: the rest of their statements. *)
From Coq Require Import List Arith Reals.
From Verif Require Import Model_Base Model_Basis Model_Curve Spec_Base Spec_Basis Spec_Eval Spec_Class Proof_ExBasis Proof_PropCurve Proof_Basis2.
Import ListNotations.
Local Open Scope R_scope.

(** C03: the values basis_funcs returns for a non-empty span sum to 1 whatever the parameter, in the
    span or not. *)
Theorem C03_any_parameter : forall eps k p i u, nondecreasing k -> (p <= 24)%nat -> (p <= i)%nat -> (i + p < length k)%nat ->
  kn k i < kn k (i + 1) ->
  exists B, @basis_funcs R (NumR eps) i p u k = Ok B /\ length B = (p + 1)%nat /\ fold_right Rplus 0 B = 1.
Proof. exact partition_any. Qed.
Print Assumptions C03_any_parameter.

(** C04: the values are in [0,1], and basis function j vanishes before k_j and from k_(j+p+1) on,
    the right end of the domain excepted. *)
Theorem C04_range_computed : forall eps k n p u i B, knots_ok k n p -> (p <= 24)%nat -> kn k p <= u <= kn k n ->
  @find_span R (NumR eps) n p u k = Ok i -> @basis_funcs R (NumR eps) i p u k = Ok B ->
  forall r, (r < length B)%nat -> exists b, get B r = Ok b /\ 0 <= b <= 1.
Proof. exact range_computed. Qed.
Print Assumptions C04_range_computed.
Theorem C04_range : forall eps k n p u j, knots_ok k n p -> end_clamped k n p -> separated eps k -> 0 < eps -> kn k p <= u <= kn k n -> (j < n)%nat ->
  exists b, @basis_function R (NumR eps) u j p 0 k = Ok b /\ 0 <= b <= 1 /\ (u < kn k j \/ kn k (j + p + 1) <= u < kn k n -> b = 0).
Proof. exact range_all. Qed.
Print Assumptions C04_range.

(** C06 and C11 for the member functions of curves. *)
Theorem C06_value : forall eps (c : curve R) u, 0 <= eps -> well_formed c -> natural_bounds c -> evaluable_curve eps c -> in_domain c u ->
  exists q, @value R (NumR eps) c u 0 = Ok q /\ forall i, q i = spline (kn (c_knots c)) (c_n c) (c_deg c) (polec (c_poles c) i) u.
Proof. exact value_spline. Qed.
Print Assumptions C06_value.
Theorem C11_derivatives : forall eps (c : curve R) u m, 0 <= eps -> well_formed c -> evaluable_curve eps c -> natural_bounds c -> in_domain c u ->
  exists CK, @derivatives R (NumR eps) c u m = Ok CK /\ length CK = (m + 1)%nat /\
    forall d, (d <= m)%nat -> exists q q', get CK d = Ok q /\ @value R (NumR eps) c u d = Ok q' /\ forall i, q i = q' i.
Proof. exact derivatives_value. Qed.
Print Assumptions C11_derivatives.

Example C04_nonvacuous : let k := [0;0;0;1;1;2;3;3;3] in
  knots_ok k 6 2 /\ clamped k 6 2 /\ end_clamped k 6 2 /\ separated (1/1000) k /\
  evaluable (1/1000) k 6 2 /\ kn k 2 <= 1 <= kn k 6 /\ kn k 2 < kn k 3.
Proof. exact ex_hyps. Qed.
Example C06_nonvacuous : well_formed ex_c /\ natural_bounds ex_c /\ evaluable_curve (1/1000) ex_c.
Proof. exact ex_c_wf. Qed.
