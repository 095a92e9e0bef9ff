(** Properties C01-C11 (basis functions, evaluation of non-rational curves).
    [eps] is knot_eps; results are over exact reals. *)
From Coq Require Import List Arith Reals Lia Lra.
From Verif Require Import Model_Base Model_Basis Spec_Base Spec_Basis Spec_Eval
  Proof_Base Proof_PropBasis Proof_ExBasis.
Import ListNotations.
Local Open Scope R_scope.

(** C01: the span search succeeds for every parameter and returns the span holding it. *)
Theorem C01_find_span : forall eps k n p u,
  length k = (n + p + 1)%nat -> (p < n)%nat -> nondecreasing k ->
  exists i, @find_span R (NumR eps) n p u k = Ok i /\ (p <= i < n)%nat /\
    (kn k p <= u < kn k n -> kn k i <= u < kn k (S i)) /\
    (u < kn k p -> i = p) /\ (kn k n <= u -> i = (n - 1)%nat).
Proof. exact find_span_total. Qed.
Print Assumptions C01_find_span.

(** C02: basis_funcs on the span found returns N_{i-p,p}(u) .. N_{i,p}(u). *)
Theorem C02_basis_funcs : forall eps k n p u i,
  knots_ok k n p -> (p <= 24)%nat -> kn k p <= u <= kn k n ->
  @find_span R (NumR eps) n p u k = Ok i ->
  exists B, @basis_funcs R (NumR eps) i p u k = Ok B /\ length B = (p + 1)%nat /\
    forall r, (r <= p)%nat -> get B r = Ok (Nbas (kn k) n p (i - p + r) u).
Proof. exact basis_funcs_correct. Qed.
Print Assumptions C02_basis_funcs.

(** C03: partition of unity, for the values computed and for all basis functions. *)
Theorem C03_partition_computed : forall eps k n p u i B,
  knots_ok k n p -> (p <= 24)%nat -> kn k p <= u <= kn k n ->
  @find_span R (NumR eps) n p u k = Ok i -> @basis_funcs R (NumR eps) i p u k = Ok B ->
  fold_right Rplus 0 B = 1.
Proof. exact basis_funcs_sum. Qed.
Print Assumptions C03_partition_computed.

Theorem C03_partition_all : forall eps k n p u,
  knots_ok k n p -> end_clamped k n p -> separated eps k -> 0 < eps -> kn k p <= u <= kn k n ->
  exists b, (forall i, (i < n)%nat -> @basis_function R (NumR eps) u i p 0 k = Ok (b i)) /\
    sumn n b = 1.
Proof. exact basis_function_sum. Qed.
Print Assumptions C03_partition_all.

(** C04: the computed basis functions are non-negative, and the others vanish. *)
Theorem C04_nonneg_computed : forall eps k n p u i B,
  knots_ok k n p -> (p <= 24)%nat -> kn k p <= u <= kn k n ->
  @find_span R (NumR eps) n p u k = Ok i -> @basis_funcs R (NumR eps) i p u k = Ok B ->
  forall r, (r < length B)%nat -> exists b, get B r = Ok b /\ 0 <= b.
Proof. exact basis_funcs_nonneg. Qed.
Print Assumptions C04_nonneg_computed.

Theorem C04_local_support : forall eps k n p u i j,
  knots_ok k n p -> end_clamped k n p -> separated eps k -> 0 < eps -> kn k p <= u <= kn k n ->
  (j < n)%nat -> (u < kn k j \/ kn k (j + p + 1) < u) ->
  @find_span R (NumR eps) n p u k = Ok i ->
  (j + p < i \/ i < j)%nat /\ @basis_function R (NumR eps) u j p 0 k = Ok 0.
Proof. exact basis_function_support. Qed.
Print Assumptions C04_local_support.

(** C05: the recursive basis function equals the textbook one when distinct knots are
    further apart than the tolerance. *)
Theorem C05_basis_function : forall eps k n p u i,
  knots_ok k n p -> end_clamped k n p -> separated eps k -> 0 < eps ->
  kn k p <= u <= kn k n -> (i < n)%nat ->
  @basis_function R (NumR eps) u i p 0 k = Ok (Nbas (kn k) n p i u).
Proof. exact basis_function_correct. Qed.
Print Assumptions C05_basis_function.

(** ... and not otherwise: knots closer than the tolerance give a basis function
    that does not vanish outside its support. *)
Theorem C05_close_knots_refuted : forall eps, 0 < eps < 1 ->
  exists k n p u i v, knots_ok k n p /\ end_clamped k n p /\ kn k p <= u <= kn k n /\ (i < n)%nat /\
    @basis_function R (NumR eps) u i p 0 k = Ok v /\ Nbas (kn k) n p i u = 0 /\ v <> 0.
Proof. exact basis_function_close_knots. Qed.
Print Assumptions C05_close_knots_refuted.

(** C06: evaluation is the B-spline sum. *)
Theorem C06_eval_value : forall eps k n p poles u,
  knots_ok k n p -> length poles = n -> evaluable eps k n p -> kn k p <= u <= kn k n ->
  exists q, @eval_value R (NumR eps) u k poles p 0 = Ok q /\
    forall c, q c = spline (kn k) n p (polec poles c) u.
Proof. exact eval_value_correct. Qed.
Print Assumptions C06_eval_value.

(** C07: the point is a convex combination of the p+1 poles of the span. *)
Theorem C07_convex_hull : forall eps k n p poles u,
  knots_ok k n p -> length poles = n -> evaluable eps k n p -> kn k p <= u <= kn k n ->
  exists i q w, @find_span R (NumR eps) n p u k = Ok i /\ @eval_value R (NumR eps) u k poles p 0 = Ok q /\
    (forall r, (r <= p)%nat -> 0 <= w r) /\ sumn (p + 1) w = 1 /\
    forall c, q c = sumn (p + 1) (fun r => w r * polec poles c (i - p + r)).
Proof. exact eval_value_hull. Qed.
Print Assumptions C07_convex_hull.

(** C08: evaluation commutes with every affine map x |-> A x + t. *)
Theorem C08_affine : forall eps k n p poles u dim A t,
  knots_ok k n p -> length poles = n -> evaluable eps k n p -> kn k p <= u <= kn k n ->
  exists q q', @eval_value R (NumR eps) u k poles p 0 = Ok q /\
    @eval_value R (NumR eps) u k
       (map (fun x c => sumn dim (fun e => A c e * x e) + t c) poles) p 0 = Ok q' /\
    forall c, q' c = sumn dim (fun e => A c e * q e) + t c.
Proof. exact eval_value_affine. Qed.
Print Assumptions C08_affine.

(** C09: clamped ends interpolate the end poles, with the end-leg tangents. *)
Theorem C09_start : forall eps k n p poles,
  knots_ok k n p -> length poles = n -> evaluable eps k n p ->
  (forall i, (i <= p)%nat -> kn k i = kn k 0) -> kn k p < kn k (p + 1) ->
  exists q, @eval_value R (NumR eps) (kn k 0) k poles p 0 = Ok q /\ forall c, q c = polec poles c 0.
Proof. exact eval_value_start. Qed.
Print Assumptions C09_start.

Theorem C09_end : forall eps k n p poles,
  knots_ok k n p -> length poles = n -> evaluable eps k n p -> end_clamped k n p ->
  exists q, @eval_value R (NumR eps) (kn k n) k poles p 0 = Ok q /\
    forall c, q c = polec poles c (n - 1).
Proof. exact eval_value_end. Qed.
Print Assumptions C09_end.

Theorem C09_tangent_start : forall eps k n p poles,
  knots_ok k n p -> length poles = n -> evaluable eps k n p -> (1 <= p)%nat ->
  (forall i, (i <= p)%nat -> kn k i = kn k 0) -> kn k p < kn k (p + 1) ->
  exists q, @eval_value R (NumR eps) (kn k 0) k poles p 1 = Ok q /\
    forall c, q c = INR p / (kn k (p + 1) - kn k 0) * (polec poles c 1 - polec poles c 0).
Proof. exact eval_tangent_start. Qed.
Print Assumptions C09_tangent_start.

Theorem C09_tangent_end : forall eps k n p poles,
  knots_ok k n p -> length poles = n -> evaluable eps k n p -> (1 <= p)%nat -> end_clamped k n p ->
  exists q, @eval_value R (NumR eps) (kn k n) k poles p 1 = Ok q /\
    forall c, q c = INR p / (kn k n - kn k (n - 1)) * (polec poles c (n - 1) - polec poles c (n - 2)).
Proof. exact eval_tangent_end. Qed.
Print Assumptions C09_tangent_end.

(** C10: order d+1 is the derivative of order d: two-sided inside spans, from the
    right at knots, from the left at the end; zero above the degree. *)
Theorem C10_total : forall eps k n p poles u d,
  knots_ok k n p -> length poles = n -> evaluable eps k n p -> kn k p <= u <= kn k n ->
  exists q, @eval_value R (NumR eps) u k poles p d = Ok q.
Proof. exact eval_value_total. Qed.
Print Assumptions C10_total.

Theorem C10_derivative_inside : forall eps k n p poles d c l u,
  knots_ok k n p -> length poles = n -> evaluable eps k n p ->
  (p <= l < n)%nat -> kn k l < u < kn k (S l) ->
  derivable_pt_lim (fun x => val (@eval_value R (NumR eps) x k poles p d) c) u
    (val (@eval_value R (NumR eps) u k poles p (S d)) c).
Proof. exact eval_deriv_inside. Qed.
Print Assumptions C10_derivative_inside.

Theorem C10_derivative_right : forall eps k n p poles d c u,
  knots_ok k n p -> length poles = n -> evaluable eps k n p -> kn k p <= u < kn k n ->
  right_deriv (fun x => val (@eval_value R (NumR eps) x k poles p d) c) u
    (val (@eval_value R (NumR eps) u k poles p (S d)) c).
Proof. exact eval_deriv_right. Qed.
Print Assumptions C10_derivative_right.

Theorem C10_derivative_left_end : forall eps k n p poles d c,
  knots_ok k n p -> length poles = n -> evaluable eps k n p ->
  left_deriv (fun x => val (@eval_value R (NumR eps) x k poles p d) c) (kn k n)
    (val (@eval_value R (NumR eps) (kn k n) k poles p (S d)) c).
Proof. exact eval_deriv_left_end. Qed.
Print Assumptions C10_derivative_left_end.

Theorem C10_above_degree : forall eps k poles u p d, (p < d)%nat ->
  @eval_value R (NumR eps) u k poles p d = Ok (fun _ => 0).
Proof. exact eval_value_above. Qed.
Print Assumptions C10_above_degree.

(** C11: all orders in one pass agree with the orders one by one. *)
Theorem C11_eval_ders : forall eps k n p poles u m,
  knots_ok k n p -> length poles = n -> evaluable eps k n p -> kn k p <= u <= kn k n ->
  exists CK, @eval_ders R (NumR eps) u k poles p m = Ok CK /\ length CK = (m + 1)%nat /\
    forall d, (d <= m)%nat -> exists q q', get CK d = Ok q /\
      @eval_value R (NumR eps) u k poles p d = Ok q' /\ forall c, q c = q' c.
Proof. exact eval_ders_agree. Qed.
Print Assumptions C11_eval_ders.

(** The hypotheses are met by an ordinary clamped quadratic with a double knot. *)
Example ex_hypotheses : let k := [0;0;0;1;1;2;3;3;3] in
  knots_ok k 6 2 /\ clamped k 6 2 /\ end_clamped k 6 2 /\ separated (1/1000) k /\
  evaluable (1/1000) k 6 2 /\ kn k 2 <= 1 <= kn k 6 /\ kn k 2 < kn k 3.
Proof. exact ex_hyps. Qed.
