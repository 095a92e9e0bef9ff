(** Properties C14 (range check), C15 (constructor, class invariant), C20 (reversal) and
    C21 (change of bounds) of the curve classes. *)
From Coq Require Import List Arith QArith Reals.
From Verif Require Import Model_Base Model_Curve Spec_Base Spec_Basis Spec_Eval Spec_Class
  Proof_Ctor Proof_Curve Proof_PropCurve.
Import ListNotations.
Local Open Scope R_scope.

(** C14: value throws exactly for parameters more than eps outside bounds(), and returns
    a point for all others, at every order. *)
Theorem C14_value : forall eps c u d, 0 <= eps -> well_formed c ->
  (@value R (NumR eps) c u d = Throw OutOfBoundsEval <-> u < c_lo c - eps \/ c_hi c + eps < u) /\
  (c_lo c - eps <= u <= c_hi c + eps -> exists q, @value R (NumR eps) c u d = Ok q).
Proof. exact value_guard. Qed.
Print Assumptions C14_value.

Theorem C14_derivatives : forall eps c u m, 0 <= eps -> well_formed c ->
  (@derivatives R (NumR eps) c u m = Throw OutOfBoundsEval <-> u < c_lo c - eps \/ c_hi c + eps < u) /\
  (c_lo c - eps <= u <= c_hi c + eps ->
     exists q, @derivatives R (NumR eps) c u m = Ok q /\ length q = (m + 1)%nat).
Proof. exact derivatives_guard. Qed.
Print Assumptions C14_derivatives.

Theorem C14_rational_value : forall eps dim c u, 0 <= eps -> well_formed c ->
  (@rational_value R (NumR eps) dim c u 0 = Throw OutOfBoundsEval <-> u < c_lo c - eps \/ c_hi c + eps < u) /\
  (c_lo c - eps <= u <= c_hi c + eps -> exists q, @rational_value R (NumR eps) dim c u 0 = Ok q).
Proof. exact rational_value_guard. Qed.
Print Assumptions C14_rational_value.

(** "Never otherwise for a validly constructed curve" is false: the constructor accepts
    knots whose last span is empty; the end value is then a division by zero. *)
Theorem C14_total_refuted : exists c, @mk_curve Q NumQ (qpoles 3) [0;0;1;1;1]%Q 1 = Ok c /\
  @bounds Q c = (0%Q, 1%Q) /\ @value Q NumQ c 1%Q 0 = Undef DivByZero.
Proof. exact value_div_zero. Qed.
Print Assumptions C14_total_refuted.

(** C15, constructor: admissible data are accepted ... *)
Theorem C15_constructor_accepts : forall eps k P p,
  (p + 1 + length P = length k)%nat -> (p + 1 <= length P)%nat -> nondecreasing k ->
  @mk_curve R (NumR eps) P k p = Ok (mk p P k (kn k 0) (kn k (length k - 1))).
Proof. exact mk_curve_accepts. Qed.
Print Assumptions C15_constructor_accepts.

(** ... and what is accepted satisfies the relations, the order of the knots up to 2 eps,
    exactly if different knots are more than eps apart. *)
Theorem C15_constructor_rejects : forall eps k P p c, 0 <= eps ->
  @mk_curve R (NumR eps) P k p = Ok c ->
  c_deg c = p /\ c_poles c = P /\ c_knots c = k /\ natural_bounds c /\
  (p + 1 + length P = length k)%nat /\ (p < length P)%nat /\
  (forall i j, (i <= j < length k)%nat -> kn k i <= kn k j + 2 * eps) /\
  ((forall x y, In x k -> In y k -> x <> y -> eps < Rabs (x - y)) -> nondecreasing k).
Proof. exact ctor_rejects. Qed.
Print Assumptions C15_constructor_rejects.

(** Without that hypothesis non-monotone knots are accepted. *)
Theorem C15_constructor_refuted : exists c, let e := (1 # 4503599627370496)%Q in
  @mk_curve Q NumQ (qpoles 2) [0;e;0;1]%Q 1 = Ok c /\ (0 < e)%Q.
Proof. exact ctor_unsorted. Qed.
Print Assumptions C15_constructor_refuted.

(** C15, histories: see C15_history in Prop_History.v. *)
(** The restriction to meaningful arguments is needed. *)
Theorem C15_changeBounds_refuted : exists c c', @mk_curve Q NumQ (qpoles 3) [0;0;1;2;2]%Q 1 = Ok c /\
  @changeBounds Q NumQ c 1%Q 0%Q = Ok c' /\ c_knots c' = [1;1;1#2;0;0]%Q.
Proof. exact change_decreasing. Qed.
Print Assumptions C15_changeBounds_refuted.
Theorem C15_trim_refuted : exists c c', @mk_curve Q NumQ (qpoles 3) [0;0;1;2;2]%Q 1 = Ok c /\
  @trim_curve Q NumQ c 1%Q 1%Q true = Ok c' /\ c_poles c' = [] /\ c_knots c' = [1;1]%Q /\ c_deg c' = 1%nat.
Proof. exact trim_point. Qed.
Print Assumptions C15_trim_refuted.
Theorem C15_copyKnots_refuted : exists c c', @mk_curve Q NumQ (qpoles 3) [0;0;1;2;2]%Q 1 = Ok c /\
  @copyKnots Q c [5;4;3;2;1]%Q = Ok c' /\ c_knots c' = [5;4;3;2;1]%Q.
Proof. exact copy_unsorted. Qed.
Print Assumptions C15_copyKnots_refuted.

(** Trimming with the bounds in decreasing order stores them in that order; afterwards no
    parameter is accepted. *)
Theorem C15_trim_bounds_refuted : exists c c', @mk_curve Q NumQ (qpoles 3) [0;0;1;2;2]%Q 1 = Ok c /\
  @trim_curve Q NumQ c 2%Q 1%Q true = Ok c' /\ @bounds Q c' = (2%Q, 1%Q) /\
  @value Q NumQ c' 1%Q 0 = Throw OutOfBoundsEval /\ @value Q NumQ c' (3#2)%Q 0 = Throw OutOfBoundsEval /\
  @value Q NumQ c' 2%Q 0 = Throw OutOfBoundsEval.
Proof. exact trim_swapped. Qed.
Print Assumptions C15_trim_bounds_refuted.

(** C20: reversal keeps bounds, degree and number of poles; the reversed curve at
    u1+u2-x has (-1)^d times the d-th derivative of the curve at x; reversing twice gives
    the same object.  At a knot the order d must be one at which the derivative is
    continuous, as value() takes the right derivative there. *)
Theorem C20_reverse : forall eps c, 0 <= eps -> well_formed c -> natural_bounds c ->
  exists c', @reverse R (NumR eps) c = Ok c' /\ bounds c' = bounds c /\
    c_deg c' = c_deg c /\ c_n c' = c_n c /\
    well_formed c' /\ natural_bounds c' /\ @reverse R (NumR eps) c' = Ok c /\
    (evaluable_curve eps c -> evaluable_curve eps c' ->
     forall x d, in_domain c x -> smooth_at c x d ->
     exists q q', @value R (NumR eps) c x d = Ok q /\
       @value R (NumR eps) c' (c_lo c + c_hi c - x) d = Ok q' /\
       forall i, q' i = (-1) ^ d * q i).
Proof. exact reverse_prop. Qed.
Print Assumptions C20_reverse.

(** Without natural bounds (after a non-permanent trim to [1,2]) it is false: C(2)=2 but
    the reversed curve has the value 1 at 1+2-2. *)
Theorem C20_soft_trim_refuted : exists c c1 c2, @mk_curve Q NumQ (qpoles 3) [0;0;1;2;2]%Q 1 = Ok c /\
  @trim_curve Q NumQ c 1%Q 2%Q false = Ok c1 /\ @reverse Q NumQ c1 = Ok c2 /\
  @bounds Q c2 = (1%Q, 2%Q) /\
  at0 (@value Q NumQ c1 2%Q 0) = Ok 2%Q /\ at0 (@value Q NumQ c2 1%Q 0) = Ok 1%Q.
Proof. exact reverse_soft. Qed.
Print Assumptions C20_soft_trim_refuted.

(** C21: the knots are mapped affinely onto [a,b]; values are kept, the d-th derivative is
    scaled by the d-th power of the ratio of the lengths. *)
Theorem C21_changeBounds : forall eps c a b, 0 <= eps -> well_formed c -> natural_bounds c -> a < b ->
  exists c', @changeBounds R (NumR eps) c a b = Ok c' /\ bounds c' = (a, b) /\
    c_deg c' = c_deg c /\ c_n c' = c_n c /\ well_formed c' /\ natural_bounds c' /\
    (forall i, (i < length (c_knots c))%nat -> kn (c_knots c') i =
       a + (b - a) * (kn (c_knots c) i - c_lo c) / (c_hi c - c_lo c)) /\
    (evaluable_curve eps c -> evaluable_curve eps c' ->
     forall x d, in_domain c x ->
     exists q q', @value R (NumR eps) c x d = Ok q /\
       @value R (NumR eps) c' (a + (b - a) * (x - c_lo c) / (c_hi c - c_lo c)) d = Ok q' /\
       forall i, ((b - a) / (c_hi c - c_lo c)) ^ d * q' i = q i).
Proof. exact change_prop. Qed.
Print Assumptions C21_changeBounds.

(** A zero-length domain is not protected. *)
Theorem C21_zero_length : forall eps c a b,
  kn (c_knots c) 0 = kn (c_knots c) (length (c_knots c) - 1) -> c_knots c <> [] ->
  @changeBounds R (NumR eps) c a b = Undef DivByZero.
Proof. exact change_zero_length. Qed.
Print Assumptions C21_zero_length.

Example ex_curve_hypotheses : well_formed ex_c /\ natural_bounds ex_c /\ evaluable_curve (1/1000) ex_c.
Proof. exact ex_c_wf. Qed.
Example ex_curve_standard : standard ex_c.
Proof. exact ex_c_std. Qed.
Example ex_curve_constructed : exists c,
  @mk_curve R (NumR (1/1000)) (c_poles ex_c) (c_knots ex_c) 2 = Ok c.
Proof. exact ex_c_ctor. Qed.
Example ex_curve_history : exists c', history (1/1000) ex_c [Reverse; Change 0 6] c'.
Proof. exact ex_c_history. Qed.
