(** Properties C39 (conics and segments) and C40 (derived and integrated curves). *)
From Coq Require Import List Arith QArith Reals.
From Verif Require Import Model_Base Model_Vec Model_Curve Model_Build
  Spec_Base Spec_Eval Spec_Class Spec_Build Proof_Build Proof_Build2 Proof_PropBuild.
Import ListNotations.
Local Open Scope R_scope.

(** C39: every point of the ellipse curve is (cx + r1 x, cy + r2 y) with x^2 + y^2 = 1, the
    other coordinates are those of the centre; the four quarters of the parameter range run
    through the four quadrants counterclockwise, starting and ending at x = 1. *)
Theorem C39_ellipse : forall eps dim r1 r2 ce, 0 <= eps -> (2 <= dim)%nat ->
  exists c, @build_ellipse R (NumR eps) sqrt dim r1 r2 ce = Ok c /\ bounds c = (0, 1) /\
  forall u, 0 <= u <= 1 -> exists q x y, @rational_value R (NumR eps) dim c u 0 = Ok q /\
    x ^ 2 + y ^ 2 = 1 /\ q 0%nat = ce 0%nat + r1 * x /\ q 1%nat = ce 1%nat + r2 * y /\
    (forall i, (2 <= i < dim)%nat -> q i = ce i) /\
    (u <= 1/4 -> 0 <= x /\ 0 <= y) /\ (1/4 <= u <= 1/2 -> x <= 0 /\ 0 <= y) /\
    (1/2 <= u <= 3/4 -> x <= 0 /\ y <= 0) /\ (3/4 <= u -> 0 <= x /\ y <= 0) /\
    (u = 0 \/ u = 1 -> x = 1).
Proof. exact ellipse_on. Qed.
Print Assumptions C39_ellipse.

(** The circle: all points at distance |r| of the centre. *)
Theorem C39_circle : forall eps dim r ce, 0 <= eps -> (2 <= dim)%nat ->
  exists c, @build_circle R (NumR eps) sqrt dim r ce = Ok c /\ bounds c = (0, 1) /\
  forall u, 0 <= u <= 1 -> exists q, @rational_value R (NumR eps) dim c u 0 = Ok q /\
    sqlen dim (fun i => q i - ce i) = r ^ 2 /\ forall i, (2 <= i < dim)%nat -> q i = ce i.
Proof. exact circle_on. Qed.
Print Assumptions C39_circle.

(** Segments: affine interpolation over [0,1] ... *)
Theorem C39_segment_normalized : forall eps dim p1 p2, 0 <= eps ->
  exists c, @build_segment R (NumR eps) sqrt dim p1 p2 true = Ok c /\ bounds c = (0, 1) /\
    forall u, 0 <= u <= 1 -> exists q, @value R (NumR eps) c u 0 = Ok q /\
      forall i, q i = p1 i + u * (p2 i - p1 i).
Proof. exact segment_normalized. Qed.
Print Assumptions C39_segment_normalized.

(** ... or over [0, length] at unit speed. *)
Theorem C39_segment : forall eps dim p1 p2, 0 <= eps -> (exists i, (i < dim)%nat /\ p1 i <> p2 i) ->
  let L := sqrt (sqlen dim (fun i => p2 i - p1 i)) in
  exists c, @build_segment R (NumR eps) sqrt dim p1 p2 false = Ok c /\ bounds c = (0, L) /\ 0 < L /\
    forall u, 0 <= u <= L ->
      (exists q, @value R (NumR eps) c u 0 = Ok q /\ forall i, q i = p1 i + u / L * (p2 i - p1 i)) /\
      (exists q, @value R (NumR eps) c u 1 = Ok q /\ sqlen dim q = 1 /\ forall i, q i = (p2 i - p1 i) / L).
Proof. exact segment_length. Qed.
Print Assumptions C39_segment.

(** Between coincident points the curve parametrised by length is built, and its value is a
    division of zero by zero. *)
Theorem C39_segment_point_refuted : forall (sqrtf : Q -> Q) p, p = (fun _ => 3%Q) -> sqrtf 0%Q = 0%Q ->
  exists c, @build_segment Q NumQ sqrtf 1 p p false = Ok c /\ @value Q NumQ c 0%Q 0 = Undef DivByZero.
Proof. exact segment_point. Qed.
Print Assumptions C39_segment_point_refuted.

(** C40: the d-th derivative of the derived curve is derivative d+1 of the curve, on the
    same domain. *)
Theorem C40_derivate : forall eps c, 0 <= eps -> well_formed c -> natural_bounds c -> evaluable_curve eps c ->
  (1 <= c_deg c)%nat -> continuous_knots c ->
  exists c', @build_derivate R (NumR eps) c = Ok c' /\ well_formed c' /\
    c_deg c' = (c_deg c - 1)%nat /\ c_n c' = (c_n c - 1)%nat /\
    (forall x, in_domain c' x <-> in_domain c x) /\
    forall x d, in_domain c x -> exists q q', @value R (NumR eps) c x (d + 1) = Ok q /\
      @value R (NumR eps) c' x d = Ok q' /\ forall i, q' i = q i.
Proof. exact derivate_spec. Qed.
Print Assumptions C40_derivate.

(** Integration: the derived curve of the integral is the curve itself; the integral starts
    at the given point and its derivatives are those of the curve. *)
Theorem C40_integrate : forall eps c P0, 0 <= eps -> well_formed c -> natural_bounds c -> no_empty_support c ->
  exists c2, @build_integrate R (NumR eps) c P0 = Ok c2 /\
    c_deg c2 = (c_deg c + 1)%nat /\ c_n c2 = (c_n c + 1)%nat /\
    bounds c2 = bounds c /\ well_formed c2 /\
    @build_derivate R (NumR eps) c2 = Ok c /\
    (clamped_curve c -> evaluable_curve eps c2 ->
       exists q, @value R (NumR eps) c2 (c_lo c) 0 = Ok q /\ forall i, q i = P0 i) /\
    (evaluable_curve eps c2 -> forall x d, in_domain c x ->
       exists q q', @value R (NumR eps) c2 x (d + 1) = Ok q /\ @value R (NumR eps) c x d = Ok q' /\
         forall i, q' i = q i).
Proof. exact integrate_spec. Qed.
Print Assumptions C40_integrate.

(** The hypotheses on the knots and on the degree are needed: a clamped curve that jumps at
    an inner knot, and a constant curve of degree 0, have no derived curve. *)
Theorem C40_break_refuted : exists c,
  @mk_curve Q NumQ (map (fun x _ => x) [0;1;2;3]%Q) [0;0;1;1;2;2]%Q 1 = Ok c /\
  @build_derivate Q NumQ c = Undef DivByZero.
Proof. exact derivate_break. Qed.
Print Assumptions C40_break_refuted.
Theorem C40_degree_zero_refuted : exists c, @mk_curve Q NumQ (map (fun x _ => x) [5]%Q) [0;1]%Q 0 = Ok c /\
  @value Q NumQ c (1#2)%Q 1 = Ok (@pzero Q NumQ) /\ (forall c', @build_derivate Q NumQ c <> Ok c').
Proof. exact derivate_degree0. Qed.
Print Assumptions C40_degree_zero_refuted.

Example ex_build_hypotheses : well_formed bx /\ natural_bounds bx /\ evaluable_curve (1/1000) bx /\
  (1 <= c_deg bx)%nat /\ continuous_knots bx /\ no_empty_support bx /\ clamped_curve bx.
Proof. exact bx_ok. Qed.
