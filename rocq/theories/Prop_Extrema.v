(** Property C88: closest points, extreme coordinates, curvature and the rolling ball. *)
From Coq Require Import List Arith Reals.
From Verif Require Import Model_Base Model_Vec Model_Wrap Model_Extrema
  Spec_Base Spec_Build Spec_Motion Spec_Analysis Spec_Offset Spec_Extrema Proof_Extrema Proof_Extrema2 Proof_PropExtrema.
Import ListNotations.
Local Open Scope R_scope.

(** C88: the closest point of a curve. The parameter is in the bounds; with a minimiser that finds
    global minima no point of the curve is closer; with one that never gets worse than its start
    no sampled point is closer. What is returned beside the parameter is the square of the
    distance. *)
Theorem C88_curve_point : forall eps opt dim (crv : gcurve R) (pnt : pt R) tol n u d, honest opt ->
  @extrema_curve_point_bracket R (NumR eps) sqrt opt dim crv pnt tol n = Ok (u, d) ->
  g_lo crv <= u <= g_hi crv /\ exists p, g_value crv u 0 = Ok p /\ d = sqdist dim p pnt /\
    (global opt -> forall t q, g_lo crv <= t <= g_hi crv -> g_value crv t 0 = Ok q -> sqdist dim p pnt <= sqdist dim q pnt) /\
    (descending opt -> forall i q, (i < n)%nat -> g_value crv (spread (g_lo crv) (g_hi crv) n i) 0 = Ok q -> sqdist dim p pnt <= sqdist dim q pnt).
Proof. exact curve_point_bracket_ok. Qed.
Print Assumptions C88_curve_point.
Theorem C88_curve_point_from : forall eps dim (crv : gcurve R) (pnt : pt R) opt u0 tol u d, honest opt ->
  @extrema_curve_point R (NumR eps) sqrt opt dim crv pnt u0 tol = Ok (u, d) ->
  g_lo crv <= u <= g_hi crv /\ exists p, g_value crv u 0 = Ok p /\ d = sqdist dim p pnt /\
    (global opt -> forall t q, g_lo crv <= t <= g_hi crv -> g_value crv t 0 = Ok q -> sqdist dim p pnt <= sqdist dim q pnt) /\
    (descending opt -> forall q, g_value crv u0 0 = Ok q -> sqdist dim p pnt <= sqdist dim q pnt).
Proof. exact curve_point_ok. Qed.
Print Assumptions C88_curve_point_from.
Theorem C88_curve_point_returns : forall eps opt dim (crv : gcurve R) (pnt : pt R) tol n, willing opt -> honest opt -> (2 <= n)%nat -> g_lo crv < g_hi crv ->
  (forall t d, g_lo crv <= t <= g_hi crv -> (d <= 1)%nat -> exists p, g_value crv t d = Ok p) ->
  exists r, @extrema_curve_point_bracket R (NumR eps) sqrt opt dim crv pnt tol n = Ok r.
Proof. exact curve_point_returns. Qed.
Print Assumptions C88_curve_point_returns.
(** Minimisers that meet the hypotheses: one stays at its start, one tries a place. *)
Example C88_minimisers : (honest stay /\ descending stay /\ willing stay /\ strict stay) /\
  forall c, honest (guess c) /\ descending (guess c) /\ global (guess c).
Proof. exact (conj stay_ok guess_ok). Qed.
Example C88_found : @extrema_curve_point R (NumR 0) sqrt (guess [1 / 2]) 3 above (point3 (1 / 2) 0 1) 0 (1 / 1000) = Ok (1 / 2, 0).
Proof. exact lit_found. Qed.

(** The closest point of a surface. *)
Theorem C88_surf_point : forall eps opt dim (srf : @bsurf R) (pnt : pt R) tol nu nv u v d, honest opt ->
  @extrema_surf_pnt_bracket R (NumR eps) sqrt opt dim srf pnt tol nu nv = Ok (u, v, d) ->
  b_u1 srf <= u <= b_u2 srf /\ b_v1 srf <= v <= b_v2 srf /\ exists p, b_value srf u v 0%nat 0%nat = Ok p /\ d = sqdist dim p pnt /\
    (global opt -> forall a b q, b_u1 srf <= a <= b_u2 srf -> b_v1 srf <= b <= b_v2 srf -> b_value srf a b 0%nat 0%nat = Ok q -> sqdist dim p pnt <= sqdist dim q pnt) /\
    (descending opt -> forall i j q, (i < nu)%nat -> (j < nv)%nat ->
       b_value srf (spread (b_u1 srf) (b_u2 srf) nu i) (spread (b_v1 srf) (b_v2 srf) nv j) 0%nat 0%nat = Ok q -> sqdist dim p pnt <= sqdist dim q pnt).
Proof. exact surf_point_bracket_ok. Qed.
Print Assumptions C88_surf_point.
Theorem C88_surf_point_returns : forall eps opt dim (srf : @bsurf R) (pnt : pt R) tol nu nv, willing opt -> honest opt -> (2 <= nu)%nat -> (2 <= nv)%nat ->
  b_u1 srf < b_u2 srf -> b_v1 srf < b_v2 srf ->
  (forall u v d e, b_u1 srf <= u <= b_u2 srf -> b_v1 srf <= v <= b_v2 srf -> (d + e <= 1)%nat -> exists p, b_value srf u v d e = Ok p) ->
  exists r, @extrema_surf_pnt_bracket R (NumR eps) sqrt opt dim srf pnt tol nu nv = Ok r.
Proof. exact surf_point_returns. Qed.
Print Assumptions C88_surf_point_returns.

(** The closest points of two curves. *)
Theorem C88_curve_curve : forall eps dim (crv1 crv2 : gcurve R) opt tol nu nv u v d, honest opt ->
  @extrema_curve_curve_bracket R (NumR eps) sqrt opt dim crv1 crv2 tol nu nv = Ok (u, v, d) ->
  g_lo crv1 <= u <= g_hi crv1 /\ g_lo crv2 <= v <= g_hi crv2 /\ exists p q, g_value crv1 u 0 = Ok p /\ g_value crv2 v 0 = Ok q /\ d = sqdist dim p q /\
    (global opt -> forall a b p' q', g_lo crv1 <= a <= g_hi crv1 -> g_lo crv2 <= b <= g_hi crv2 -> g_value crv1 a 0 = Ok p' -> g_value crv2 b 0 = Ok q' ->
       sqdist dim p q <= sqdist dim p' q') /\
    (descending opt -> forall i j p' q', (i < nu)%nat -> (j < nv)%nat -> g_value crv1 (spread (g_lo crv1) (g_hi crv1) nu i) 0 = Ok p' ->
       g_value crv2 (spread (g_lo crv2) (g_hi crv2) nv j) 0 = Ok q' -> sqdist dim p q <= sqdist dim p' q').
Proof. exact curve_curve_bracket_ok. Qed.
Print Assumptions C88_curve_curve.
Theorem C88_curve_curve_returns : forall eps opt dim (crv1 crv2 : gcurve R) tol nu nv, willing opt -> honest opt -> (2 <= nu)%nat -> (2 <= nv)%nat ->
  g_lo crv1 < g_hi crv1 -> g_lo crv2 < g_hi crv2 ->
  (forall t d, g_lo crv1 <= t <= g_hi crv1 -> (d <= 1)%nat -> exists p, g_value crv1 t d = Ok p) ->
  (forall t d, g_lo crv2 <= t <= g_hi crv2 -> (d <= 1)%nat -> exists p, g_value crv2 t d = Ok p) ->
  exists r, @extrema_curve_curve_bracket R (NumR eps) sqrt opt dim crv1 crv2 tol nu nv = Ok r.
Proof. exact curve_curve_returns. Qed.
Print Assumptions C88_curve_curve_returns.

(** The closest points of a surface and a curve, from a given start. *)
Theorem C88_surf_curve : forall eps dim (srf : @bsurf R) (crv : gcurve R) opt w0 u0 v0 tol u v w d, honest opt ->
  @extrema_surf_curve R (NumR eps) sqrt opt dim srf crv w0 u0 v0 tol = Ok (u, v, w, d) ->
  b_u1 srf <= u <= b_u2 srf /\ b_v1 srf <= v <= b_v2 srf /\ g_lo crv <= w <= g_hi crv /\
  exists p q, g_value crv w 0 = Ok p /\ b_value srf u v 0%nat 0%nat = Ok q /\ d = sqdist dim p q /\
    (global opt -> forall a b c p' q', b_u1 srf <= a <= b_u2 srf -> b_v1 srf <= b <= b_v2 srf -> g_lo crv <= c <= g_hi crv ->
       g_value crv c 0 = Ok p' -> b_value srf a b 0%nat 0%nat = Ok q' -> sqdist dim p q <= sqdist dim p' q') /\
    (descending opt -> forall p' q', g_value crv w0 0 = Ok p' -> b_value srf u0 v0 0%nat 0%nat = Ok q' -> sqdist dim p q <= sqdist dim p' q').
Proof. exact surf_curve_ok. Qed.
Print Assumptions C88_surf_curve.

(** False: the same without a start. The sampled start is passed on with its parameters in the
    wrong places: if the bounds of the surface end before those of the curve begin, it is
    outside the bounds and the call never returns. *)
Theorem C88_surf_curve_refuted : forall eps opt dim (srf : @bsurf R) (crv : gcurve R) tol nu nv nw r, strict opt -> b_u1 srf < b_u2 srf -> b_u2 srf < g_lo crv ->
  @extrema_surf_curve_bracket R (NumR eps) sqrt opt dim srf crv tol nu nv nw <> Ok r.
Proof. exact swapped. Qed.
Print Assumptions C88_surf_curve_refuted.
Example C88_surf_curve_refuted_applies : strict stay /\ b_u1 flat < b_u2 flat /\ b_u2 flat < g_lo (mkg 2 3 (g_value above)).
Proof. exact lit_swapped. Qed.

(** The gradient given to the minimiser is the gradient of its objective, for a point and a curve
    and for a point and a surface. *)
Theorem C88_gradient_curve : forall eps dim (crv : gcurve R) (pnt : pt R) C a b u, smooth_curve dim (g_value crv) C 1 a b -> a < u < b ->
  exists r d, @curve_point_f R (NumR eps) dim crv pnt [u] = Ok r /\ @curve_point_g R (NumR eps) dim crv pnt [u] r = Ok [d] /\
    slope (@curve_point_f R (NumR eps) dim crv pnt) [u] 0 d.
Proof. exact curve_point_gradient. Qed.
Print Assumptions C88_gradient_curve.
Example C88_gradient_applies : smooth_curve 3 (g_value above) (fun d w => match d with 0%nat => point3 w 0 1 | 1%nat => point3 1 0 0 | _ => point3 0 0 0 end) 1 (-1) 2.
Proof. exact lit_smooth. Qed.
Theorem C88_gradient_surf : forall eps dim (srf : @bsurf R) (pnt : pt R) C D a b a' b' u v,
  smooth_curve dim (fun t d => b_value srf t v d 0%nat) C 1 a b -> smooth_curve dim (fun t d => b_value srf u t 0%nat d) D 1 a' b' -> a < u < b -> a' < v < b' ->
  exists r d e, @surf_point_f R (NumR eps) dim srf pnt [u; v] = Ok r /\ @surf_point_g R (NumR eps) dim srf pnt [u; v] r = Ok [d; e] /\
    slope (@surf_point_f R (NumR eps) dim srf pnt) [u; v] 0 d /\ slope (@surf_point_f R (NumR eps) dim srf pnt) [u; v] 1 e.
Proof. exact surf_point_gradient. Qed.
Print Assumptions C88_gradient_surf.
(** False for two curves: the second entry e has the wrong sign, *)
Theorem C88_gradient_refuted : forall eps dim (crv1 crv2 : gcurve R) C D a b a' b' u v,
  smooth_curve dim (g_value crv1) C 1 a b -> smooth_curve dim (g_value crv2) D 1 a' b' -> a < u < b -> a' < v < b' ->
  exists r d e, @curve_curve_f R (NumR eps) dim crv1 crv2 [u; v] = Ok r /\ @curve_curve_g R (NumR eps) dim crv1 crv2 [u; v] r = Ok [d; e] /\
    slope (@curve_curve_f R (NumR eps) dim crv1 crv2) [u; v] 0 d /\ slope (@curve_curve_f R (NumR eps) dim crv1 crv2) [u; v] 1 (- e).
Proof. exact curve_curve_gradient. Qed.
Print Assumptions C88_gradient_refuted.
(** and for a surface and a curve: the entries of the surface are not derivatives at all. *)
Theorem C88_gradient_surf_curve_refuted : forall eps, exists r d e f,
  @surf_curve_f R (NumR eps) 3 flat above [0; 1; 1 / 2] = Ok r /\ @surf_curve_g R (NumR eps) 3 flat above [0; 1; 1 / 2] r = Ok [d; e; f] /\
  ~ slope (@surf_curve_f R (NumR eps) 3 flat above) [0; 1; 1 / 2] 1 e.
Proof. exact surf_curve_gradient_wrong. Qed.
Print Assumptions C88_gradient_surf_curve_refuted.

(** Two lines of the plane that are not parallel meet at the returned parameters only; parallel
    ones divide by zero. *)
Theorem C88_lines : forall eps (P1 N1 P2 N2 : pt R), N1 0%nat * N2 1%nat - N1 1%nat * N2 0%nat <> 0 ->
  exists a b, @extrema_line_line R (NumR eps) (P1, N1) (P2, N2) = Ok (a, b) /\
    (forall i, (i < 2)%nat -> P1 i + a * N1 i = P2 i + b * N2 i) /\
    forall a' b', (forall i, (i < 2)%nat -> P1 i + a' * N1 i = P2 i + b' * N2 i) -> a' = a /\ b' = b.
Proof. exact line_line_ok. Qed.
Print Assumptions C88_lines.
Theorem C88_parallel_refuted : forall eps (P1 N1 P2 N2 : pt R), N1 0%nat * N2 1%nat - N1 1%nat * N2 0%nat = 0 ->
  @extrema_line_line R (NumR eps) (P1, N1) (P2, N2) = Undef DivByZero.
Proof. exact line_line_parallel. Qed.
Print Assumptions C88_parallel_refuted.

(** A coordinate is solved for; a coordinate that does not exist is refused. *)
Theorem C88_coordinate : forall eps newton dim (crv : gcurve R) i Xi u0 u, finds_root newton -> @solve_coordinate R (NumR eps) newton dim crv i Xi u0 = Ok u ->
  (i < dim)%nat /\ g_lo crv <= u <= g_hi crv /\ exists p, g_value crv u 0 = Ok p /\ p i = Xi.
Proof. exact coordinate_ok. Qed.
Print Assumptions C88_coordinate.
Theorem C88_coordinate_refuses : forall eps dim (crv : gcurve R) i Xi u0 newton brent, (dim <= i)%nat ->
  @solve_coordinate R (NumR eps) newton dim crv i Xi u0 = Throw OutOfRangeError /\
  @max_coordinate R (NumR eps) brent dim crv i = Throw OutOfRangeError /\ @min_coordinate R (NumR eps) brent dim crv i = Throw OutOfRangeError.
Proof. exact coordinate_range. Qed.
Print Assumptions C88_coordinate_refuses.
(** The smallest and largest coordinate of a curve where it is never negative; *)
Theorem C88_min_partial : forall eps brent dim (crv : gcurve R) i u m, best_scalar brent -> @min_coordinate R (NumR eps) brent dim crv i = Ok (u, m) ->
  (forall t p, g_lo crv <= t <= g_hi crv -> g_value crv t 0 = Ok p -> 0 <= p i) ->
  g_lo crv <= u <= g_hi crv /\ exists p, g_value crv u 0 = Ok p /\ m = p i ^ 2 /\ forall t q, g_lo crv <= t <= g_hi crv -> g_value crv t 0 = Ok q -> p i <= q i.
Proof. exact min_ok. Qed.
Print Assumptions C88_min_partial.
Theorem C88_max_partial : forall eps brent dim (crv : gcurve R) i u m, best_scalar brent -> @max_coordinate R (NumR eps) brent dim crv i = Ok (u, m) ->
  (forall t p, g_lo crv <= t <= g_hi crv -> g_value crv t 0 = Ok p -> 0 < p i) ->
  g_lo crv <= u <= g_hi crv /\ exists p, g_value crv u 0 = Ok p /\ m = / p i ^ 2 /\ forall t q, g_lo crv <= t <= g_hi crv -> g_value crv t 0 = Ok q -> q i <= p i.
Proof. exact max_ok. Qed.
Print Assumptions C88_max_partial.
(** in general false: of the coordinates from -2 to 1 the smallest is said to be 0 and the
    largest -2. *)
Theorem C88_min_refuted : forall eps brent u m, best_scalar brent -> @min_coordinate R (NumR eps) brent 1 slide 0 = Ok (u, m) -> u = 0.
Proof. exact min_wrong. Qed.
Print Assumptions C88_min_refuted.
Example C88_min_refuted_applies : best_scalar (try_at 0) /\ @min_coordinate R (NumR 0) (try_at 0) 1 slide 0 = Ok (0, 0).
Proof. exact (conj (try_at_ok 0) lit_min). Qed.
Theorem C88_max_refuted : forall eps brent u m, best_scalar brent -> @max_coordinate R (NumR eps) brent 1 slide 0 = Ok (u, m) -> u = -2.
Proof. exact max_wrong. Qed.
Print Assumptions C88_max_refuted.

(** The largest second derivative: the place is right, the value is its square. *)
Theorem C88_second_derivative : forall eps opt dim (crv : gcurve R) u1 u2 tol u k, honest opt ->
  @max_curvature_pos R (NumR eps) sqrt opt dim crv u1 u2 tol = Ok (u, k) ->
  u1 <= u <= u2 /\ exists c, g_value crv u 2 = Ok c /\ 0 < sqlen dim c /\ k = sqlen dim c /\
    (global opt -> forall t c', u1 <= t <= u2 -> g_value crv t 2 = Ok c' -> sqlen dim c' <= sqlen dim c).
Proof. exact curvature_value. Qed.
Print Assumptions C88_second_derivative.
(** False: it is the largest curvature. On a straight segment the answer is 36. *)
Theorem C88_curvature_refuted : forall eps opt tol u k, honest opt -> global opt ->
  @max_curvature_pos R (NumR eps) sqrt opt 2 rushing 0 1 tol = Ok (u, k) -> u = 1 /\ k = 36.
Proof. exact curvature_wrong. Qed.
Print Assumptions C88_curvature_refuted.

(** The rolling ball: its centre is on the normals of both curves, and no centre on two such
    normals is at distances that differ less. *)
Theorem C88_rolling_ball : forall eps opt optN tol_x tol_a (crv1 crv2 : gcurve R) u1 u2 c, best_without_gradient optN ->
  @rolling_ball R (NumR eps) sqrt opt optN tol_x tol_a crv1 crv2 u1 = Ok (u2, c, false) ->
  g_lo crv2 <= u2 <= g_hi crv2 /\ exists p1 t1 p2 t2, g_value crv1 u1 0 = Ok p1 /\ g_value crv1 u1 1 = Ok t1 /\ g_value crv2 u2 0 = Ok p2 /\ g_value crv2 u2 1 = Ok t2 /\
    on_normal p1 t1 c /\ on_normal p2 t2 c /\
    forall v c' q t, g_lo crv2 <= v <= g_hi crv2 -> g_value crv2 v 0 = Ok q -> g_value crv2 v 1 = Ok t -> 0 < sqlen 2 t ->
      t1 0%nat * t 1%nat - t1 1%nat * t 0%nat <> 0 -> on_normal p1 t1 c' -> on_normal q t c' ->
      Rabs (sqdist 2 c p1 - sqdist 2 c p2) <= Rabs (sqdist 2 c' p1 - sqdist 2 c' q).
Proof. exact rolling_ball_ok. Qed.
Print Assumptions C88_rolling_ball.
Example C88_rolling_ball_applies : best_without_gradient (guess_zero [1]) /\
  exists c, @rolling_ball R (NumR 0) sqrt stay (guess_zero [1]) (1 / 1000000) (1 / 1000) axis_x axis_y 1 = Ok (1, c, false).
Proof. exact (conj (guess_zero_ok [1]) lit_ball). Qed.

(** False: the Newton iteration goes on until the equation is solved to the tolerance. A negative
    step ends it: x^2 = 4 from 3/2 gives 27/11, whatever the number of iterations allowed. *)
Theorem C88_newton_refuted : forall eps it, @newton_solve R (NumR eps) square 4 (3 / 2) (1 / 1000) (1 / 10000) (S it) = Ok (27 / 11).
Proof. exact newton_wrong. Qed.
Print Assumptions C88_newton_refuted.
