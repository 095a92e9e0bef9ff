(** Properties C41 (curve wrappers), C42 (curve on surface), C64 (surface of revolution) and
    C70 (lines and circles). *)
From Coq Require Import List Arith ZArith Reals.
From Verif Require Import Model_Base Model_Vec Model_Motion Model_Wrap Spec_Basis Spec_Build Spec_Motion Spec_Wrap
  Proof_Wrap Proof_Wrap2 Proof_Wrap3 Proof_Wrap4.
Import ListNotations.
Local Open Scope R_scope.

(** C41: a trimmed curve has the bounds u1, u2, equals the curve on [u1,u2] and rejects
    parameters further than the tolerance away. *)
Theorem C41_trimmed : forall eps (g : gcurve R) u1 u2 u d,
  let t := @trimmed R (NumR eps) g u1 u2 in
  g_lo t = u1 /\ g_hi t = u2 /\
  (u1 - eps <= u <= u2 + eps -> g_value t u d = g_value g u d) /\
  (u < u1 - eps \/ u2 + eps < u -> g_value t u d = Throw OutOfBoundsEval).
Proof. exact trimmed_spec. Qed.
Print Assumptions C41_trimmed.

(** A reversed curve runs through the same points backwards, and its derivatives of any order
    are the derivatives of that map. *)
Theorem C41_reversed : forall eps (g : gcurve R) f D, g_lo g < g_hi g -> represents g f (g_lo g) (g_hi g) D ->
  let r := @reversed R (NumR eps) g in
  g_lo r = g_lo g /\ g_hi r = g_hi g /\
  represents r (fun d i u => (-1) ^ d * f d i (g_lo g + g_hi g - u)) (g_lo g) (g_hi g) D.
Proof. exact reversed_represents. Qed.
Print Assumptions C41_reversed.

(** An extended curve equals the curve on its domain and its end tangents outside; it is
    continuously differentiable everywhere and outside all derivatives are right. *)
Theorem C41_extended : forall eps lowest highest (g : gcurve R) f D, (1 <= D)%nat -> g_lo g < g_hi g ->
  represents g f (g_lo g) (g_hi g) D ->
  (forall i, right_deriv (f 0%nat i) (g_lo g) (f 1%nat i (g_lo g)) /\
             left_deriv (f 0%nat i) (g_hi g) (f 1%nat i (g_hi g))) ->
  exists F : nat -> nat -> R -> R,
    (forall u d, (d <= D)%nat -> exists q,
       g_value (@extended R (NumR eps) lowest highest g false) u d = Ok q /\ forall i, q i = F d i u) /\
    (forall u d i, g_lo g <= u <= g_hi g -> F d i u = f d i u) /\
    (forall u i, u < g_lo g -> F 0%nat i u = f 0%nat i (g_lo g) + (u - g_lo g) * f 1%nat i (g_lo g)) /\
    (forall u i, g_hi g < u -> F 0%nat i u = f 0%nat i (g_hi g) + (u - g_hi g) * f 1%nat i (g_hi g)) /\
    (forall u i, derivable_pt_lim (F 0%nat i) u (F 1%nat i u)) /\
    (forall u d i, u < g_lo g \/ g_hi g < u -> derivable_pt_lim (F d i) u (F (S d) i u)).
Proof. exact extended_prop. Qed.
Print Assumptions C41_extended.

(** The clamped extension repeats what the curve returns at the nearer end ... *)
Theorem C41_extended_clamped : forall eps lowest highest (g : gcurve R) u d,
  let e := @extended R (NumR eps) lowest highest g true in
  (u < g_lo g -> g_value e u d = g_value g (g_lo g) d) /\
  (g_lo g <= u <= g_hi g -> g_value e u d = g_value g u d) /\
  (g_lo g <= g_hi g < u -> g_value e u d = g_value g (g_hi g) d).
Proof. exact extended_clamped. Qed.
Print Assumptions C41_extended_clamped.

(** ... for the derivatives too: outside, this curve is constant and its first derivative
    comes out as 1. *)
Theorem C41_clamped_derivative_refuted : forall eps lowest highest, exists g f,
  g_lo g = 0 /\ g_hi g = 1 /\ (forall D, represents g f 0 1 D) /\
  forall u, u < 0 -> exists q0 q1,
    g_value (@extended R (NumR eps) lowest highest g true) u 0 = Ok q0 /\ q0 0%nat = 0 /\
    g_value (@extended R (NumR eps) lowest highest g true) u 1 = Ok q1 /\ q1 0%nat = 1.
Proof. exact clamped_refuted. Qed.
Print Assumptions C41_clamped_derivative_refuted.

(** A reparametrized curve is the composition, and its derivatives up to the second are those
    of the composition. *)
Theorem C41_reparametrized : forall eps (g f : gcurve R) c phi,
  represents g c (g_lo g) (g_hi g) 2 -> represents f phi (g_lo f) (g_hi f) 2 ->
  (forall m, g_lo f <= m <= g_hi f -> g_lo g <= phi 0%nat 0%nat m <= g_hi g) ->
  (forall m, g_lo f < m < g_hi f -> g_lo g < phi 0%nat 0%nat m < g_hi g) ->
  let r := @reparametrized R (NumR eps) g f in
  g_lo r = g_lo f /\ g_hi r = g_hi f /\
  exists F, (forall i m, F 0%nat i m = c 0%nat i (phi 0%nat 0%nat m)) /\
    represents r F (g_lo f) (g_hi f) 2.
Proof. exact reparametrized_prop. Qed.
Print Assumptions C41_reparametrized.

(** Orders above two are refused whatever the curves. *)
Theorem C41_reparametrized_order_refuted : forall eps (g f : gcurve R) m d, (3 <= d)%nat ->
  g_value (@reparametrized R (NumR eps) g f) m d = Throw RuntimeError.
Proof. exact reparametrized_high. Qed.
Print Assumptions C41_reparametrized_order_refuted.

(** A composite curve places the pieces one after the other: on the parameters of piece i it
    returns what piece i returns at the shifted parameter, which is in the domain of that
    piece; the last end point belongs to the last piece.  Before the start the iterator is
    decremented below the beginning. *)
Theorem C41_composite : forall eps (l : list (gcurve R)), (1 <= length l)%nat ->
  (forall g, In g l -> g_lo g < g_hi g) ->
  exists c, @composite R (NumR eps) l = Ok c /\
    g_lo c = piece_start l 0 /\ g_hi c = piece_start l (length l) /\
    (forall i g u d, nth_error l i = Some g -> piece_start l i <= u ->
       u < piece_start l (S i) \/ (S i = length l /\ u = piece_start l (S i)) ->
       g_value c u d = g_value g (u - piece_start l i + g_lo g) d /\
       g_lo g <= u - piece_start l i + g_lo g <= g_hi g) /\
    (forall u d, u < piece_start l 0 -> g_value c u d = Undef BadIterator).
Proof. exact composite_prop. Qed.
Print Assumptions C41_composite.

(** C42: the points of a curve on a surface and their first derivatives.
    Full statement: the same with D <= 2; refuted below. *)
Theorem C42_first_partial : forall eps (g : gcurve R) s c F D, (D <= 1)%nat ->
  represents g c (g_lo g) (g_hi g) D -> surface_represents s F D ->
  let o := @on_surface R (NumR eps) g s in
  g_lo o = g_lo g /\ g_hi o = g_hi g /\
  exists f, (forall i u, f 0%nat i u = F 0%nat 0%nat i (c 0%nat 0%nat u) (c 0%nat 1%nat u)) /\
    represents o f (g_lo g) (g_hi g) D.
Proof. exact on_surface_prop. Qed.
Print Assumptions C42_first_partial.

(** The second derivative is right when both parameter functions have the same second
    derivative, in particular along straight lines of the parameter plane. *)
Theorem C42_second_partial : forall eps (g : gcurve R) s c F,
  represents g c (g_lo g) (g_hi g) 2 -> surface_represents s F 2 ->
  (forall u, g_lo g <= u <= g_hi g -> c 2%nat 0%nat u = c 2%nat 1%nat u) ->
  exists f, (forall i u, f 0%nat i u = F 0%nat 0%nat i (c 0%nat 0%nat u) (c 0%nat 1%nat u)) /\
    represents (@on_surface R (NumR eps) g s) f (g_lo g) (g_hi g) 2.
Proof. exact on_surface_second. Qed.
Print Assumptions C42_second_partial.

(** A curve and a surface whose composition has first derivative 2t; the second derivative
    comes out as 0. *)
Theorem C42_second_refuted : forall eps, exists g s c F,
  represents g c 0 1 2 /\ g_lo g = 0 /\ g_hi g = 1 /\ surface_represents s F 2 /\
  forall t, 0 <= t <= 1 -> exists q1 q2,
    g_value (@on_surface R (NumR eps) g s) t 1 = Ok q1 /\ q1 0%nat = 2 * t /\
    g_value (@on_surface R (NumR eps) g s) t 2 = Ok q2 /\ q2 0%nat = 0.
Proof. exact second_refuted. Qed.
Print Assumptions C42_second_refuted.

(** C64: when the axis frame sits at the origin of coordinates, the value is the profile
    point (first coordinate along the axis Z, second along X) turned by v about the axis, and
    all partial derivatives are those of that map. *)
Theorem C64_origin_partial : forall eps fm crv F c D a b, is_fmod fm ->
  nonzero 3 (f_z F) -> nonzero 3 (f_x F) -> represents crv c a b D ->
  same 3 (f_o F) (fun _ => 0) ->
  exists s S, @revolution R (NumR eps) sqrt cos sin PI fm crv F = Ok s /\
  (forall u v du dv, a <= u <= b -> (du <= D)%nat ->
     exists q, s u v du dv = Ok q /\ forall i, (i < 3)%nat -> q i = S du dv i u v) /\
  (forall u v i, (i < 3)%nat -> S 0%nat 0%nat i u v =
     rot (unit 3 (f_z F)) v
       (fun j => c 0%nat 0%nat u * unit 3 (f_z F) j + c 0%nat 1%nat u * unit 3 (f_x F) j) i) /\
  (forall u v du dv i, (i < 3)%nat -> derivable_pt_lim (fun v => S du dv i u v) v (S du (dv + 1)%nat i u v)) /\
  (forall u v du dv i, (i < 3)%nat -> a < u < b -> (du < D)%nat ->
     derivable_pt_lim (fun u => S du dv i u v) u (S (du + 1)%nat dv i u v)).
Proof. exact revolution_origin. Qed.
Print Assumptions C64_origin_partial.

(** When the frame sits elsewhere on an axis through the origin of coordinates, the points
    and their derivatives in v are right. *)
Theorem C64_axis_partial : forall eps fm crv F c D a b lam, is_fmod fm ->
  nonzero 3 (f_z F) -> nonzero 3 (f_x F) -> represents crv c a b D ->
  same 3 (f_o F) (fun j => lam * f_z F j) ->
  exists s S, @revolution R (NumR eps) sqrt cos sin PI fm crv F = Ok s /\
  (forall u v dv, a <= u <= b -> exists q, s u v 0%nat dv = Ok q /\ forall i, (i < 3)%nat -> q i = S dv i u v) /\
  (forall u v i, (i < 3)%nat -> S 0%nat i u v = f_o F i +
     rot (unit 3 (f_z F)) v
       (fun j => c 0%nat 0%nat u * unit 3 (f_z F) j + c 0%nat 1%nat u * unit 3 (f_x F) j) i) /\
  (forall u v dv i, (i < 3)%nat -> derivable_pt_lim (fun v => S dv i u v) v (S (dv + 1)%nat i u v)).
Proof. exact revolution_axis. Qed.
Print Assumptions C64_axis_partial.

(** Vertical axis through (1,0,0): half a turn takes (2,0,u) to (-2,0,u) instead of
    (0,0,u). *)
Theorem C64_off_axis_refuted : forall eps fm, is_fmod fm -> exists crv c,
  (forall D, represents crv c 0 1 D) /\ (forall u, c 0%nat 0%nat u = u /\ c 0%nat 1%nat u = 1) /\
  exists s, let v3 := @p3 R (NumR eps) in
  @revolution R (NumR eps) sqrt cos sin PI fm crv (mkf (v3 1 0 0) (v3 0 0 1) (v3 1 0 0)) = Ok s /\
  forall u, 0 <= u <= 1 -> exists q0 q, s u 0 0%nat 0%nat = Ok q0 /\ q0 0%nat = 2 /\ q0 1%nat = 0 /\
    s u PI 0%nat 0%nat = Ok q /\ q 0%nat = -2 /\ q 1%nat = 0.
Proof. exact revolution_off_refuted. Qed.
Print Assumptions C64_off_axis_refuted.

(** Frame at (0,0,1) on the vertical axis: the height is 1 + u, its derivative in u comes out
    as 2. *)
Theorem C64_derivative_refuted : forall eps fm, is_fmod fm -> exists crv c,
  (forall D, represents crv c 0 1 D) /\ (forall u, c 0%nat 0%nat u = u /\ c 0%nat 1%nat u = 1) /\
  exists s, let v3 := @p3 R (NumR eps) in
  @revolution R (NumR eps) sqrt cos sin PI fm crv (mkf (v3 0 0 1) (v3 0 0 1) (v3 1 0 0)) = Ok s /\
  forall u v, 0 <= u <= 1 -> exists q0 q1, s u v 0%nat 0%nat = Ok q0 /\ q0 2%nat = 1 + u /\
    s u v 1%nat 0%nat = Ok q1 /\ q1 2%nat = 2.
Proof. exact revolution_deriv_refuted. Qed.
Print Assumptions C64_derivative_refuted.

(** C70: the line through two distinct points, parametrised by length from the first. *)
Theorem C70_line : forall eps tiny huge dim (a b : pt R), (exists i, (i < dim)%nat /\ a i <> b i) ->
  let L := len dim (fun i => b i - a i) in
  exists g, @line_points R (NumR eps) sqrt tiny huge dim a b = Ok g /\ g_lo g = tiny /\ g_hi g = huge /\ 0 < L /\
  exists f, (forall x y D, represents g f x y D) /\
    (forall i u, f 0%nat i u = a i + u * ((b i - a i) / L)) /\
    (forall u, sqlen dim (fun i => f 1%nat i u) = 1) /\
    (forall i, f 0%nat i 0 = a i) /\ (forall i, f 0%nat i L = b i).
Proof. exact line_prop. Qed.
Print Assumptions C70_line.

(** The lower bound of its domain is the smallest positive number of the type: the first
    defining point is outside the domain. *)
Theorem C70_line_bounds_refuted : forall eps tiny huge dim (a b : pt R) g, 0 < tiny ->
  (exists i, (i < dim)%nat /\ a i <> b i) ->
  @line_points R (NumR eps) sqrt tiny huge dim a b = Ok g ->
  (exists q, g_value g 0 0 = Ok q /\ forall i, q i = a i) /\ 0 < g_lo g.
Proof. exact line_bounds. Qed.
Print Assumptions C70_line_bounds_refuted.

(** Plane circle: counterclockwise from angle 0, all derivatives right. *)
Theorem C70_circle_plane : forall eps r C,
  let g := @circle2 R (NumR eps) cos sin PI r C in
  g_lo g = 0 /\ g_hi g = 2 * PI /\
  exists f, (forall x y D, represents g f x y D) /\
    forall u, f 0%nat 0%nat u = C 0%nat + r * cos u /\ f 0%nat 1%nat u = C 1%nat + r * sin u.
Proof. exact circle2_prop. Qed.
Print Assumptions C70_circle_plane.

(** Circle in space from a frame with orthogonal directions. *)
Theorem C70_circle_frame : forall eps r F, nonzero 3 (f_z F) -> nonzero 3 (f_x F) -> dot3 (f_z F) (f_x F) = 0 ->
  exists g, @circle3_frame R (NumR eps) sqrt cos sin PI r F = Ok g /\ g_lo g = 0 /\ g_hi g = 2 * PI /\
  exists f, (forall x y D, represents g f x y D) /\
    forall i u, (i < 3)%nat -> f 0%nat i u = f_o F i +
      r * (cos u * unit 3 (f_x F) i + sin u * cross3 (unit 3 (f_z F)) (unit 3 (f_x F)) i).
Proof. exact circle3_frame_prop. Qed.
Print Assumptions C70_circle_frame.

(** Circle in space from a centre and an axis, when the smallest coordinate of the axis is
    zero: in the plane normal to the axis, at distance r of the centre.
    Full statement: for every axis.  It is refuted below. *)
Theorem C70_circle_axis_partial : forall eps r C z, nonzero 3 z ->
  (forall i, (i < 3)%nat -> 0 <= z i) -> (exists i, (i < 3)%nat /\ z i = 0) ->
  let g := @circle3_axis R (NumR eps) sqrt cos sin PI r C z in
  g_lo g = 0 /\ g_hi g = 2 * PI /\
  exists f, (forall x y D, represents g f x y D) /\
    forall u, dot3 z (fun i => f 0%nat i u - C i) = 0 /\ sqdist 3 (fun i => f 0%nat i u) C = r ^ 2.
Proof. exact circle3_axis_prop. Qed.
Print Assumptions C70_circle_axis_partial.

(** With the axis (-1,0,0) the circle is one point. *)
Theorem C70_circle_axis_refuted : forall eps r C u, exists q,
  g_value (@circle3_axis R (NumR eps) sqrt cos sin PI r C (@p3 R (NumR eps) (-1) 0 0)) u 0 = Ok q /\
  q 0%nat = C 0%nat + r /\ q 1%nat = C 1%nat /\ q 2%nat = C 2%nat.
Proof. exact circle3_axis_wrong. Qed.
Print Assumptions C70_circle_axis_refuted.

(** A curve that meets the hypotheses of C41 (as wrapped curve and as parameter function) and
    of C42. *)
Example ex_wrap_hypotheses : exists g f, g_lo g = 0 /\ g_hi g = 1 /\ represents g f 0 1 2 /\
  (forall i, right_deriv (f 0%nat i) 0 (f 1%nat i 0) /\ left_deriv (f 0%nat i) 1 (f 1%nat i 1)) /\
  (forall m, 0 <= m <= 1 -> 0 <= f 0%nat 0%nat m <= 1) /\ (forall m, 0 < m < 1 -> 0 < f 0%nat 0%nat m < 1) /\
  f 2%nat 0%nat (1 / 2) <> 0.
Proof. exact wrap_hyps. Qed.

Example ex_surface_hypotheses : exists s F, surface_represents s F 2 /\ F 0%nat 1%nat 0%nat 0 0 = 1.
Proof. exists (plane 0), plane_f. split; [exact (plane_represents 0)|reflexivity]. Qed.
