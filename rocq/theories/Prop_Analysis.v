(** Properties C84, C85 and C86: sampling by deviation, directions and lengths. *)
From Coq Require Import List Arith Reals.
From Verif Require Import Model_Base Model_Curve Model_Vec Model_Wrap Model_Interp Model_Analysis
  Spec_Base Spec_Basis Spec_Build Spec_Interp Spec_Elevate Spec_Knots Spec_Solve Spec_Unify Spec_Analysis
  Proof_Gauss Proof_Elevate6 Proof_Analysis2 Proof_Analysis3 Proof_Analysis4 Proof_PropAnalysis.
Import ListNotations.
Local Open Scope R_scope.

(** C84: sampling a curve by deviation ends. The parameters run from u1 to u2 without going back,
    contain n evenly spread ones and the knots given as hard points inside, and between two
    consecutive ones the point in the middle is near the chord or the step is smaller than the
    knot tolerance. No parameter is added to a straight curve, nor once n_max_pts are there. *)
Theorem C84_sampling : forall eps dim (g : gcurve R) knots u1 u2 n dev nmax,
  0 < eps -> (dim = 2 \/ dim = 3)%nat -> 0 <= dev -> (2 <= n)%nat -> u1 < u2 ->
  (forall u, u1 <= u <= u2 -> exists p, g_value g u 0 = Ok p) ->
  let hard := length (filter (inside u1 u2) knots) in
  exists l, eventually (fun fuel => @deviation_based_params R (NumR eps) sqrt fuel dim g knots u1 u2 n dev nmax) l /\
    runs u1 u2 l /\ (forall i, (i < n)%nat -> In (spread u1 u2 n i) l) /\
    (forall k, In k knots -> u1 < k < u2 -> In k l) /\
    ((n + hard < nmax)%nat -> forall a b, adjacent l a b -> b - a <= eps \/ near_chord dim dev (fun u => g_value g u 0) a b) /\
    ((nmax <= n + hard)%nat \/ straight dim (fun u => g_value g u 0) -> length l = (n + hard)%nat).
Proof. exact sampling_ok. Qed.
Print Assumptions C84_sampling.
Example C84_sampling_applies : (forall u, 0 <= u <= 1 -> exists p, g_value parabola u 0 = Ok p) /\
  filter (inside 0 1) [0; 1 / 3; 1; 2] = [1 / 3] /\
  straight 2 (fun u => g_value (plot (fun x => 3 * x + 1)) u 0) /\ ~ straight 2 (fun u => g_value parabola u 0).
Proof. exact lit_sampling. Qed.

(** The points returned with the parameters are the points of the curve there. *)
Theorem C84_points : forall eps fuel dim (g : gcurve R) knots n dev nmax ps us,
  @discretize_with_params R (NumR eps) sqrt fuel dim g knots n dev nmax = Ok (ps, us) ->
  @deviation_based_params R (NumR eps) sqrt fuel dim g knots (g_lo g) (g_hi g) n dev nmax = Ok us /\ length ps = length us /\
  forall i u, nth_error us i = Some u -> exists p, nth_error ps i = Some p /\ g_value g u 0 = Ok p.
Proof. exact points_ok. Qed.
Print Assumptions C84_points.

(** A B-spline curve is sampled over its whole interval, with its knots. *)
Theorem C84_bspline : forall eps (c : curve R) U M dim n dev nmax, 0 < eps -> (dim = 2 \/ dim = 3)%nat -> 0 <= dev -> (2 <= n)%nat ->
  clamped_object eps c -> (c_deg c <= 24)%nat -> clamped_knots eps (c_deg c) U M -> c_knots c = repeat_each U M ->
  exists ps us, eventually (fun fuel => @discretize_bs R (NumR eps) sqrt fuel dim c n dev nmax) (ps, us) /\
    length ps = length us /\ runs (c_lo c) (c_hi c) us /\ (forall k, In k U -> c_lo c < k < c_hi c -> In k us) /\
    (forall i, (i < n)%nat -> In (spread (c_lo c) (c_hi c) n i) us) /\
    (forall i u, nth_error us i = Some u -> exists p, nth_error ps i = Some p /\ @value R (NumR eps) c u 0 = Ok p) /\
    ((n + length U < nmax)%nat -> forall a b, adjacent us a b -> b - a <= eps \/ near_chord dim dev (fun u => @value R (NumR eps) c u 0) a b).
Proof. exact bspline_ok. Qed.
Print Assumptions C84_bspline.
Example C84_bspline_applies : clamped_object (1 / 10) lit_curve /\ (c_deg lit_curve <= 24)%nat /\
  clamped_knots (1 / 10) (c_deg lit_curve) [0; 1; 2] [3; 1; 3]%nat /\ c_knots lit_curve = repeat_each [0; 1; 2] [3; 1; 3]%nat.
Proof. exact lit_bspline. Qed.

(** The parameters sampled along an isoparametric curve of a surface, when they are returned. *)
Theorem C84_surface_u : forall eps dim fuel (srf : gsurf R) u1 u2 v n dev nmax l, (dim = 2 \/ dim = 3)%nat -> 0 <= dev -> (2 <= n)%nat -> u1 < u2 ->
  @deviation_based_u_params R (NumR eps) sqrt fuel dim srf u1 u2 v n dev nmax = Ok l ->
  runs u1 u2 l /\ (forall i, (i < n)%nat -> In (spread u1 u2 n i) l) /\
  ((n < nmax)%nat -> forall a b, adjacent l a b -> near_chord dim dev (fun u => srf u v 0%nat 0%nat) a b).
Proof. exact (fun eps dim fuel srf u1 u2 v n dev nmax l => iso_ok eps dim (fun u => srf u v 0%nat 0%nat) fuel u1 u2 n dev nmax l). Qed.
Print Assumptions C84_surface_u.
Theorem C84_surface_v : forall eps dim fuel (srf : gsurf R) v1 v2 u n dev nmax l, (dim = 2 \/ dim = 3)%nat -> 0 <= dev -> (2 <= n)%nat -> v1 < v2 ->
  @deviation_based_v_params R (NumR eps) sqrt fuel dim srf v1 v2 u n dev nmax = Ok l ->
  runs v1 v2 l /\ (forall i, (i < n)%nat -> In (spread v1 v2 n i) l) /\
  ((n < nmax)%nat -> forall a b, adjacent l a b -> near_chord dim dev (fun v => srf u v 0%nat 0%nat) a b).
Proof. exact (fun eps dim fuel srf v1 v2 u n dev nmax l => iso_ok eps dim (fun v => srf u v 0%nat 0%nat) fuel v1 v2 n dev nmax l). Qed.
Print Assumptions C84_surface_v.

(** A surface sampled on a grid: nu times nv points, u varies first. *)
Theorem C84_grid : forall eps (srf : gsurf R) u1 u2 v1 v2 nu nv l, @discretize_surf R (NumR eps) srf u1 u2 v1 v2 nu nv = Ok l ->
  (2 <= nu)%nat /\ (2 <= nv)%nat /\ length l = (nu * nv)%nat /\
  forall i j, (i < nu)%nat -> (j < nv)%nat ->
    exists p, nth_error l (j * nu + i) = Some p /\ srf (spread u1 u2 nu i) (spread v1 v2 nv j) 0%nat 0%nat = Ok p.
Proof. exact surf_grid_ok. Qed.
Print Assumptions C84_grid.
Theorem C84_grid_returns : forall eps (srf : gsurf R) u1 u2 v1 v2 nu nv, (2 <= nu)%nat -> (2 <= nv)%nat -> u1 < u2 -> v1 < v2 ->
  (forall u v, u1 <= u <= u2 -> v1 <= v <= v2 -> exists p, srf u v 0%nat 0%nat = Ok p) ->
  exists l, @discretize_surf R (NumR eps) srf u1 u2 v1 v2 nu nv = Ok l.
Proof. exact surf_grid_returns. Qed.
Print Assumptions C84_grid_returns.

(** False: n_max_pts is not a maximum. *)
Theorem C84_max_refuted : forall eps nmax, 0 < eps -> (2 < nmax)%nat -> eps * INR nmax < 1 ->
  exists l, eventually (fun fuel => @deviation_based_params R (NumR eps) sqrt fuel 2 (plot (fun x => x * x)) [] 0 1 2 0 nmax) l /\ (nmax < length l)%nat.
Proof. exact max_refuted. Qed.
Print Assumptions C84_max_refuted.

(** False: the deviation is not bounded elsewhere than in the middle. *)
Theorem C84_middle_refuted : forall eps dev D nmax, 0 <= dev -> 0 <= D -> (2 < nmax)%nat ->
  exists (g : gcurve R) (p m q : pt R),
    eventually (fun fuel => @deviation_based_params R (NumR eps) sqrt fuel 2 g [] 0 1 2 dev nmax) [0; 1] /\
    g_value g 0 0 = Ok p /\ g_value g (1 / 4) 0 = Ok m /\ g_value g 1 0 = Ok q /\
    forall t, D ^ 2 <= sqlen 2 (fun i => m i - (p i + t * (q i - p i))).
Proof. exact middle_refuted. Qed.
Print Assumptions C84_middle_refuted.

(** False: a closed curve sampled from two points is not refined at all. *)
Theorem C84_closed_refuted : forall eps dim (g : gcurve R) u1 u2 dev nmax p q, (dim = 2 \/ dim = 3)%nat -> u1 < u2 -> (2 < nmax)%nat ->
  (exists m, g_value g ((u1 + u2) / 2) 0 = Ok m) -> g_value g u1 0 = Ok p -> g_value g u2 0 = Ok q -> (forall i, (i < dim)%nat -> p i = q i) ->
  eventually (fun fuel => @deviation_based_params R (NumR eps) sqrt fuel dim g [] u1 u2 2 dev nmax) [u1; u2].
Proof. exact closed_refuted. Qed.
Print Assumptions C84_closed_refuted.

(** False: sampling an isoparametric curve ends. On a folded sheet it never does. *)
Theorem C84_surface_refuted : forall eps v fuel nmax, (2 < nmax)%nat ->
  @deviation_based_u_params R (NumR eps) sqrt fuel 3 folded 0 1 v 2 (1 / 10) nmax = Fuel.
Proof. exact surface_refuted. Qed.
Print Assumptions C84_surface_refuted.

(** C85: the tangential direction has length one and the sense of the derivative. *)
Theorem C85_tangent : forall eps dim (g : gcurve R) u t, g_value g u 1 = Ok t -> 0 < sqlen dim t ->
  exists d, @tangential_direction R (NumR eps) sqrt dim g u = Ok d /\ sqlen dim d = 1 /\ exists s, 0 < s /\ forall i, t i = s * d i.
Proof. exact tangent_ok. Qed.
Print Assumptions C85_tangent.
Theorem C85_tangent_zero : forall eps dim (g : gcurve R) u t, g_value g u 1 = Ok t -> sqlen dim t = 0 ->
  @tangential_direction R (NumR eps) sqrt dim g u = Undef DivByZero.
Proof. exact tangent_zero. Qed.
Print Assumptions C85_tangent_zero.

(** The normal of a plane curve: of length one, orthogonal to the derivative, on its left. *)
Theorem C85_normal2 : forall eps (g : gcurve R) u t, g_value g u 1 = Ok t -> 0 < sqlen 2 t ->
  exists n, @normal_direction2 R (NumR eps) sqrt g u = Ok n /\ sqlen 2 n = 1 /\ t 0%nat * n 0%nat + t 1%nat * n 1%nat = 0 /\
    0 < t 0%nat * n 1%nat - t 1%nat * n 0%nat.
Proof. exact normal2_ok. Qed.
Print Assumptions C85_normal2.

(** The normal of a space curve: of length one, orthogonal to the derivative, in the plane of the
    first two derivatives, away from the centre of curvature. *)
Theorem C85_normal3 : forall eps (g : gcurve R) u (t c : pt R), g_value g u 1 = Ok t -> g_value g u 2 = Ok c ->
  0 < sqlen 3 (@cross R (NumR eps) t c) ->
  exists n, @normal_direction3 R (NumR eps) sqrt g u = Ok n /\ sqlen 3 n = 1 /\ @dot R (NumR eps) 3 t n = 0 /\ @dot R (NumR eps) 3 c n < 0 /\
    exists a b, forall i, (i < 3)%nat -> n i = a * t i + b * c i.
Proof. exact normal3_ok. Qed.
Print Assumptions C85_normal3.
Example C85_applies : forall u, exists t c : pt R, g_value parabola u 1 = Ok t /\ g_value parabola u 2 = Ok c /\ 0 < sqlen 2 t /\
  0 < sqlen 3 (@cross R (NumR 0) t c) /\ t 2%nat = 0 /\ c 2%nat = 0 /\ t 0%nat * c 1%nat - t 1%nat * c 0%nat = 2.
Proof. exact lit_directions. Qed.

(** False: the same plane curve has the same normal in the plane and in space. Where it turns left
    the two are opposite. *)
Theorem C85_agree_refuted : forall eps (g : gcurve R) u (t c : pt R), g_value g u 1 = Ok t -> g_value g u 2 = Ok c -> t 2%nat = 0 -> c 2%nat = 0 ->
  let turn := t 0%nat * c 1%nat - t 1%nat * c 0%nat in turn <> 0 ->
  exists n2 n3, @normal_direction2 R (NumR eps) sqrt g u = Ok n2 /\ @normal_direction3 R (NumR eps) sqrt g u = Ok n3 /\
    forall i, (i < 2)%nat -> n3 i = (if Rlt_dec 0 turn then - n2 i else n2 i).
Proof. exact normals_meet. Qed.
Print Assumptions C85_agree_refuted.

(** C86: the length of a curve from a to x and its two derivatives with respect to x; the first one
    is the speed. No other derivative is given. *)
Theorem C86_length : forall eps dim quad (g : gcurve R) a b (C1 C2 : R -> pt R),
  (forall x, a <= x <= b -> g_value g x 1 = Ok (C1 x) /\ g_value g x 2 = Ok (C2 x) /\ 0 < sqlen dim (C1 x)) ->
  (forall x i, a < x < b -> (i < dim)%nat -> derivable_pt_lim (fun x => C1 x i) x (C2 x i)) ->
  integrates quad (fun x => sqrt (sqlen dim (C1 x))) a b ->
  exists L0 L1 L2 : R -> R, L0 a = 0 /\
    (forall x, a <= x <= b -> @length_ R (NumR eps) sqrt dim quad g a x 0 = Ok (L0 x) /\
       @length_ R (NumR eps) sqrt dim quad g a x 1 = Ok (L1 x) /\ @length_ R (NumR eps) sqrt dim quad g a x 2 = Ok (L2 x) /\
       L1 x = sqrt (sqlen dim (C1 x))) /\
    (forall x, a < x < b -> derivable_pt_lim L0 x (L1 x) /\ derivable_pt_lim L1 x (L2 x)).
Proof. exact lengths_ok. Qed.
Print Assumptions C86_length.
Example C86_length_applies : let C1 := (fun x (_ : nat) => 2 * x : R) in
  (forall x, 1 <= x <= 2 -> g_value (power 2) x 1 = Ok (C1 x) /\ g_value (power 2) x 2 = Ok (fun _ => 2) /\ 0 < sqlen 1 (C1 x)) /\
  (forall x i, 1 < x < 2 -> (i < 1)%nat -> derivable_pt_lim (fun x => C1 x i) x 2) /\
  integrates trapezium (fun x => sqrt (sqlen 1 (C1 x))) 1 2.
Proof. exact lit_lengths. Qed.
Theorem C86_length_refuses : forall eps dim quad (g : gcurve R) a b d, (3 <= d)%nat ->
  @length_ R (NumR eps) sqrt dim quad g a b d = Throw RuntimeError.
Proof. exact length_throws. Qed.
Print Assumptions C86_length_refuses.

(** The curvilinear abscissa: a function of one variable over [0, total length] that takes the value
    of each of n evenly spread parameters at the length of the curve up to this parameter. *)
Theorem C86_law : forall eps (sparse : @solver R) len L u1 u2 n p, complete_solver sparse -> 0 <= eps -> (1 <= p <= 24)%nat -> (2 <= n)%nat -> u1 < u2 ->
  measures len L u1 u2 ->
  exists c, @abs_curv_law R (NumR eps) sparse len u1 u2 n p = Ok c /\ bounds c = (0, L u1 u2) /\
    forall i, (i < n)%nat -> passes eps 1 c (L u1 (spread u1 u2 n i)) 0 (fun _ => spread u1 u2 n i).
Proof. exact law_ok. Qed.
Print Assumptions C86_law.
Example C86_law_applies : measures (fun a b => @length_ R (NumR 0) sqrt 1 trapezium (power 2) a b 0) (fun a b => b ^ 2 - a ^ 2) 1 2.
Proof. exact lit_measures. Qed.
Example C86_law_solver : complete_solver gauss.
Proof. exact lit_solver. Qed.

(** The adaptive table of lengths: with lengths that add up, n evenly spread parameters and the
    length of the curve up to each of them. *)
Theorem C86_adaptive : forall eps len L u1 u2 n tol, 0 <= tol -> (2 <= n)%nat -> u1 < u2 -> measures len L u1 u2 ->
  exists u m, @abs_curv_adaptive_discretization R (NumR eps) len u1 u2 n tol = Ok (u, m) /\ length u = n /\ length m = n /\
    forall i, (i < n)%nat -> nth i u 0 = spread u1 u2 n i /\ nth i m 0 = L u1 (spread u1 u2 n i).
Proof. exact adaptive_ok. Qed.
Print Assumptions C86_adaptive.

(** False: where the lengths of two halves differ from that of the whole, a parameter is added. The
    program goes on with an iterator that the insertion invalidated. *)
Theorem C86_adaptive_refuted : forall eps len (L : R -> R -> R) u1 u2 n tol i, (2 <= n)%nat -> u1 < u2 ->
  (forall a b, u1 <= a -> a <= b -> b <= u2 -> len a b = Ok (L a b)) -> (forall a b, u1 <= a -> a < b -> b <= u2 -> 0 < L a b) ->
  (S i < n)%nat -> let a := spread u1 u2 n i in let b := spread u1 u2 n (S i) in
  tol < Rabs (L a ((a + b) / 2) + L ((a + b) / 2) b - L a b) / L a b ->
  @abs_curv_adaptive_discretization R (NumR eps) len u1 u2 n tol = Undef BadIterator.
Proof. exact adaptive_undefined. Qed.
Print Assumptions C86_adaptive_refuted.
Example C86_adaptive_refuted_applies :
  let len := fun a b => @length_ R (NumR 0) sqrt 1 trapezium (power 3) a b 0 in let L := fun a b => 3 * (a ^ 2 + b ^ 2) / 2 * (b - a) in
  (forall a b, 0 <= a -> a <= b -> b <= 1 -> len a b = Ok (L a b)) /\ (forall a b, 0 <= a -> a < b -> b <= 1 -> 0 < L a b) /\
  let a := spread 0 1 2 0 in let b := spread 0 1 2 1 in
  1 / 5 < Rabs (L a ((a + b) / 2) + L ((a + b) / 2) b - L a b) / L a b.
Proof. exact lit_uneven. Qed.
