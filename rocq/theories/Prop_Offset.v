(** Property C87: offset curves and surfaces. *)
From Coq Require Import List Arith Reals.
From Verif Require Import Model_Base Model_Curve Model_Vec Model_Wrap Model_Interp Model_Surface Model_Skin Model_Offset
  Spec_Base Spec_Basis Spec_Build Spec_Eval Spec_Interp Spec_Solve Spec_Surface Spec_Approx Spec_Analysis Spec_Offset
  Proof_Gauss Proof_PropApprox Proof_Offset Proof_PropOffset.
Import ListNotations.
Local Open Scope R_scope.

(** C87: the offset of a plane curve by a law o. Its points are o away from those of the curve,
    along the normal, on the left for a positive o; the values returned at the orders 1 and 2 are
    the derivatives of those at the orders 0 and 1. *)
Theorem C87_plane : forall eps (g : gcurve R) off (C : nat -> R -> pt R) (o : nat -> R -> R) a b,
  smooth_curve 2 (g_value g) C 3 a b -> smooth_scalar off o 2 a b -> (forall x, a < x < b -> 0 < sqlen 2 (C 1%nat x)) ->
  exists P : nat -> R -> pt R, smooth_curve 2 (@offset2 R (NumR eps) sqrt g off) P 2 a b /\
    forall x, a < x < b -> let w := fun i => P 0%nat x i - C 0%nat x i in let t := C 1%nat x in
      t 0%nat * w 0%nat + t 1%nat * w 1%nat = 0 /\ sqlen 2 w = o 0%nat x ^ 2 /\
      t 0%nat * w 1%nat - t 1%nat * w 0%nat = o 0%nat x * sqrt (sqlen 2 t).
Proof. exact plane_ok. Qed.
Print Assumptions C87_plane.
Example C87_plane_applies : smooth_curve 2 (g_value circle3) circle_ders 3 0 (2 * PI) /\ smooth_scalar (fun x d => Ok (growing d x)) growing 2 0 (2 * PI) /\
  forall x, 0 < sqlen 2 (circle_ders 1 x).
Proof. exact lit_plane. Qed.

(** Higher derivatives are refused. *)
Theorem C87_plane_refuses : forall eps (g : gcurve R) off u d, (3 <= d)%nat -> @offset2 R (NumR eps) sqrt g off u d = Throw RuntimeError.
Proof. exact plane_throws. Qed.
Print Assumptions C87_plane_refuses.

(** In space the offset is along the unit vector of direction x tangent. *)
Theorem C87_space : forall eps (g : gcurve R) off (dir p t : pt R) u o, g_value g u 0 = Ok p -> g_value g u 1 = Ok t -> off u 0%nat = Ok o ->
  0 < sqlen 3 (@cross R (NumR eps) dir t) ->
  exists q k, @offset3 R (NumR eps) sqrt g off dir u 0 = Ok q /\ 0 < k /\ k ^ 2 * sqlen 3 (@cross R (NumR eps) dir t) = 1 /\
    forall i, q i = p i + o * (k * @cross R (NumR eps) dir t i).
Proof. exact space_ok. Qed.
Print Assumptions C87_space.
Example C87_space_applies : forall x, g_value circle3 x 0 = Ok (circle_ders 0 x) /\ g_value circle3 x 1 = Ok (circle_ders 1 x) /\
  0 < sqlen 3 (@cross R (NumR 0) (point3 0 0 1) (circle_ders 1 x)).
Proof. exact lit_space. Qed.

(** False: in space the value at the order 1 is the derivative. For a circle at a constant offset
    it is not, *)
Theorem C87_derivative_refuted : forall eps o, o <> 0 -> exists P0 P1 : R -> pt R,
  (forall x, @offset3 R (NumR eps) sqrt circle3 (constant o) (point3 0 0 1) x 0 = Ok (P0 x) /\
             @offset3 R (NumR eps) sqrt circle3 (constant o) (point3 0 0 1) x 1 = Ok (P1 x)) /\
  ~ derivable_pt_lim (fun x => P0 x 1%nat) 0 (P1 0 1%nat).
Proof. exact circle_refuted. Qed.
Print Assumptions C87_derivative_refuted.
(** and where the curve is straight or the offset zero, a zero vector is normalised. *)
Theorem C87_straight_refuted : forall eps (g : gcurve R) off (dir t c : pt R) u o,
  g_value g u 1 = Ok t -> g_value g u 2 = Ok c -> off u 0%nat = Ok o ->
  0 < sqlen 3 dir -> 0 < sqlen 3 t -> o = 0 \/ sqlen 3 (@cross R (NumR eps) t c) = 0 ->
  @offset3 R (NumR eps) sqrt g off dir u 1 = Undef DivByZero.
Proof. exact space_undefined. Qed.
Print Assumptions C87_straight_refuted.

(** The offset points of a surface: u first, each along the unit normal tu x tv. *)
Theorem C87_points : forall eps f_ep (srf : gsurf R) u v l, @offset_points R (NumR eps) sqrt f_ep srf u v = Ok l ->
  length l = (length u * length v)%nat /\
  forall i j a b, nth_error u i = Some a -> nth_error v j = Some b ->
  exists q p tu tv e k, nth_error l (j * length u + i) = Some q /\
    srf a b 0%nat 0%nat = Ok p /\ srf a b 1%nat 0%nat = Ok tu /\ srf a b 0%nat 1%nat = Ok tv /\ f_ep a b = Ok e /\
    0 < k /\ k ^ 2 * sqlen 3 (@cross R (NumR eps) tu tv) = 1 /\ forall c, q c = p c + e * (k * @cross R (NumR eps) tu tv c).
Proof. exact offset_points_ok. Qed.
Print Assumptions C87_points.
Theorem C87_points_returns : forall eps f_ep (srf : gsurf R) u v,
  (forall a b, In a u -> In b v -> exists p tu tv e, srf a b 0%nat 0%nat = Ok p /\ srf a b 1%nat 0%nat = Ok tu /\ srf a b 0%nat 1%nat = Ok tv /\ f_ep a b = Ok e /\
     0 < sqlen 3 (@cross R (NumR eps) tu tv)) -> exists l, @offset_points R (NumR eps) sqrt f_ep srf u v = Ok l.
Proof. exact offset_points_returns. Qed.
Print Assumptions C87_points_returns.
Example C87_points_applies : forall u v, 0 <= u <= 1 -> 0 <= v <= 1 ->
  exists p tu tv, @surf_value R (NumR (1 / 10)) saddle u v 0 0 = Ok p /\ @surf_value R (NumR (1 / 10)) saddle u v 1 0 = Ok tu /\
  @surf_value R (NumR (1 / 10)) saddle u v 0 1 = Ok tv /\ 0 < sqlen 3 (@cross R (NumR (1 / 10)) tu tv).
Proof. exact saddle_normal. Qed.

(** The offset surface has the knots and degrees of the surface and is the closest of all such
    surfaces, in the least squares sense, to the offset points on an even grid. *)
Theorem C87_surface : forall eps ldlt f_ep (s : surf R) n m nu nv r, let p := s_degU s in let q := s_degV s in let ku := s_ku s in let kv := s_kv s in
  exact_solver ldlt -> knots_ok ku n p -> knots_ok kv m q -> evaluable2 eps ku n p kv m q ->
  s_u1 s = kn ku p -> s_u2 s = kn ku n -> s_v1 s = kn kv q -> s_v2 s = kn kv m ->
  s_u1 s < s_u2 s -> s_v1 s < s_v2 s ->
  @offset_approx R (NumR eps) sqrt ldlt f_ep s nu nv = Ok r ->
  s_degU r = p /\ s_degV r = q /\ s_ku r = ku /\ s_kv r = kv /\ length (s_poles r) = (n * m)%nat /\
  let u := fun i => spread (s_u1 s) (s_u2 s) nu i in let v := fun j => spread (s_v1 s) (s_v2 s) nv j in
  exists pts, @offset_points R (NumR eps) sqrt f_ep (@surf_value R (NumR eps) s) (map u (seq 0 nu)) (map v (seq 0 nv)) = Ok pts /\
  forall c P', (c < 3)%nat -> length P' = (n * m)%nat -> exists e e' : nat -> nat -> R,
    (forall i j, (i < nu)%nat -> (j < nv)%nat ->
       gap eps ku kv (s_poles r) p q (u i) (v j) 0 0 (nth (i + nu * j) pts (fun _ => 0)) c (e i j) /\
       gap eps ku kv P' p q (u i) (v j) 0 0 (nth (i + nu * j) pts (fun _ => 0)) c (e' i j)) /\
    sumn nv (fun j => sumn nu (fun i => e i j ^ 2)) <= sumn nv (fun j => sumn nu (fun i => e' i j ^ 2)).
Proof. exact offset_approx_ok. Qed.
Print Assumptions C87_surface.
Example C87_surface_applies : exact_solver gauss /\ knots_ok unit_knots 2 1 /\ evaluable2 (1 / 10) unit_knots 2 1 unit_knots 2 1 /\
  exists r, @offset_approx R (NumR (1 / 10)) sqrt gauss (fun u v => Ok (u + v)) saddle 3 3 = Ok r.
Proof. exact (conj (proj1 gauss_complete) (conj (proj1 unit_ok) (conj (proj1 (proj2 unit_ok)) saddle_offset))). Qed.
