(** Property C82: connections between two curves and extensions of a curve. *)
From Coq Require Import List Arith Reals.
From Verif Require Import Model_Base Model_Curve Model_Interp Model_Wrap Model_Connect
  Spec_Base Spec_Basis Spec_Build Spec_Interp Spec_Solve Spec_Elevate Spec_Unify Spec_Connect
  Proof_Gauss Proof_Elevate6 Proof_PropSkin Proof_Connect3 Proof_Connect5 Proof_Connect6 Proof_PropConnect.
Import ListNotations.
Local Open Scope R_scope.

(** C82: the curve that connects the end of one curve to the start of another takes there
    their values and their derivatives up to the order n (2 for c2_connect, 3 for c3_connect).
    a and b are these values, the parameter runs from 0 to the distance of the two points. *)
Theorem C82_connect : forall eps (sparse : @solver R) dist root dim n (g1 g2 : gcurve R) (a b : nat -> pt R),
  complete_solver sparse -> 0 <= eps -> (n <= 11)%nat ->
  jet_is g1 (g_hi g1) n a -> jet_is g2 (g_lo g2) n b -> 0 < dist (b 0%nat) (a 0%nat) ->
  exists c, @connect R (NumR eps) sparse dist root dim n g1 g2 = Ok c /\ c_deg c = (2 * n + 1)%nat /\
    bounds c = (0, dist (b 0%nat) (a 0%nat)) /\
    forall d, (d <= n)%nat -> passes eps dim c 0 d (a d) /\ passes eps dim c (dist (b 0%nat) (a 0%nat)) d (b d).
Proof. exact connect_ok. Qed.
Print Assumptions C82_connect.
Example C82_connect_applies : complete_solver gauss /\ exists a b,
  jet_is (@of_curve R (NumR (1 / 10)) lit_curve) 2 3 a /\ jet_is (@of_curve R (NumR (1 / 10)) lit_far) 0 3 b /\ 0 < taxicab (b 0%nat) (a 0%nat).
Proof. exact lit_connection. Qed.

(** With factors: third derivatives too, multiplied by t1 and t2. *)
Theorem C82_connect_scaled : forall eps (sparse : @solver R) dist root dim (g1 g2 : gcurve R) (a b : nat -> pt R) t1 t2,
  complete_solver sparse -> 0 <= eps ->
  jet_is g1 (g_hi g1) 3 a -> jet_is g2 (g_lo g2) 3 b -> 0 < dist (b 0%nat) (a 0%nat) ->
  exists c, @c2_connect_scaled R (NumR eps) sparse dist root dim g1 g2 t1 t2 = Ok c /\ c_deg c = 7%nat /\
    bounds c = (0, dist (b 0%nat) (a 0%nat)) /\
    (forall d, (d <= 2)%nat -> passes eps dim c 0 d (a d) /\ passes eps dim c (dist (b 0%nat) (a 0%nat)) d (b d)) /\
    passes eps dim c 0 3 (fun i => t1 * a 3%nat i) /\ passes eps dim c (dist (b 0%nat) (a 0%nat)) 3 (fun i => t2 * b 3%nat i).
Proof. exact connect_scaled_ok. Qed.
Print Assumptions C82_connect_scaled.

(** cn_connect: the order n, the parameter length du and the degree p > n are chosen; the
    degree is lowered to 2n+1 if more was asked for. *)
Theorem C82_connect_n : forall eps (lu : @solver R) dim (g1 g2 : gcurve R) du p n (a b : nat -> pt R),
  complete_solver lu -> 0 <= eps -> 0 < du -> (n < p <= 24)%nat ->
  jet_is g1 (g_hi g1) n a -> jet_is g2 (g_lo g2) n b ->
  exists c, @cn_connect R (NumR eps) lu dim g1 g2 du p n = Ok c /\ c_deg c = min p (2 * n + 1) /\ bounds c = (0, du) /\
    forall d, (d <= n)%nat -> passes eps dim c 0 d (a d) /\ passes eps dim c du d (b d).
Proof. exact cn_connect_ok. Qed.
Print Assumptions C82_connect_n.

(** The extension alone, from the parameter u of a curve c to a point q reached at u_new: it
    takes at u the value and the derivatives of c up to the order m = [continuity] and, on
    demand, has a zero second derivative at q. *)
Theorem C82_extension : forall eps (lu : @solver R) dim c (q : pt R) u u_new (natural : bool) mc (a : nat -> pt R),
  let p := c_deg c in let m := continuity p mc in
  complete_solver lu -> 0 < eps -> (1 <= p <= 24)%nat -> u < u_new -> curve_jet eps c u m a ->
  exists e, @extention_to_point_at R (NumR eps) lu dim c q u u_new natural mc = Ok e /\ bounds e = (u, u_new) /\ (1 <= c_deg e <= p)%nat /\
    (forall d, (d <= m)%nat -> passes eps dim e u d (a d)) /\ passes eps dim e u_new 0 q /\
    (natural = true -> (2 < p)%nat -> passes eps dim e u_new 2 (fun _ => 0)) /\
    (eps * INR p < u_new - u -> clamped_object eps e).
Proof. exact ext_at_ok. Qed.
Print Assumptions C82_extension.

(** A curve extended to the point q at its end: it is unchanged on its interval, it ends at q
    and it is m times continuously differentiable where the extension begins. *)
Theorem C82_extended_end : forall eps, 0 < eps -> forall (lu : @solver R) norm dim c (q t e : pt R) (natural : bool) mc,
  complete_solver lu -> euclidean dim norm -> clamped_object eps c -> (1 <= c_deg c <= 12)%nat ->
  @value R (NumR eps) c (c_hi c) 0 = Ok e -> @value R (NumR eps) c (c_hi c) 1 = Ok t -> 0 < sqlen dim t ->
  eps * INR (c_deg c) < extension_length dim e t q ->
  exists r, @extended_to_point R (NumR eps) lu norm dim c q true natural mc = Ok r /\ clamped_object eps r /\ c_deg r = c_deg c /\
    bounds r = (c_lo c, c_hi c + extension_length dim e t q) /\
    (forall x d, c_lo c <= x < c_hi c \/ x = c_hi c /\ d = 0%nat -> same_points eps dim c r x x d) /\
    smooth_through eps dim (continuity (c_deg c) mc) r (c_hi c) /\
    passes eps dim r (c_hi r) 0 q /\
    (natural = true -> (2 < c_deg c)%nat -> passes eps dim r (c_hi r) 2 (fun _ => 0)).
Proof. exact extended_end_ok. Qed.
Print Assumptions C82_extended_end.

(** And at its start, where the interval grows to the left and the parameters of the curve
    are kept. *)
Theorem C82_extended_start : forall eps, 0 < eps -> forall (lu : @solver R) norm dim c (q t e : pt R) (natural : bool) mc,
  complete_solver lu -> euclidean dim norm -> clamped_object eps c -> (1 <= c_deg c <= 12)%nat ->
  @value R (NumR eps) c (c_lo c) 0 = Ok e -> @value R (NumR eps) c (c_lo c) 1 = Ok t -> 0 < sqlen dim t ->
  eps * INR (c_deg c) < extension_length dim e t q ->
  exists r, @extended_to_point R (NumR eps) lu norm dim c q false natural mc = Ok r /\ clamped_object eps r /\ c_deg r = c_deg c /\
    bounds r = (c_lo c - extension_length dim e t q, c_hi c) /\
    (forall x d, c_lo c <= x < c_hi c \/ x = c_hi c /\ d = 0%nat -> same_points eps dim c r x x d) /\
    smooth_through eps dim (continuity (c_deg c) mc) r (c_lo c) /\
    passes eps dim r (c_lo r) 0 q /\
    (natural = true -> (2 < c_deg c)%nat -> passes eps dim r (c_lo r) 2 (fun _ => 0)).
Proof. exact extended_start_ok. Qed.
Print Assumptions C82_extended_start.
Example C82_extended_applies : complete_solver gauss /\ euclidean 2 norm_2 /\ clamped_object (1 / 10) lit_curve /\ (1 <= c_deg lit_curve <= 12)%nat /\
  exists e t e' t', @value R (NumR (1 / 10)) lit_curve (c_hi lit_curve) 0 = Ok e /\ @value R (NumR (1 / 10)) lit_curve (c_hi lit_curve) 1 = Ok t /\
  @value R (NumR (1 / 10)) lit_curve (c_lo lit_curve) 0 = Ok e' /\ @value R (NumR (1 / 10)) lit_curve (c_lo lit_curve) 1 = Ok t' /\
  0 < sqlen 2 t /\ 0 < sqlen 2 t' /\
  1 / 10 * INR (c_deg lit_curve) < extension_length 2 e t (pt2 7 3) /\ 1 / 10 * INR (c_deg lit_curve) < extension_length 2 e' t' (pt2 7 3).
Proof. exact lit_extension. Qed.

(** Extended by a length l (or l times its own length): the new end is at the distance l from
    the old one, along the tangent. *)
Theorem C82_extended : forall eps, 0 < eps -> forall (lu : @solver R) norm length_of dim c (t e : pt R) l (at_end relative natural : bool) mc,
  let x := if at_end then c_hi c else c_lo c in
  let s := if at_end then 1 else -1 in
  let l' := if relative then l * length_of c else l in
  let L := l' ^ 2 / sqrt (sqlen dim t) in
  complete_solver lu -> euclidean dim norm -> clamped_object eps c -> (1 <= c_deg c <= 12)%nat ->
  @value R (NumR eps) c x 0 = Ok e -> @value R (NumR eps) c x 1 = Ok t -> 0 < sqlen dim t -> eps * INR (c_deg c) < L ->
  exists r, @extended R (NumR eps) lu norm length_of dim c l at_end relative natural mc = Ok r /\ clamped_object eps r /\ c_deg r = c_deg c /\
    bounds r = (if at_end then (c_lo c, c_hi c + L) else (c_lo c - L, c_hi c)) /\
    (forall y d, c_lo c <= y < c_hi c \/ y = c_hi c /\ d = 0%nat -> same_points eps dim c r y y d) /\
    smooth_through eps dim (continuity (c_deg c) mc) r x /\
    passes eps dim r (if at_end then c_hi r else c_lo r) 0 (fun i => e i + s * l' * t i / sqrt (sqlen dim t)) /\
    (natural = true -> (2 < c_deg c)%nat -> passes eps dim r (if at_end then c_hi r else c_lo r) 2 (fun _ => 0)).
Proof. exact extended_ok. Qed.
Print Assumptions C82_extended.

(** The parameter length of the extension is not the length divided by the speed: the program
    multiplies by the length once more. *)
Theorem C82_extended_speed_refuted : exists eps (lu : @solver R) norm c l r e t, complete_solver lu /\ euclidean 2 norm /\ clamped_object eps c /\
  @extended R (NumR eps) lu norm (fun _ => 0) 2 c l true false false None = Ok r /\
  @value R (NumR eps) c (c_hi c) 0 = Ok e /\ @value R (NumR eps) c (c_hi c) 1 = Ok t /\
  passes eps 2 r (c_hi r) 0 (fun i => e i + l * t i / norm t) /\
  c_hi r - c_hi c <> l / norm t.
Proof. exact lit_speed_all. Qed.
Print Assumptions C82_extended_speed_refuted.
