(** Helpers on one triangle (C98). *)
From Coq Require Import Reals List Arith.
From Verif Require Import Model_Base Model_Geom Model_Triangle Spec_Base Spec_Build Spec_Motion Spec_Geom Spec_Quality Spec_Abscissa Spec_Triangle Proof_Triangle.
Import ListNotations.
Local Open Scope R_scope.

Theorem C98_perimeter : forall eps a b c, @perimeter R (NumR eps) hypot a b c = side a b + side b c + side c a.
Proof. exact perimeter_prop. Qed.
Print Assumptions C98_perimeter.

(** The incenter is inside the triangle, at the same distance of its three sides. *)
Theorem C98_incenter : forall eps a b c, area2 a b c <> 0 ->
  exists q, @incenter R (NumR eps) hypot a b c = Ok q /\ in_open a b c q /\
  line_distance a b q = area2 a b c / @perimeter R (NumR eps) hypot a b c /\
  line_distance b c q = area2 a b c / @perimeter R (NumR eps) hypot a b c /\
  line_distance c a q = area2 a b c / @perimeter R (NumR eps) hypot a b c.
Proof. exact incenter_prop. Qed.
Print Assumptions C98_incenter.

(** surface_triangle_deviation is the distance of the normals of the triangle, in the order of its
    corners, and of the surface at its centre: 0 on a plane. *)
Theorem C98_deviation : forall eps (S du dv : R * R -> vec) A B D,
  nonzero 3 (cross3 (fun i => S B i - S A i) (fun i => S D i - S A i)) ->
  nonzero 3 (cross3 (du (centre A B D)) (dv (centre A B D))) ->
  @surface_triangle_deviation R (NumR eps) sqrt (fun x => Ok (S x)) (fun x => Ok (du x)) (fun x => Ok (dv x)) A B D =
  Ok (len 3 (fun i => flat_normal (S A) (S B) (S D) i - surface_normal (du (centre A B D)) (dv (centre A B D)) i)).
Proof. exact tri_deviation_prop. Qed.
Print Assumptions C98_deviation.
Theorem C98_deviation_plane : forall eps (O a b : vec) A B D, ccw A B D -> nonzero 3 (cross3 a b) ->
  @surface_triangle_deviation R (NumR eps) sqrt (fun x => Ok (fun i => O i + fst x * a i + snd x * b i)) (fun _ => Ok a) (fun _ => Ok b) A B D = Ok 0.
Proof. exact tri_deviation_flat. Qed.
Print Assumptions C98_deviation_plane.

(** computeUV gives the coordinates in the triangle of the foot of the point. *)
Theorem C98_coordinates : forall eps tiny dim (a b c p : vec) u v,
  0 < tiny -> tiny <= Rabs (gram dim a b c) -> over dim a b c p u v ->
  @computeUV R (NumR eps) tiny dim a b c p = Ok (u, v).
Proof. exact uv_prop. Qed.
Print Assumptions C98_coordinates.
(** "It throws only if the corners are collinear" fails for small triangles. *)
Theorem C98_small_refuted : forall eps tiny, 0 < tiny ->
  exists a b c, gram 3 a b c <> 0 /\ forall p, @computeUV R (NumR eps) tiny 3 a b c p = Throw RuntimeError.
Proof. exact uv_small. Qed.
Print Assumptions C98_small_refuted.

(** "sphere_center is NaN only if the points are collinear" fails in every horizontal plane. *)
Theorem C98_sphere_nan_refuted : forall eps tiny (a b c : vec), 0 < tiny -> b 2%nat = a 2%nat -> c 2%nat = a 2%nat ->
  @sphere_center R (NumR eps) tiny a b c = Ok None.
Proof. exact sphere_flat. Qed.
Print Assumptions C98_sphere_nan_refuted.
(** "It is at the same distance of the three points" fails: here it is the first of them. *)
Theorem C98_sphere_refuted : forall eps tiny, 0 < tiny <= 1 ->
  exists o, @sphere_center R (NumR eps) tiny (at3 0 0 0) (at3 1 0 1) (at3 0 1 1) = Ok (Some o) /\
  sqdist 3 o (at3 0 0 0) = 0 /\ sqdist 3 o (at3 1 0 1) = 2 /\ sqdist 3 o (at3 0 1 1) = 2.
Proof. exact sphere_wrong. Qed.
Print Assumptions C98_sphere_refuted.

(** A right triangle and a point above it meet the hypotheses. *)
Example C98_nonvacuous : area2 (0, 0) (3, 0) (0, 4) <> 0 /\ ccw (0, 0) (3, 0) (0, 4) /\
  1 <= Rabs (gram 3 (at3 0 0 0) (at3 3 0 0) (at3 0 4 0)) /\
  over 3 (at3 0 0 0) (at3 3 0 0) (at3 0 4 0) (at3 1 1 5) (1 / 3) (1 / 4).
Proof. exact triangle_case. Qed.
