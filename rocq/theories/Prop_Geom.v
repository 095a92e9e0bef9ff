(** C53, C55, C56: the predicates of the plane, over the reals. *)
From Coq Require Import List Arith Reals Lra.
From Verif Require Import Model_Base Model_Mesh Model_Geom Model_Tess Spec_Mesh Spec_MeshEdit Spec_Geom Spec_Tess
  Proof_Geom Proof_Geom2 Proof_Geom3 Proof_Geom4.
Import ListNotations.
Local Open Scope R_scope.

(** C53: the sign of in_circle tells on which side of the circle through the triangle the
    fourth point is, for each orientation of the triangle. *)
Theorem C53_in_circle : forall eps (a b c d o : R * R) r2, circle_through o r2 [a; b; c] ->
  (ccw a b c ->
     (0 < @in_circle R (NumR eps) a b c d <-> dist2 d o < r2) /\
     (@in_circle R (NumR eps) a b c d = 0 <-> dist2 d o = r2) /\
     (@in_circle R (NumR eps) a b c d < 0 <-> r2 < dist2 d o)) /\
  (ccw a c b ->
     (@in_circle R (NumR eps) a b c d < 0 <-> dist2 d o < r2) /\
     (@in_circle R (NumR eps) a b c d = 0 <-> dist2 d o = r2) /\
     (0 < @in_circle R (NumR eps) a b c d <-> r2 < dist2 d o)).
Proof. exact in_circle_sign. Qed.
Print Assumptions C53_in_circle.
Example C53_nonvacuous : circle_through (0, 0) 25 [(3, 4); (-5, 0); (4, -3)] /\ ccw (3, 4) (-5, 0) (4, -3).
Proof. exact circle_case. Qed.
(** circle_center gives the point equidistant from the three, except when they are, up to the
    tolerance, on one line. *)
Theorem C53_circle_center : forall eps (a b c : R * R), 0 < eps ->
  match @circle_center R (NumR eps) a b c with
  | None => 2 * Rabs (area2 a b c) < eps
  | Some o => eps <= 2 * Rabs (area2 a b c) /\ circle_through o (dist2 a o) [a; b; c]
  end.
Proof. exact circle_center_ok. Qed.
Print Assumptions C53_circle_center.

(** C55: for a triangle that is not flat both tests answer whether the point is in the closed
    triangle. *)
Theorem C55_in_triangle : forall eps (a b c d : R * R), ~ flat a b c ->
  (@in_triangle R (NumR eps) a b c d = true <-> in_closed a b c d) /\
  exists r, @in_triangle_barycentric R (NumR eps) a b c d = Some r /\ (r = true <-> in_closed a b c d).
Proof. exact in_triangle_prop. Qed.
Print Assumptions C55_in_triangle.
(** For a flat one in_triangle also accepts points outside it. *)
Theorem C55_flat_refuted : exists a b c d : R * R, flat a b c /\ ~ in_closed a b c d /\
  forall eps, @in_triangle R (NumR eps) a b c d = true.
Proof. exact in_triangle_flat. Qed.
Print Assumptions C55_flat_refuted.
(** The barycentric coordinates returned recombine to the point, the first one weighting the
    third corner and the second the second; none are returned for a flat triangle. *)
Theorem C55_barycentric : forall eps (a b c d : R * R),
  (flat a b c -> @triangle_barycentric_coordinates R (NumR eps) a b c d = None) /\
  (~ flat a b c -> exists u v, @triangle_barycentric_coordinates R (NumR eps) a b c d = Some (u, v) /\
     d = mix a b c (1 - u - v) v u).
Proof. exact barycentric_ok. Qed.
Print Assumptions C55_barycentric.
(** They are not the ones documented, which would weight the first and the second corner. *)
Theorem C55_barycentric_doc_refuted : exists a b c d : R * R, ~ flat a b c /\
  forall eps u v, @triangle_barycentric_coordinates R (NumR eps) a b c d = Some (u, v) -> d <> mix a b c u v (1 - u - v).
Proof. exact barycentric_doc. Qed.
Print Assumptions C55_barycentric_doc_refuted.
(** is_inside, given the boundary of a set of triangles of a mesh without overlap, accepts the
    points of the boundary; for a point not within the tolerance of a side of the
    boundary, it answers whether the point is in one of the closed triangles. *)
Theorem C55_is_inside : forall eps (h : plane) fs K es q tol, tri_mesh h fs -> no_overlap h fs ->
  incl K fs -> NoDup K -> NoDup es -> (forall e, In e es <-> on_boundary_of h K e) -> 0 <= tol ->
  ((exists e A B, In e es /\ from_to h e A B /\ on_seg A B q) -> @is_inside R (NumR eps) h q es tol = Ok true) /\
  ((forall e A B, In e es -> from_to h e A B -> ~ near_seg A B tol q) ->
   exists r, @is_inside R (NumR eps) h q es tol = Ok r /\
     (r = true <-> exists f A B D, In f K /\ corners h f A B D /\ in_closed A B D q)).
Proof. exact is_inside_full. Qed.
Print Assumptions C55_is_inside.
Example C55_nonvacuous : exists (h : plane) fs K es q tol, tri_mesh h fs /\ no_overlap h fs /\ incl K fs /\ NoDup K /\ NoDup es /\
  (forall e, In e es <-> on_boundary_of h K e) /\ 0 <= tol /\
  (exists f A B D, In f K /\ corners h f A B D /\ on_seg A B q) /\
  (forall e A B, In e es -> from_to h e A B -> ~ near_seg A B tol q) /\
  (exists f A B D, In f K /\ corners h f A B D /\ in_closed A B D q) /\ length K = 2%nat.
Proof. exact is_inside_case. Qed.

(** C56: a positive answer gives a point strictly inside both segments, and the answer does
    not depend on the order of the segments or of their ends. *)
Theorem C56_crossing : forall eps (a b c d : R * R) tol, 0 <= tol ->
  @seg_seg_strict_intersection R (NumR eps) a b c d tol = true -> exists q, between a b q /\ between c d q.
Proof. exact seg_seg_ok. Qed.
Print Assumptions C56_crossing.
Theorem C56_symmetric : forall eps (a b c d : R * R) tol,
  @seg_seg_strict_intersection R (NumR eps) a b c d tol = @seg_seg_strict_intersection R (NumR eps) c d a b tol /\
  @seg_seg_strict_intersection R (NumR eps) a b c d tol = @seg_seg_strict_intersection R (NumR eps) b a c d tol /\
  @seg_seg_strict_intersection R (NumR eps) a b c d tol = @seg_seg_strict_intersection R (NumR eps) a b d c tol.
Proof. exact seg_seg_sym. Qed.
Print Assumptions C56_symmetric.
(** Segments that cross at a point away from their ends by more than the tolerance, and that
    are long enough and not nearly parallel, are reported. *)
Theorem C56_complete : forall eps (a b c d : R * R) tol, 0 < tol ->
  tol <= Rabs ((fst b - fst a) * (snd d - snd c) - (fst d - fst c) * (snd b - snd a)) ->
  tol <= Rabs (fst b - fst a) \/ tol <= Rabs (snd b - snd a) -> tol <= Rabs (fst d - fst c) \/ tol <= Rabs (snd d - snd c) ->
  (exists s t, tol < s < 1 - tol /\ tol < t < 1 - tol /\ along a b t = along c d s) ->
  @seg_seg_strict_intersection R (NumR eps) a b c d tol = true.
Proof. exact seg_seg_complete. Qed.
Print Assumptions C56_complete.
(** on_segment accepts every point of a segment with distinct ends, and what it accepts is
    within the tolerance, divided by the extent of the segment, of one of its points. *)
Theorem C56_on_segment : forall eps (a b p : R * R) tol,
  (0 <= tol -> a <> b -> on_seg a b p -> @on_segment R (NumR eps) a b p tol = true) /\
  (@on_segment R (NumR eps) a b p tol = true -> near_seg a b tol p).
Proof. exact on_segment_prop. Qed.
Print Assumptions C56_on_segment.
Example C56_nonvacuous : forall eps, @seg_seg_strict_intersection R (NumR eps) (0, 0) (2, 2) (0, 2) (2, 0) (1/100) = true.
Proof. exact seg_seg_case. Qed.
