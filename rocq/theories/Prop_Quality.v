(** Measures of a face against a surface, and of its shape (C96). *)
From Coq Require Import Reals List Arith Lra.
From Verif Require Import Model_Base Model_Mesh Model_Geom Model_Tess Model_Refine Model_Quality Spec_Base Spec_Motion Spec_Mesh Spec_MeshEdit
  Spec_Geom Spec_Tess Spec_Refine Spec_Quality Proof_PropTess2 Proof_Quality Proof_Quality2.
Import ListNotations.
Local Open Scope R_scope.

(** MaxEdgeSizeSurface gives the largest squared length, on the surface, of an inner edge of the
    face, and the middle of that edge in the plane if the length is not 0. *)
Theorem C96_max_edge_size_surface : forall eps dim (S : R * R -> vec) (h : plane) fs f l,
  tri_mesh h fs -> In f fs -> face_loop h f l ->
  exists v p, @MaxEdgeSizeSurface R (NumR eps) dim (fun x => Ok (S x)) h f = Ok (v, p) /\
  (forall e A B, In e l -> inner_edge h e A B -> sqdist dim (S A) (S B) <= v) /\
  ((exists e A B, In e l /\ inner_edge h e A B /\ v = sqdist dim (S A) (S B) /\ p = middle_of A B) \/
   ((forall e A B, In e l -> inner_edge h e A B -> sqdist dim (S A) (S B) = 0) /\ v = 0 /\ p = (0, 0))).
Proof. exact surf_size_prop. Qed.
Print Assumptions C96_max_edge_size_surface.

(** DistanceMeshSurface3 gives the largest gap between the surface and the flat triangle, over
    the middles of the inner edges and the centre, and the point where it is attained. *)
Theorem C96_distance : forall eps dim (S : R * R -> vec) (h : plane) fs f l A B D,
  tri_mesh h fs -> In f fs -> face_loop h f l -> corners h f A B D ->
  exists v p, @DistanceMeshSurface3 R (NumR eps) sqrt dim (fun x => Ok (S x)) h f = Ok (v, p) /\
  (forall e P Q, In e l -> inner_edge h e P Q -> chord_gap dim S P Q <= v) /\ centre_gap dim S A B D <= v /\
  ((exists e P Q, In e l /\ inner_edge h e P Q /\ v = chord_gap dim S P Q /\ p = middle_of P Q) \/
   (v = centre_gap dim S A B D /\ p = centre A B D) \/ (v = 0 /\ p = (0, 0))).
Proof. exact distance3_prop. Qed.
Print Assumptions C96_distance.

(** TriangleShape gives the longest side over the shortest, and the centre; a face all of whose
    sides are under min_edge_length gets the lowest mark. *)
Theorem C96_shape : forall eps lowest min_edge_length (h : plane) fs f A B D,
  tri_mesh h fs -> In f fs -> corners h f A B D ->
  exists v, @TriangleShape R (NumR eps) sqrt lowest min_edge_length h f = Ok (v, centre A B D) /\ 0 < shortest A B D /\
    (longest A B D < min_edge_length -> v = lowest) /\
    (min_edge_length <= longest A B D -> v = longest A B D / shortest A B D).
Proof. exact shape_prop. Qed.
Print Assumptions C96_shape.
(** That ratio is least, and is 1, for the equilateral triangles. *)
Theorem C96_shape_least : forall A B D, 0 < shortest A B D ->
  1 <= longest A B D / shortest A B D /\
  (longest A B D / shortest A B D = 1 <-> side A B = side B D /\ side B D = side D A).
Proof. exact shape_one. Qed.
Print Assumptions C96_shape_least.

(** The three measures meet the hypotheses of C90_rounds: refinement may keep the marks of the
    faces a new point leaves alone. *)
Theorem C96_local : forall eps dim (S : R * R -> vec),
  (defined (@MaxEdgeSizeSurface R (NumR eps) dim (fun x => Ok (S x))) /\
   local eps (@MaxEdgeSizeSurface R (NumR eps) dim (fun x => Ok (S x)))) /\
  (defined (@DistanceMeshSurface3 R (NumR eps) sqrt dim (fun x => Ok (S x))) /\
   local eps (@DistanceMeshSurface3 R (NumR eps) sqrt dim (fun x => Ok (S x)))) /\
  forall lowest m, defined (@TriangleShape R (NumR eps) sqrt lowest m) /\ local eps (@TriangleShape R (NumR eps) sqrt lowest m).
Proof. exact quality_local. Qed.
Print Assumptions C96_local.

(** "TriangleShape2 marks the shape" fails: of two triangles of the same shape, one is marked
    worse. *)
Theorem C96_shape2_refuted : forall eps, exists (h h' : plane) fs v w p q,
  tri_mesh h fs /\ tri_mesh h' fs /\ In 0%nat fs /\
  corners h 0 (1, 0) (0, 1) (0, 0) /\ corners h' 0 (2, 0) (0, 2) (0, 0) /\
  @TriangleShape2 R (NumR eps) sqrt h 0%nat = Ok (v, p) /\ @TriangleShape2 R (NumR eps) sqrt h' 0%nat = Ok (w, q) /\ v < w.
Proof. exact shape2_refuted. Qed.
Print Assumptions C96_shape2_refuted.

(** A square cut by a diagonal meets the hypotheses. *)
Example C96_nonvacuous : exists (h : plane) fs l, tri_mesh h fs /\ In 0%nat fs /\ face_loop h 0 l /\
  corners h 0 (1, 0) (0, 1) (0, 0) /\ (exists e, In e l /\ inner_edge h e (1, 0) (0, 1)) /\ 0 < shortest (1, 0) (0, 1) (0, 0).
Proof. exact quality_nonvacuous. Qed.

(** DeviationMeshSurface returns the length of the sum, not of the difference, of the normal of
    the triangle, taken in its own orientation, and of the normal of the surface at the centre. *)
Theorem C96_deviation : forall eps (S du dv : R * R -> vec) (h : plane) fs f A B D,
  tri_mesh h fs -> In f fs -> corners h f A B D ->
  nonzero 3 (cross3 (fun i => S B i - S A i) (fun i => S D i - S A i)) ->
  nonzero 3 (cross3 (du (centre A B D)) (dv (centre A B D))) ->
  @DeviationMeshSurface R (NumR eps) sqrt (fun x => Ok (S x)) (fun x => Ok (du x)) (fun x => Ok (dv x)) h f =
  Ok (len 3 (fun i => flat_normal (S A) (S B) (S D) i + surface_normal (du (centre A B D)) (dv (centre A B D)) i), centre A B D).
Proof. exact deviation_prop. Qed.
Print Assumptions C96_deviation.
(** "The deviation of a triangle that lies on the surface is 0" fails: it is 2, the largest there
    is, on every face of every triangulation of a plane. *)
Theorem C96_deviation_refuted : forall eps (O a b : vec) (h : plane) fs f A B D,
  tri_mesh h fs -> In f fs -> corners h f A B D -> nonzero 3 (cross3 a b) ->
  @DeviationMeshSurface R (NumR eps) sqrt (fun x => Ok (fun i => O i + fst x * a i + snd x * b i)) (fun _ => Ok a) (fun _ => Ok b) h f =
  Ok (2, centre A B D).
Proof. exact deviation_flat. Qed.
Print Assumptions C96_deviation_refuted.

(** DeviationMeshSurface2 gives the largest sine of the angle of the tangents at the two ends of
    an inner edge, along it, and its middle; on a plane that is 0. *)
Theorem C96_deviation2 : forall eps (du dv : R * R -> vec) (h : plane) fs f l,
  tri_mesh h fs -> In f fs -> face_loop h f l ->
  (forall e A B, In e l -> inner_edge h e A B -> nonzero 3 (towards du dv A A B) /\ nonzero 3 (towards du dv B A B)) ->
  exists v p, @DeviationMeshSurface2 R (NumR eps) sqrt (fun x => Ok (du x)) (fun x => Ok (dv x)) h f = Ok (v, p) /\
  (forall e A B, In e l -> inner_edge h e A B -> turn du dv A B <= v) /\
  ((exists e A B, In e l /\ inner_edge h e A B /\ v = turn du dv A B /\ p = middle_of A B) \/ (v = 0 /\ p = (0, 0))).
Proof. exact deviation2_prop. Qed.
Print Assumptions C96_deviation2.
Theorem C96_deviation2_plane : forall (a b : vec) A B, turn (fun _ => a) (fun _ => b) A B = 0.
Proof. exact turn_flat. Qed.
Print Assumptions C96_deviation2_plane.

(** A plane meets the hypotheses of the four. *)
Example C96_plane_nonvacuous : exists (h : plane) fs a b, tri_mesh h fs /\ In 0%nat fs /\ corners h 0 (1, 0) (0, 1) (0, 0) /\
  nonzero 3 (cross3 a b) /\ forall A B, A <> B -> nonzero 3 (towards (fun _ => a) (fun _ => b) A A B).
Proof. exact flat_case. Qed.
