(** Refinement of triangulations, iteration over the half-edges of a face, area and quality
    measures (C90, C91, C92). *)
From Coq Require Import Reals QArith List Arith Permutation.
From Verif Require Import Model_Base Model_Mesh Model_Geom Model_Tess Model_Refine Spec_Mesh Spec_MeshEdit Spec_Geom Spec_Tess Spec_Refine
  Proof_Tess6 Proof_PropTess2 Proof_TessRefine Proof_TessRefine2 Proof_PropTessRefine.
Import ListNotations.
Local Open Scope nat_scope.

(** ** C90: refinement *)
(** Whatever the quality measure and the limits, a valid triangulation is refined into a valid
    one of the same region, with at most max_inner_points new corners. *)
Theorem C90_refined : forall eps (q : measure) limit max_inner_points (h : plane) fs,
  defined q -> tri_mesh h fs -> fs <> [] ->
  exists h' fs', @refine R (NumR eps) q limit max_inner_points h fs = Ok (h', fs') /\
    tri_mesh h' fs' /\ fs' <> [] /\ same_region h fs h' fs' /\ corners_added max_inner_points h fs h' fs'.
Proof. exact refine_ok. Qed.
Print Assumptions C90_refined.

(** Each round inserts the point of a face that is then the worst of all: the numbers kept from
    round to round are those of the current faces. *)
Theorem C90_rounds : forall eps (q : measure) limit max_inner_points (h : plane) fs h' fs',
  defined q -> local eps q -> tri_mesh h fs -> fs <> [] ->
  @refine R (NumR eps) q limit max_inner_points h fs = Ok (h', fs') ->
  rounds eps q limit max_inner_points h fs h' fs'.
Proof. exact refine_rounds. Qed.
Print Assumptions C90_rounds.

(** Two measures of the library meet the hypotheses of C90_rounds. *)
Theorem C90_max_edge_size : forall eps, defined (@MaxEdgeSize R (NumR eps)) /\ local eps (@MaxEdgeSize R (NumR eps)).
Proof. exact (fun eps => conj (size_defined eps) (size_local eps)). Qed.
Print Assumptions C90_max_edge_size.
Theorem C90_distance : forall eps (X : Type) (d : X -> X -> R) (S : R * R -> X), distance_like d ->
  (forall a b, a <> b -> d (S a) (S b) <> 0%R) ->
  defined (@DistanceMeshSurface2 R (NumR eps) (fun a b => Ok (d (S a) (S b)))) /\
  local eps (@DistanceMeshSurface2 R (NumR eps) (fun a b => Ok (d (S a) (S b)))).
Proof. exact @distance_local. Qed.
Print Assumptions C90_distance.

(** "No point is inserted when every face already meets the criterion" fails: a triangulation of
    four points, all of whose faces are under the limit, gets a fifth point, and then no face is. *)
Theorem C90_stop_refuted : exists h fs,
  @delaunay2DBoyerWatson Q NumQ (fun l => l) [(0, -(1)); (0, 1); (-(10), 0); (10, 0)]%Q = Ok (h, fs) /\
  (forall f, In f fs -> exists c p, @MaxEdgeSize Q NumQ h f = Ok (c, p) /\ (c <= 5)%Q) /\
  exists h' fs', @refine Q NumQ (@MaxEdgeSize Q NumQ) 5%Q 500 h fs = Ok (h', fs') /\
  forall f, In f fs' -> exists c p, @MaxEdgeSize Q NumQ h' f = Ok (c, p) /\ (5 < c)%Q.
Proof. exact stop_prop. Qed.
Print Assumptions C90_stop_refuted.
(** With no face at all the worst face does not exist: undefined behaviour. *)
Theorem C90_no_faces_refuted : forall eps (q : measure) limit n (h : plane),
  @refine R (NumR eps) q limit (S n) h [] = Undef BadIterator.
Proof. exact no_faces_prop. Qed.
Print Assumptions C90_no_faces_refuted.

(** ** C91: iteration over a face, and area *)
(** A loop from begin to end while != meets the half-edges of the face, each once, in order. *)
Theorem C91_iteration : forall (X : Type) (h : heap X) f l, face_loop h f l -> iter_edges h f = Ok l.
Proof. exact @iteration_prop. Qed.
Print Assumptions C91_iteration.
(** "a == b is the negation of a != b" fails for the two ends of every face, and so
    std::max_element on a face always returns its first half-edge, whatever the comparison. *)
Theorem C91_iterators_refuted : forall (X : Type) (h : heap X) f l, face_loop h f l ->
  exists b e, face_begin h f = Ok b /\ face_end h f = Ok e /\ fi_eq b e = true /\ fi_ne b e = true.
Proof. exact @iterators_prop. Qed.
Print Assumptions C91_iterators_refuted.
Theorem C91_max_element_refuted : forall (X : Type) (h : heap X) f e l less, face_loop h f (e :: l) -> max_edge h less f = Ok e.
Proof. exact @max_edge_prop. Qed.
Print Assumptions C91_max_element_refuted.
(** The area is that of the triangles together, in whatever order and grouping the reduction
    combines the initial value and the faces. *)
Theorem C91_area : forall eps (h : plane) fs s x, tri_mesh h fs -> Permutation (leaves s) (TNum x :: map TFace fs) ->
  exists a, @mesh_area R (NumR eps) h s = Ok (x + a)%R /\ total_area h fs a.
Proof. exact area_prop. Qed.
Print Assumptions C91_area.

(** ** C92: quality measures *)
(** MaxEdgeSize gives the largest square of the length of an inner edge, and its middle. *)
Theorem C92_max_edge_size : forall eps (h : plane) fs f l, tri_mesh h fs -> In f fs -> face_loop h f l ->
  exists v p, @MaxEdgeSize R (NumR eps) h f = Ok (v, p) /\
  (forall e A B, In e l -> inner_edge h e A B -> (sq_dist A B <= v)%R) /\
  ((exists e A B, In e l /\ inner_edge h e A B /\ v = sq_dist A B /\ p = middle_of A B) \/
   ((forall e A B, In e l -> ~ inner_edge h e A B) /\ v = 0%R /\ p = (0, 0)%R)).
Proof. exact size_prop. Qed.
Print Assumptions C92_max_edge_size.
(** DistanceMeshSurface2 gives the largest relative excess of an inner edge, and its middle if
    that excess is not 0. *)
Theorem C92_distance : forall eps (X : Type) (d : X -> X -> R) (S : R * R -> X) (h : plane) fs f l,
  distance_like d -> tri_mesh h fs -> In f fs -> face_loop h f l ->
  (forall e A B, In e l -> inner_edge h e A B -> d (S A) (S B) <> 0%R) ->
  exists v p, @DistanceMeshSurface2 R (NumR eps) (fun a b => Ok (d (S a) (S b))) h f = Ok (v, p) /\
  (forall e A B, In e l -> inner_edge h e A B -> (excess d S A B <= v)%R) /\
  ((exists e A B, In e l /\ inner_edge h e A B /\ v = excess d S A B /\ p = middle_of A B /\ (0 < v)%R) \/
   ((forall e A B, In e l -> inner_edge h e A B -> excess d S A B = 0%R) /\ v = 0%R /\ p = (0, 0)%R)).
Proof. exact @distance_prop. Qed.
Print Assumptions C92_distance.
(** "The point to insert lies in the triangulation" fails where the surface is flat. *)
Theorem C92_flat_refuted : forall eps, exists (X : Type) (d : X -> X -> R) (S : R * R -> X) (h : plane) fs f,
  distance_like d /\ (forall a b, a <> b -> d (S a) (S b) <> 0%R) /\ tri_mesh h fs /\ In f fs /\
  @DistanceMeshSurface2 R (NumR eps) (fun a b => Ok (d (S a) (S b))) h f = Ok (0, (0, 0))%R /\ ~ covered h fs (0, 0)%R.
Proof. exact flat_prop. Qed.
Print Assumptions C92_flat_refuted.
(** "TriangleShapeEdgeSplit inserts the middle of the longest inner edge" fails even if the
    face has a single inner edge. *)
Theorem C92_split_point_refuted : forall eps, exists (h : plane) fs f l e A B p,
  tri_mesh h fs /\ In f fs /\ face_loop h f l /\ In e l /\ inner_edge h e A B /\
  (forall e' A' B', In e' l -> inner_edge h e' A' B' -> e' = e) /\
  @split_point R (NumR eps) h f = Ok p /\ p <> middle_of A B.
Proof. exact split_point_prop. Qed.
Print Assumptions C92_split_point_refuted.

(** ** The hypotheses are met *)
Example C90_nonvacuous : tri_mesh square [0; 1] /\ [0; 1] <> [].
Proof. exact (conj (proj1 square_tri) (fun E => eq_ind [0; 1] (fun l => match l with [] => False | _ => True end) I [] E)). Qed.
Example C90_nonvacuous_distance : distance_like taxicab /\ forall a b, a <> b -> taxicab a b <> 0%R.
Proof. exact (conj taxicab_distance taxicab_apart). Qed.
Example C91_nonvacuous : face_loop square 0 [0; 1; 2] /\ face_loop square 1 [4; 3; 5] /\ total_area square [0; 1] 1%R.
Proof. exact (conj (proj1 square_loop) (conj (proj2 square_loop) square_area)). Qed.
(** The sequential order, and one that adds the two faces first *)
Example C91_nonvacuous_schedules : Permutation (leaves (@in_order R (NumR 1%R) [0; 1])) (TNum 0%R :: map TFace [0; 1]) /\
  Permutation (leaves (Both (Both (Leaf (TFace 1)) (Leaf (TFace 0))) (Leaf (TNum 0%R)))) (TNum 0%R :: map TFace [0; 1]).
Proof.
  split; [apply Permutation_refl|]. apply (Permutation_trans (perm_skip (TFace 1) (perm_swap (TNum 0%R) (TFace 0) []))).
  apply (Permutation_trans (perm_swap _ _ _)). apply perm_skip. apply perm_swap.
Qed.
Example C92_nonvacuous : inner_edge square 1 (1, 0)%R (0, 1)%R /\ ~ inner_edge square 0 (0, 0)%R (1, 0)%R.
Proof. exact square_inner. Qed.
