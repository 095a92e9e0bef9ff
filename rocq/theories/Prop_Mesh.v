(** Half-edge meshes: properties C45 to C48, C50 to C52, C60 and C61. *)
From Coq Require Import List Arith Permutation.
From Verif Require Import Model_Base Model_Mesh Spec_Mesh Spec_MeshEdit Proof_PropMesh Proof_PropMesh2 Proof_PropMesh3 Proof_PropMesh4.
Import ListNotations.
Local Open Scope nat_scope.

(** C45: a face made from a list of two or more half-edges is one cycle through them in the
    given order, and walking around it gives them back; nothing else changes. *)
Theorem C45_make_face : forall (C : Type) (h : heap C) es, NoDup es -> 2 <= length es -> (forall e, In e es -> exists v, ends h e v) ->
  exists h' f, make_face h es = Ok (h', Some f) /\ nth_error (h_f h) f = None /\
    face_loop h' f es /\ getFaceEdges h' f = Ok es /\
    (forall e, In e es -> (forall v, ends h e v <-> ends h' e v) /\ (forall o, opp_is h e o <-> opp_is h' e o)) /\
    (forall e, ~ In e es -> edge_kept h h' e) /\ (forall g, g <> f -> face_kept h h' g) /\ h_v h' = h_v h.
Proof. exact @make_face_prop. Qed.
Print Assumptions C45_make_face.
(** A face made from points visits vertices with these coordinates in order. *)
Theorem C45_from_points : forall (C : Type) (h : heap C) cs, 2 <= length cs ->
  exists h1 es h2 f, make_edges_at h cs = Ok (h1, es) /\ make_face h1 es = Ok (h2, Some f) /\
    face_loop h2 f es /\ length es = length cs /\
    (forall i c, nth_error cs i = Some c -> exists e v, nth_error es i = Some e /\ ends h2 e v /\ coords_are h2 v c).
Proof. exact @new_face_prop. Qed.
Print Assumptions C45_from_points.
(** Fewer than two half-edges give no face and change nothing. *)
Theorem C45_too_short : forall (C : Type) (h : heap C) es, length es < 2 -> make_face h es = Ok (h, None).
Proof. exact @Proof_Mesh2.make_face_short. Qed.
Print Assumptions C45_too_short.
(** Walking around any face lists its cycle. *)
Theorem C45_walk : forall (C : Type) (h : heap C) f l, face_loop h f l -> getFaceEdges h f = Ok l.
Proof. exact @walk_prop. Qed.
Print Assumptions C45_walk.
Example C45_nonvacuous : (forall e, In e [0; 1; 2] -> exists v, ends one_mesh e v) /\ face_loop pair_mesh 0 [0; 1; 2].
Proof. exact (conj one_ends pair_loop). Qed.

(** C46: every permitted edit of a valid mesh succeeds and leaves a valid mesh ... *)
Theorem C46_step : forall (C : Type) (h : heap C) fs a, mesh_ok h fs -> permitted h fs a ->
  exists h' fs', perform h fs a = Ok (h', fs') /\ mesh_ok h' fs'.
Proof. exact @step_prop. Qed.
Print Assumptions C46_step.
(** ... so every history of edits of the empty mesh leaves a valid mesh. *)
Theorem C46_history : forall (C : Type) (h : heap C) fs, reached h fs -> mesh_ok h fs.
Proof. exact @reached_prop. Qed.
Print Assumptions C46_history.
Example C46_nonvacuous : reached pair_mesh [0; 1] /\ reached fan_mesh [1; 2; 3].
Proof. exact (conj pair_reached fan_reached). Qed.

(** C47: flip replaces the diagonal v3-v1 of the quadrilateral v1 v2 v3 v4 by v2-v4. *)
Theorem C47_flip : forall (C : Type) (h : heap C) fs f1 f2 e1 e2 e3 o1 o2 o3 v1 v2 v3 v4, mesh_ok h fs -> In f1 fs -> In f2 fs -> f1 <> f2 ->
  tri h f1 e1 e2 e3 v1 v2 v3 -> tri h f2 o1 o2 o3 v3 v4 v1 -> opp_is h e1 (Some o1) -> NoDup [v1; v2; v3; v4] ->
  exists h', flip h f1 f2 = Ok h' /\ mesh_ok h' fs /\
    tri h' f1 e1 o3 e2 v4 v1 v2 /\ tri h' f2 o1 e3 o2 v2 v3 v4 /\ opp_is h' e1 (Some o1) /\
    (forall x p, In x [e2; e3; o2; o3] -> opp_is h x p -> opp_is h' x p) /\
    (forall x, ~ In x [e1; e2; e3; o1; o2; o3] -> edge_kept h h' x) /\
    (forall g, g <> f1 -> g <> f2 -> face_kept h h' g) /\
    coords_kept h h' /\ (vertices_ok h fs -> vertices_ok h' fs).
Proof. exact @flip_prop. Qed.
Print Assumptions C47_flip.
(** Flipping twice gives back the two triangles (the two faces have exchanged them). *)
Theorem C47_twice : forall (C : Type) (h : heap C) fs f1 f2 e1 e2 e3 o1 o2 o3 v1 v2 v3 v4, mesh_ok h fs -> In f1 fs -> In f2 fs -> f1 <> f2 ->
  tri h f1 e1 e2 e3 v1 v2 v3 -> tri h f2 o1 o2 o3 v3 v4 v1 -> opp_is h e1 (Some o1) -> NoDup [v1; v2; v3; v4] ->
  exists h1 h2, flip h f1 f2 = Ok h1 /\ flip h1 f1 f2 = Ok h2 /\ mesh_ok h2 fs /\
    tri h2 f1 e1 o2 o3 v3 v4 v1 /\ tri h2 f2 o1 e2 e3 v1 v2 v3 /\
    opp_is h2 e1 (Some o1) /\
    (forall x p, In x [e2; e3; o2; o3] -> opp_is h x p -> opp_is h2 x p) /\
    (forall x, ~ In x [e1; e2; e3; o1; o2; o3] -> edge_kept h h2 x).
Proof. exact @flip_twice. Qed.
Print Assumptions C47_twice.
(** Faces that share no edge stay as they are. *)
Theorem C47_apart : forall (C : Type) (h : heap C) fs f1 f2, mesh_ok h fs -> In f1 fs ->
  (forall e o l, face_loop h f1 l -> In e l -> opp_is h e (Some o) -> ~ face_is h o (Some f2)) -> flip h f1 f2 = Ok h.
Proof. exact @flip_none. Qed.
Print Assumptions C47_apart.
Example C47_nonvacuous : tri pair_mesh 0 2 0 1 2 0 1 /\ tri pair_mesh 1 3 5 4 1 3 2 /\ opp_is pair_mesh 2 (Some 3).
Proof. exact pair_tri. Qed.

(** C48: filling a closed chain of half-edges of removed faces with the fan of a vertex. *)
Theorem C48_add_vertex : forall (C : Type) (h : heap C) fs K es v, mesh_ok h fs -> incl K fs -> NoDup K -> NoDup es -> closed_chain h es -> v < length (h_v h) ->
  (forall e, In e es -> live h fs e /\ ~ live h K e) ->
  (forall e o, live h K e \/ In e es -> opp_is h e (Some o) -> live h K o \/ In o es) ->
  exists h' nfs, add_vertex h es v = Ok (h', nfs) /\ length nfs = length es /\
    mesh_ok h' (K ++ nfs) /\
    (forall i e f, nth_error es i = Some e -> nth_error nfs i = Some f ->
       exists x y a b, starts h e a /\ ends h e b /\ tri h' f e x y b v a /\
         (forall p, opp_is h e p -> opp_is h' e p) /\
         forall e' f', nth_error es ((i + 1) mod length es) = Some e' -> nth_error nfs ((i + 1) mod length es) = Some f' ->
           exists x' y' a' b', tri h' f' e' x' y' b' v a' /\ opp_is h' x (Some y') /\ opp_is h' y' (Some x)) /\
    (forall e r, is_edge h e r -> ~ In e es -> is_edge h' e r) /\
    (forall f, In f K -> face_kept h h' f) /\
    (forall f, In f nfs -> nth_error (h_f h) f = None) /\
    coords_kept h h'.
Proof. exact @add_vertex_prop. Qed.
Print Assumptions C48_add_vertex.
Example C48_nonvacuous : mesh_ok one_mesh [0] /\ closed_chain one_mesh [0; 1; 2] /\ NoDup [0; 1; 2] /\
  (forall e, In e [0; 1; 2] -> live one_mesh [0] e /\ ~ live one_mesh [] e) /\
  (forall e o, live one_mesh [] e \/ In e [0; 1; 2] -> opp_is one_mesh e (Some o) -> live one_mesh [] o \/ In o [0; 1; 2]).
Proof. exact one_cavity. Qed.

(** C50: remove_faces keeps exactly the faces that do not touch the vertex; the half-edges
    of the remaining faces keep their links and exactly the opposites that remain. *)
Theorem C50_remove_faces : forall (C : Type) (h : heap C) fs v, mesh_ok h fs -> v < length (h_v h) ->
  exists h' kept n, remove_faces h fs v = Ok (h', kept, n) /\ mesh_ok h' kept /\
    (forall f, In f kept <-> In f fs /\ ~ touches h f v) /\ n + length kept = length fs /\
    (forall f l, In f kept -> (face_loop h f l <-> face_loop h' f l)) /\
    (forall e, links_kept h h' e) /\ h_v h' = h_v h /\ h_f h' = h_f h /\
    (forall e, live h' kept e ->
       (forall o, opp_is h' e (Some o) <-> opp_is h e (Some o) /\ exists f, In f kept /\ face_is h o (Some f))).
Proof. exact @remove_faces_prop. Qed.
Print Assumptions C50_remove_faces.
(** eraseFace removes the face it is given. *)
Theorem C50_erase_face : forall (C : Type) (h : heap C) k1 f k2, mesh_ok h (k1 ++ f :: k2) ->
  exists h', eraseFace h (k1 ++ f :: k2) (length k1) = Ok (h', k1 ++ k2) /\ mesh_ok h' (k1 ++ k2) /\
    (forall g l, face_loop h g l <-> face_loop h' g l) /\
    (forall e, links_kept h h' e) /\ h_v h' = h_v h /\ h_f h' = h_f h /\
    (forall e, live h' (k1 ++ k2) e ->
       (forall o, opp_is h' e (Some o) <-> opp_is h e (Some o) /\ ~ face_is h o (Some f))).
Proof. exact @erase_prop. Qed.
Print Assumptions C50_erase_face.
(** repairVertexEdges makes every vertex of the mesh refer to a half-edge of the mesh that
    ends at it, and touches nothing else. *)
Theorem C50_repair : forall (C : Type) (h : heap C) fs, mesh_ok h fs ->
  exists h', repairVertexEdges h fs = Ok h' /\ mesh_ok h' fs /\ vertices_ok h' fs /\ h_e h' = h_e h /\ h_f h' = h_f h /\ coords_kept h h'.
Proof. exact @repair_prop. Qed.
Print Assumptions C50_repair.

(** C51: takeClosedLoops terminates and distributes the half-edges over chains, losing and
    duplicating none. *)
Theorem C51_loops : forall (C : Type) (h : heap C) b, (forall e, In e b -> exists v w, starts h e v /\ ends h e w) ->
  exists ls, takeClosedLoops h b = Ok ls /\ Permutation (concat ls) b /\
    forall l, In l ls -> l <> [] /\ chained h l.
Proof. exact @loops_prop. Qed.
Print Assumptions C51_loops.
(** On the boundary of any set of faces of a mesh, every chain is closed. *)
Theorem C51_closed : forall (C : Type) (h : heap C) fs K, mesh_ok h fs -> incl K fs -> NoDup K ->
  exists ls, getOrientedFacesBoundaries h K = Ok ls /\ NoDup (concat ls) /\
    (forall e, In e (concat ls) <-> on_boundary_of h K e) /\
    (forall l, In l ls -> closed_chain h l).
Proof. exact @oriented_prop. Qed.
Print Assumptions C51_closed.

(** C52: getFacesBoundary returns exactly the half-edges of the faces without a neighbour
    among the faces, each once. *)
Theorem C52_boundary : forall (C : Type) (h : heap C) fs K, mesh_ok h fs -> incl K fs -> NoDup K ->
  exists b, getFacesBoundary h K = Ok b /\ NoDup b /\ forall e, In e b <-> on_boundary_of h K e.
Proof. exact @boundary_prop. Qed.
Print Assumptions C52_boundary.
Example C52_nonvacuous : mesh_ok fan_mesh [1; 2; 3] /\ incl [3; 1] [1; 2; 3] /\ NoDup [3; 1].
Proof.
  split; [exact (reached_prop _ _ fan_reached)|]. split.
  - intros x [<-|[<-|[]]]; cbn; auto.
  - repeat constructor; cbn; intuition discriminate.
Qed.

(** C60 is false: after splitting the common edge of two triangles, two half-edges run in
    opposite directions between the same vertices without being opposites, and the new
    vertex refers to a half-edge that does not end at it. *)
Theorem C60_split_refuted : exists (h : heap nat) fs e o h' fs' v, reached h fs /\ no_slits h fs /\ vertices_ok h fs /\
  live h fs e /\ opp_is h e (Some o) /\
  splitHalfEdge (fun a b => a + b) h e fs = Ok (h', fs', v) /\ ~ no_slits h' fs' /\ ~ vertices_ok h' fs'.
Proof. exact split_refuted. Qed.
Print Assumptions C60_split_refuted.

(** C61 is false: the answer is the opposite one. *)
Theorem C61_is_boundary_refuted : exists (h : heap nat) fs v w,
  reached h fs /\
  (forall x, live h fs x -> ends h x v -> exists o, opp_is h x (Some o)) /\ is_boundary h v = Ok true /\
  (exists x, live h fs x /\ ends h x w /\ opp_is h x None) /\ is_boundary h w = Ok false.
Proof. exact boundary_refuted. Qed.
Print Assumptions C61_is_boundary_refuted.
(** In every mesh the test terminates and answers false exactly if turning around the vertex
    meets a half-edge without neighbour. *)
Theorem C61_is_boundary_inverted_partial : forall (C : Type) (h : heap C) fs v e, mesh_ok h fs -> live h fs e -> vedge_is h v (Some e) ->
  exists b, is_boundary h v = Ok b /\ (b = false <-> exists x, turns_to h e x /\ opp_is h x None).
Proof. exact @is_boundary_prop. Qed.
Print Assumptions C61_is_boundary_inverted_partial.
(** Every interior vertex is called a boundary vertex. *)
Theorem C61_interior_partial : forall (C : Type) (h : heap C) fs v e, mesh_ok h fs -> live h fs e -> vedge_is h v (Some e) -> ends h e v ->
  (forall x, live h fs x -> ends h x v -> exists o, opp_is h x (Some o)) -> is_boundary h v = Ok true.
Proof. exact @interior_prop. Qed.
Print Assumptions C61_interior_partial.
