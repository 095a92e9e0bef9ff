(** C49, C68, C69, C71: inserting points in triangulations of the plane. *)
From Coq Require Import List Arith Reals Permutation.
From Verif Require Import Model_Base Model_Mesh Model_Geom Model_Tess Spec_Mesh Spec_MeshEdit Spec_Geom Spec_Tess
  Proof_PropTess Proof_PropTess2 Proof_PropTess3 Proof_Tess7.
Import ListNotations.
Local Open Scope nat_scope.

(** C49: inserting any point in a valid mesh of counter-clockwise triangles succeeds and
    leaves one: with the same area, covering exactly the same points of the plane, without
    overlap if there was none.  Either nothing changes, or the triangles deleted are replaced
    by new ones that all have the point as a corner, the others keeping their corners. *)
Theorem C49_insertion : forall eps (h : plane) fs xy, tri_mesh h fs ->
  exists h' fs' r, @boyerWatson R (NumR eps) h fs xy = Ok (h', fs', r) /\
    tri_mesh h' fs' /\ (no_overlap h fs -> no_overlap h' fs') /\
    (forall q, covered h' fs' q <-> covered h fs q) /\
    (forall s, total_area h fs s <-> total_area h' fs' s) /\
    (forall q, on_border h' fs' q -> on_border h fs q) /\
    (forall q, corner_of h' fs' q -> q = xy \/ corner_of h fs q) /\
    match r with
    | None => h' = h /\ fs' = fs
    | Some (v, del, cre) => cre <> [] /\ coords_are h' v xy /\ fs' = without del fs ++ cre /\
        (forall f, In f del -> In f fs) /\
        (forall f A B D, In f (without del fs) -> (corners h' f A B D <-> corners h f A B D)) /\
        (forall f, In f cre -> ~ In f fs /\ exists A B, corners h' f A xy B) /\ v = length (h_v h)
    end.
Proof. exact insertion_prop. Qed.
Print Assumptions C49_insertion.
(** The point becomes a corner if it is in a triangle, is no corner yet and is not on a
    half-edge without opposite. *)
Theorem C49_inserted : forall eps (h : plane) fs xy, tri_mesh h fs ->
  covered h fs xy -> ~ corner_of h fs xy -> ~ on_border h fs xy ->
  exists h' fs' v del cre, @boyerWatson R (NumR eps) h fs xy = Ok (h', fs', Some (v, del, cre)) /\ corner_of h' fs' xy.
Proof. exact insertion_progress. Qed.
Print Assumptions C49_inserted.
Example C49_nonvacuous : tri_mesh square [0; 1] /\ no_overlap square [0; 1] /\ covered square [0; 1] (1/2, 1/4)%R /\
  ~ corner_of square [0; 1] (1/2, 1/4)%R /\ ~ on_border square [0; 1] (1/2, 1/4)%R.
Proof. destruct square_tri. split; auto. split; auto. exact square_inside. Qed.

(** C68: on a valid mesh of counter-clockwise triangles recoverEdge changes nothing, and what
    it returns is a half-edge that already joined the two vertices. *)
Theorem C68_mesh_unchanged : forall eps (h : plane) fs n p q tol h' r, tri_mesh h fs -> vertices_ok h fs -> (0 <= tol)%R ->
  (exists e, live h fs e /\ ends h e p) -> (exists e, live h fs e /\ ends h e q) ->
  @recoverEdge R (NumR eps) n h (Some p) (Some q) tol = Ok (h', r) ->
  h' = h /\ forall e, r = Some e -> live h fs e /\ starts h e p /\ ends h e q.
Proof. exact recover_prop. Qed.
Print Assumptions C68_mesh_unchanged.
(** So the edge between two opposite corners of a convex quadrilateral is not recovered,
    although the segment crosses only its diagonal and one flip would do. *)
Theorem C68_recovery_refuted : exists (h : plane) fs p q a b c A B D D', tri_mesh h fs /\ no_overlap h fs /\ vertices_ok h fs /\
  fs = [a; b] /\ corners h a A B D /\ corners h b B A D' /\ coords_are h p D /\ coords_are h q D' /\
  (exists e, live h fs e /\ ends h e p) /\ (exists e, live h fs e /\ ends h e q) /\
  between A B c /\ between D D' c /\
  forall eps n tol h' r, (0 <= tol)%R -> @recoverEdge R (NumR eps) n h (Some p) (Some q) tol = Ok (h', r) -> h' = h /\ r = None.
Proof. exact recover_refuted. Qed.
Print Assumptions C68_recovery_refuted.
Example C68_nonvacuous : tri_mesh square [0; 1] /\ vertices_ok square [0; 1] /\ forall v, v < 4 -> exists e, live square [0; 1] e /\ ends square e v.
Proof. destruct square_tri. split; auto. split; [exact square_vertices|]. exact square_ends. Qed.

(** C69: whatever the order in which the addresses of the vertices sort, triangulating points
    that are neither all on one vertical nor all on one horizontal line gives a valid mesh of
    counter-clockwise triangles without overlap, whose corners are all points given; and no
    point given is strictly inside the circle through the corners of a triangle. *)
Theorem C69_triangulation : forall eps (by_address : list nat -> list nat) (coords : list (R * R)),
  (forall l, Permutation l (by_address l)) ->
  (exists p q, In p coords /\ In q coords /\ (fst p < fst q)%R) -> (exists p q, In p coords /\ In q coords /\ (snd p < snd q)%R) ->
  exists h fs, @delaunay2DBoyerWatson R (NumR eps) by_address coords = Ok (h, fs) /\ tri_mesh h fs /\ no_overlap h fs /\
    (forall q, corner_of h fs q -> In q coords) /\ empty_circles h fs coords.
Proof. exact delaunay_full. Qed.
Print Assumptions C69_triangulation.
Example C69_nonvacuous : let coords := [(0, 0); (1, 0); (0, 1)]%R in
  (exists p q, In p coords /\ In q coords /\ (fst p < fst q)%R) /\ (exists p q, In p coords /\ In q coords /\ (snd p < snd q)%R).
Proof.
  split; [exists (0, 0)%R, (1, 0)%R|exists (0, 0)%R, (0, 1)%R]; (split; [cbn; auto|split; [cbn; auto|apply Rlt_0_1]]).
Qed.

(** C71: a triangle of given points belongs to the triangulation as soon as its circle leaves
    strictly outside all the other given points and the four corners of the frame; and no
    corner of the frame is strictly inside the circle of a triangle of the triangulation.
    What is missing: the triangles do not always cover the convex hull of the points, see the
    next theorem. *)
Theorem C71_which_triangles_partial : forall eps (by_address : list nat -> list nat) (coords : list (R * R)) h fs,
  (forall l, Permutation l (by_address l)) ->
  (exists p q, In p coords /\ In q coords /\ (fst p < fst q)%R) -> (exists p q, In p coords /\ In q coords /\ (snd p < snd q)%R) ->
  @delaunay2DBoyerWatson R (NumR eps) by_address coords = Ok (h, fs) ->
  (forall f A B D o r2 c, In f fs -> corners h f A B D -> circle_through o r2 [A; B; D] -> frame_corner coords c -> (r2 <= dist2 c o)%R) /\
  forall A B D o r2, In A coords -> In B coords -> In D coords -> ccw A B D -> circle_through o r2 [A; B; D] ->
    (forall q, In q coords -> (dist2 q o <= r2)%R -> In q [A; B; D]) -> (forall c, frame_corner coords c -> (r2 < dist2 c o)%R) ->
    exists f, In f fs /\ (corners h f A B D \/ corners h f B D A \/ corners h f D A B).
Proof. exact delaunay_which. Qed.
Print Assumptions C71_which_triangles_partial.
Example C71_nonvacuous : (exists p q, In p tri3 /\ In q tri3 /\ (fst p < fst q)%R) /\ (exists p q, In p tri3 /\ In q tri3 /\ (snd p < snd q)%R) /\
  ccw (0, 0)%R (2, 0)%R (1, 2)%R /\ circle_through (1, 3/4)%R (25/16)%R [(0, 0); (2, 0); (1, 2)]%R /\
  (forall q, In q tri3 -> (dist2 q (1, 3/4) <= 25/16)%R -> In q [(0, 0); (2, 0); (1, 2)]%R) /\ (forall c, frame_corner tri3 c -> (25/16 < dist2 c (1, 3/4))%R).
Proof. exact tri3_hyps. Qed.

(** C71 refuted in full: for some points the triangulation, whatever the order of the addresses,
    leaves a point of their convex hull uncovered. *)
Theorem C71_covers_hull_refuted : exists coords q,
  (exists p q, In p coords /\ In q coords /\ (fst p < fst q)%R) /\ (exists p q, In p coords /\ In q coords /\ (snd p < snd q)%R) /\
  in_hull coords q /\
  forall eps by_address h fs, (forall l, Permutation l (by_address l)) ->
    @delaunay2DBoyerWatson R (NumR eps) by_address coords = Ok (h, fs) -> ~ covered h fs q.
Proof. exact hull_refuted. Qed.
Print Assumptions C71_covers_hull_refuted.
