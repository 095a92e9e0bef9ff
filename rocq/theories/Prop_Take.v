(** C99: the faces taken on one side of a boundary, and the tests of orientation. *)
From Coq Require Import Reals List Arith.
From Verif Require Import Model_Base Model_Mesh Model_Geom Model_Tess Model_Take Spec_Base Spec_Mesh Spec_MeshEdit Spec_Geom Spec_Tess Spec_Take Proof_Take2.
Import ListNotations.
Local Open Scope R_scope.

(** Given the boundary of a set of triangles of a mesh without overlap, takeInternalFaces takes
    exactly the triangles of the set out of the mesh ... *)
Theorem C99_internal : forall eps (h : plane) fs K es tol, tri_mesh h fs -> no_overlap h fs ->
  incl K fs -> NoDup K -> NoDup es -> (forall e, In e es <-> on_boundary_of h K e) -> 0 <= tol -> centres_clear h fs es tol ->
  exists h' kept taken, @takeInternalFaces R (NumR eps) h fs es tol = Ok (h', kept, taken) /\
    taken_out h fs (fun f => In f K) h' kept taken.
Proof. exact internal_ok. Qed.
Print Assumptions C99_internal.
(** ... and takeExternalFaces exactly the others. *)
Theorem C99_external : forall eps (h : plane) fs K es tol, tri_mesh h fs -> no_overlap h fs ->
  incl K fs -> NoDup K -> NoDup es -> (forall e, In e es <-> on_boundary_of h K e) -> 0 <= tol -> centres_clear h fs es tol ->
  exists h' kept taken, @takeExternalFaces R (NumR eps) h fs es tol = Ok (h', kept, taken) /\
    taken_out h fs (fun f => ~ In f K) h' kept taken.
Proof. exact external_ok. Qed.
Print Assumptions C99_external.
(** are_edges_2d_ccw tells whether the signed area enclosed by the closed line is positive. *)
Theorem C99_edges_ccw : forall eps (h : plane) es ps, go_along h es ps ->
  exists b, @are_edges_2d_ccw R (NumR eps) h es = Ok b /\ (b = true <-> 0 < enclosed2 ps).
Proof. exact edges_ccw_ok. Qed.
Print Assumptions C99_edges_ccw.
(** are_face_ccw accepts the triangles that are counter-clockwise or flat ... *)
Theorem C99_face_ccw : forall eps (h : plane) fs, (forall f, In f fs -> exists A B D, corners h f A B D) ->
  exists b, @are_face_ccw R (NumR eps) h fs = Ok b /\
    (b = true <-> forall f A B D, In f fs -> corners h f A B D -> ccw A B D \/ flat A B D).
Proof. exact face_ccw_ok. Qed.
Print Assumptions C99_face_ccw.
(** ... so that the answer true does not mean that all the faces are counter-clockwise. *)
Theorem C99_face_ccw_refuted : exists (h : plane) f A B D, corners h f A B D /\ ~ ccw A B D /\
  forall eps, @are_face_ccw R (NumR eps) h [f] = Ok true.
Proof. exact flat_face. Qed.
Print Assumptions C99_face_ccw_refuted.
(** A square of two triangles and the boundary of one of them. *)
Example C99_nonvacuous : exists (h : plane) fs K es tol, tri_mesh h fs /\ no_overlap h fs /\ incl K fs /\ NoDup K /\ NoDup es /\
  (forall e, In e es <-> on_boundary_of h K e) /\ 0 <= tol /\ centres_clear h fs es tol /\ length fs = 2%nat /\ length K = 1%nat /\
  exists e o, opp_is h e (Some o) /\ live h K e /\ ~ live h K o.
Proof. exact take_case. Qed.
Example C99_line_nonvacuous : exists (h : plane) es ps, go_along h es ps /\ 0 < enclosed2 ps /\ length es = 3%nat.
Proof. exact ccw_case. Qed.
