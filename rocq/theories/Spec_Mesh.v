(** Specification vocabulary for half-edge meshes.  A mesh is a heap of objects together
    with the list of its faces.  Nothing here uses the functions of the model: only the
    records it stores. *)
From Coq Require Import List Arith.
From Verif Require Import Model_Base Model_Mesh.
Import ListNotations.
Local Open Scope nat_scope.

Section Mesh.
Context {C : Type}.
Implicit Types (h : heap C) (fs l : list nat) (f e o v : nat).

(** [e] is an allocated half-edge with contents [r]. *)
Definition is_edge h e (r : hedge) : Prop := nth_error (h_e h) e = Some r.
(** [e] ends at / starts at vertex [v]; has the given opposite, next, previous, face. *)
Definition ends h e v : Prop := exists r, is_edge h e r /\ he_vertex r = Some v /\ v < length (h_v h).
Definition starts h e v : Prop := exists r p, is_edge h e r /\ he_prev r = Some p /\ ends h p v.
Definition opp_is h e (o : ptr) : Prop := exists r, is_edge h e r /\ he_opp r = o.
Definition face_is h e (f : ptr) : Prop := exists r, is_edge h e r /\ he_face r = f.
Definition next_is h e (x : ptr) : Prop := exists r, is_edge h e r /\ he_next r = x.
Definition prev_is h e (x : ptr) : Prop := exists r, is_edge h e r /\ he_prev r = x.
(** the coordinates of a vertex and its reference to a half-edge *)
Definition coords_are h v (c : C) : Prop := exists r, nth_error (h_v h) v = Some r /\ hv_coords r = c.
Definition vedge_is h v (e : ptr) : Prop := exists r, nth_error (h_v h) v = Some r /\ hv_edge r = e.

(** The half-edges of face [f] are, in order, those of [l], and they form one closed cycle:
    the face refers to the first; each refers to the face, to its successor, to its
    predecessor and to an existing vertex. *)
Definition face_loop h f l : Prop :=
  2 <= length l /\ NoDup l /\ nth_error (h_f h) f = Some (hd_error l) /\
  forall i e, nth_error l i = Some e ->
    face_is h e (Some f) /\
    next_is h e (nth_error l ((i + 1) mod length l)) /\
    prev_is h e (nth_error l ((i + length l - 1) mod length l)) /\
    exists v, ends h e v.

(** [e] belongs to a face of the mesh. *)
Definition live h fs e : Prop := exists f l, In f fs /\ face_loop h f l /\ In e l.

(** The half-edge invariants: the faces are different and each is a closed cycle; the
    opposite of a half-edge of the mesh is another one of the mesh, has it as opposite, and
    has its end points reversed. *)
Definition mesh_ok h fs : Prop :=
  NoDup fs /\
  (forall f, In f fs -> exists l, face_loop h f l) /\
  (forall e o, live h fs e -> opp_is h e (Some o) ->
     live h fs o /\ o <> e /\ opp_is h o (Some e) /\
     exists a b, starts h e a /\ ends h e b /\ starts h o b /\ ends h o a).

(** Every vertex of the mesh refers to a half-edge of the mesh that ends at it. *)
Definition vertices_ok h fs : Prop :=
  forall e v, live h fs e -> ends h e v ->
    exists e', vedge_is h v (Some e') /\ live h fs e' /\ ends h e' v.

(** A triangle with the given half-edges and corners: [e1] goes from [c] to [a], [e2] from
    [a] to [b], [e3] from [b] to [c]. *)
Definition triangle h f e1 e2 e3 a b c : Prop :=
  face_loop h f [e1; e2; e3] /\ ends h e1 a /\ ends h e2 b /\ ends h e3 c.

(** Consecutive half-edges of the list meet: each starts where the one before ends ... *)
Definition chained h l : Prop :=
  forall i e e', nth_error l i = Some e -> nth_error l (S i) = Some e' ->
    exists v, ends h e v /\ starts h e' v.
(** ... and the first starts where the last ends. *)
Definition closed_chain h l : Prop :=
  chained h l /\
  exists e e' v, hd_error l = Some e /\ last l e = e' /\ ends h e' v /\ starts h e v.
End Mesh.
