(** Specification vocabulary for editing half-edge meshes: the editing operations of a user,
    the states they reach, and a few geometric words. *)
From Coq Require Import List Arith.
From Verif Require Import Model_Base Model_Mesh Spec_Mesh.
Import ListNotations.
Local Open Scope nat_scope.

Section Mesh.
Context {C : Type}.
Implicit Types (h : heap C) (fs l : list nat) (f e o v : nat).

(** The faces [f] has the half-edges [e1], [e2], [e3] in this cyclic order, going from [c]
    to [a], from [a] to [b] and from [b] to [c]. *)
Definition tri h f e1 e2 e3 a b c : Prop :=
  (face_loop h f [e1; e2; e3] \/ face_loop h f [e2; e3; e1] \/ face_loop h f [e3; e1; e2]) /\
  ends h e1 a /\ ends h e2 b /\ ends h e3 c.

(** The object keeps its contents from [h] to [h']. *)
Definition edge_kept h h' e : Prop := forall r, is_edge h e r -> is_edge h' e r.
Definition face_kept h h' f : Prop := nth_error (h_f h') f = nth_error (h_f h) f.
Definition coords_kept h h' : Prop := forall v c, coords_are h v c -> coords_are h' v c.
(** Everything but the opposite stays. *)
Definition links_kept h h' e : Prop := forall r, is_edge h e r -> exists (o : ptr),
  is_edge h' e (mkhe (he_vertex r) (he_face r) (he_next r) (he_prev r) o).

(** [f] has a half-edge that ends at [v]. *)
Definition touches h f v : Prop := exists l e, face_loop h f l /\ In e l /\ ends h e v.

(** The half-edge [e] of the faces [K] is on their boundary: it has no opposite or its
    opposite belongs to none of the faces. *)
Definition on_boundary_of h (K : list nat) e : Prop :=
  live h K e /\ forall o f, opp_is h e (Some o) -> face_is h o (Some f) -> ~ In f K.

(** Turning around the end of [e] from half-edge to half-edge. *)
Inductive turns_to h : nat -> nat -> Prop :=
| turns_here e : turns_to h e e
| turns_on e o p x : opp_is h e (Some o) -> prev_is h o (Some p) -> turns_to h p x -> turns_to h e x.

(** Any two half-edges of the mesh that run in opposite directions between two vertices are
    opposites of each other: there are no slits. *)
Definition no_slits h fs : Prop :=
  forall e o a b, live h fs e -> live h fs o -> starts h e a -> ends h e b ->
    starts h o b -> ends h o a -> opp_is h e (Some o).

(** The editing operations. *)
Inductive edit : Type :=
| NewFace (cs : list C)            (* a new face through the given points *)
| AttachFace (f e : ptr) (c : C)   (* add_face(face, edge, point) *)
| LinkEdges (a b : nat)            (* link_edges *)
| Flip (f1 f2 : nat)               (* flip *)
| InsertVertex (i : nat) (c : C)   (* replace face number i by the fan of a new vertex *)
| FillCavity (K : list nat) (c : C) (* replace the faces K by the fan of a new vertex *)
| EraseFace (i : nat)              (* eraseFace *)
| RemoveFaces (v : nat)            (* remove_faces *)
| Repair.                          (* repairVertexEdges *)

Definition without (K fs : list nat) : list nat := filter (fun f => negb (existsb (Nat.eqb f) K)) fs.

(** What a program does to perform them: it keeps the list of faces. *)
Definition perform h fs (a : edit) : result (heap C * list nat) :=
  match a with
  | NewFace cs =>
      let* (h, es) := make_edges_at h cs in
      let* (h, f) := make_face h es in
      Ok (h, match f with Some f => fs ++ [f] | None => fs end)
  | AttachFace f e c =>
      let* (h, f) := add_face h f e c in
      Ok (h, match f with Some f => fs ++ [f] | None => fs end)
  | LinkEdges a b => let* h := link_edges h a b in Ok (h, fs)
  | Flip f1 f2 => let* h := flip h f1 f2 in Ok (h, fs)
  | InsertVertex i c =>
      let (h, v) := make_vertex h c in
      let* f := get fs i in
      let* (h, nfs) := add_vertex_face h f v in
      Ok (h, (firstn i fs ++ skipn (S i) fs) ++ nfs)
  | FillCavity K c =>
      let* es := getOrientedFacesBoundary h K in
      let (h, v) := make_vertex h c in
      let* (h, nfs) := add_vertex h es v in
      Ok (h, without K fs ++ nfs)
  | EraseFace i => eraseFace h fs i
  | RemoveFaces v => let* (h, kept, n) := remove_faces h fs v in Ok (h, kept)
  | Repair => let* h := repairVertexEdges h fs in Ok (h, fs)
  end.

(** The arguments an operation accepts. *)
Definition permitted h fs (a : edit) : Prop :=
  match a with
  | NewFace cs => 2 <= length cs
  | AttachFace f e c => forall i, e = Some i -> live h fs i
  | LinkEdges a b =>
      live h fs a /\ live h fs b /\ a <> b /\ opp_is h a None /\ opp_is h b None /\
      exists x y, starts h a x /\ ends h a y /\ starts h b y /\ ends h b x
  | Flip f1 f2 =>
      In f1 fs /\ In f2 fs /\ f1 <> f2 /\
      (exists l, face_loop h f1 l /\ length l = 3) /\ (exists l, face_loop h f2 l /\ length l = 3)
  | InsertVertex i c => i < length fs
  | FillCavity K c =>
      incl K fs /\ NoDup K /\ exists es, getOrientedFacesBoundaries h K = Ok [es]
  | EraseFace i => i < length fs
  | RemoveFaces v => True
  | Repair => True
  end.

(** The meshes that editing the empty mesh reaches. *)
Inductive reached : heap C -> list nat -> Prop :=
| reached_empty : reached (mkh [] [] []) []
| reached_edit h fs a h' fs' :
    reached h fs -> permitted h fs a -> perform h fs a = Ok (h', fs') -> reached h' fs'.
End Mesh.
Arguments edit : clear implicits.
