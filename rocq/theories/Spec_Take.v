(** Specification vocabulary for the removal of faces on one side of a boundary and for the
    orientation of a closed line.  Nothing here uses the functions of the model. *)
From Coq Require Import Reals List Arith.
From Verif Require Import Model_Base Model_Mesh Spec_Mesh Spec_MeshEdit Spec_Geom Spec_Tess.
Import ListNotations.
Local Open Scope R_scope.

(** The faces of [fs] with the property have been taken out of the mesh; the others stay, in
    their order, where they were, and the half-edges between a face that stays and one taken have no
    opposite any more. *)
Definition taken_out (h : plane) (fs : list nat) (Q : nat -> Prop) (h' : plane) (kept taken : list nat) : Prop :=
  (forall f, In f kept <-> In f fs /\ ~ Q f) /\ (forall f, In f taken <-> In f fs /\ Q f) /\ NoDup taken /\
  tri_mesh h' kept /\ no_overlap h' kept /\
  (forall f A B D, corners h f A B D <-> corners h' f A B D) /\
  (forall e, links_kept h h' e) /\ h_v h' = h_v h /\ h_f h' = h_f h /\
  (forall e o, live h' kept e ->
     (opp_is h' e (Some o) <-> opp_is h e (Some o) /\ exists f, In f kept /\ face_is h o (Some f))).
(** The centre of no triangle is within the tolerance of a side of the boundary. *)
Definition centres_clear (h : plane) (fs es : list nat) (tol : R) : Prop :=
  forall f A B D e P Q, In f fs -> corners h f A B D -> In e es -> from_to h e P Q ->
    ~ near_seg P Q tol ((fst A + fst B + fst D) / 3, (snd A + snd B + snd D) / 3).

(** The sides of a closed line, and twice the signed area it encloses. *)
Definition sides_of (ps : list (R * R)) : list ((R * R) * (R * R)) :=
  match ps with [] => [] | p :: t => combine ps (t ++ [p]) end.
Definition enclosed2 (ps : list (R * R)) : R :=
  fold_right (fun s r => fst (fst s) * snd (snd s) - fst (snd s) * snd (fst s) + r) 0 (sides_of ps).
(** The half-edges go, in order, along the sides of the closed line. *)
Definition go_along (h : plane) (es : list nat) (ps : list (R * R)) : Prop :=
  Forall2 (fun e s => from_to h e (fst s) (snd s)) es (sides_of ps).
