(** Specification vocabulary for triangulations of the plane: half-edge meshes whose vertices
    carry points.  Nothing here uses the functions of the model. *)
From Coq Require Import Reals List Arith.
From Verif Require Import Model_Base Model_Mesh Spec_Mesh Spec_Geom.
Import ListNotations.
Local Open Scope nat_scope.

Notation plane := (heap (R * R)).

(** The face is a triangle with the given corners, in the order of its half-edges. *)
Definition corners (h : plane) (f : nat) (A B D : R * R) : Prop :=
  exists e1 e2 e3 a b d, triangle h f e1 e2 e3 a b d /\
    coords_are h a A /\ coords_are h b B /\ coords_are h d D.
(** A valid mesh of counter-clockwise triangles. *)
Definition tri_mesh (h : plane) (fs : list nat) : Prop :=
  mesh_ok h fs /\ forall f, In f fs -> exists A B D, corners h f A B D /\ ccw A B D.
(** The point is a corner of some triangle; it is in some closed triangle. *)
Definition corner_of (h : plane) (fs : list nat) (q : R * R) : Prop :=
  exists f A B D, In f fs /\ corners h f A B D /\ In q [A; B; D].
Definition covered (h : plane) (fs : list nat) (q : R * R) : Prop :=
  exists f A B D, In f fs /\ corners h f A B D /\ in_closed A B D q.
(** Different triangles have disjoint interiors. *)
Definition no_overlap (h : plane) (fs : list nat) : Prop :=
  forall f g A B D A' B' D' q, In f fs -> In g fs -> corners h f A B D -> corners h g A' B' D' ->
    in_open A B D q -> in_open A' B' D' q -> f = g.
(** The point is on a half-edge without opposite. *)
Definition on_border (h : plane) (fs : list nat) (q : R * R) : Prop :=
  exists e a b A B, live h fs e /\ opp_is h e None /\ starts h e a /\ ends h e b /\
    coords_are h a A /\ coords_are h b B /\ on_seg A B q.
(** [s] is the sum of the areas of the triangles. *)
Definition total_area (h : plane) (fs : list nat) (s : R) : Prop :=
  exists l, Forall2 (fun f x => exists A B D, corners h f A B D /\ x = (area2 A B D / 2)%R) fs l /\
    s = fold_right Rplus 0%R l.
(** No given point is strictly inside the circle through the corners of a triangle. *)
Definition empty_circles (h : plane) (fs : list nat) (l : list (R * R)) : Prop :=
  forall f A B D o r2 q, In f fs -> corners h f A B D -> circle_through o r2 [A; B; D] -> In q l ->
    (r2 <= dist2 q o)%R.
(** The half-edge goes from one point to the other. *)
Definition from_to (h : plane) (e : nat) (A B : R * R) : Prop :=
  exists a b, starts h e a /\ ends h e b /\ coords_are h a A /\ coords_are h b B.

(** The least and the greatest number of a list. *)
Definition least (l : list R) (m : R) : Prop := In m l /\ forall x, In x l -> (m <= x)%R.
Definition greatest (l : list R) (m : R) : Prop := In m l /\ forall x, In x l -> (x <= m)%R.
(** A corner of the frame of the points: their bounding rectangle, extended by ten percent to
    the right and above, and by eleven percent to the left and below. *)
Definition frame_corner (l : list (R * R)) (c : R * R) : Prop :=
  exists x0 x1 y0 y1, least (map fst l) x0 /\ greatest (map fst l) x1 /\
    least (map snd l) y0 /\ greatest (map snd l) y1 /\
    (fst c = x1 + 10 / 100 * (x1 - x0) \/ fst c = x0 - 11 / 100 * (x1 - x0))%R /\
    (snd c = y1 + 10 / 100 * (y1 - y0) \/ snd c = y0 - 11 / 100 * (y1 - y0))%R.
(** The point is in the convex hull of the points: in a triangle of three of them. *)
Definition in_hull (l : list (R * R)) (q : R * R) : Prop :=
  exists A B D, In A l /\ In B l /\ In D l /\ in_closed A B D q.
