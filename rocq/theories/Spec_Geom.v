(** Specification vocabulary for plane geometry over the reals: nothing here uses the model. *)
From Coq Require Import Reals List.
Import ListNotations.
Local Open Scope R_scope.

(** Twice the signed area of the triangle a, b, c; positive when they turn counter-clockwise. *)
Definition area2 (a b c : R * R) : R :=
  (fst b - fst a) * (snd c - snd a) - (snd b - snd a) * (fst c - fst a).
Definition ccw (a b c : R * R) : Prop := 0 < area2 a b c.
Definition flat (a b c : R * R) : Prop := area2 a b c = 0.

(** The combination of three points with the given weights. *)
Definition mix (a b c : R * R) (r s t : R) : R * R :=
  (r * fst a + s * fst b + t * fst c, r * snd a + s * snd b + t * snd c).
(** The point is in the open, in the closed triangle. *)
Definition in_open (a b c q : R * R) : Prop :=
  exists r s t, 0 < r /\ 0 < s /\ 0 < t /\ r + s + t = 1 /\ q = mix a b c r s t.
Definition in_closed (a b c q : R * R) : Prop :=
  exists r s t, 0 <= r /\ 0 <= s /\ 0 <= t /\ r + s + t = 1 /\ q = mix a b c r s t.
(** The point at parameter [t] of the segment from [a] to [b]; the points of the segment,
    those strictly between its ends. *)
Definition along (a b : R * R) (t : R) : R * R :=
  (fst a + t * (fst b - fst a), snd a + t * (snd b - snd a)).
Definition on_seg (a b q : R * R) : Prop := exists t, 0 <= t <= 1 /\ q = along a b t.
Definition between (a b q : R * R) : Prop := exists t, 0 < t < 1 /\ q = along a b t.

Definition dist2 (a b : R * R) : R :=
  (fst a - fst b) * (fst a - fst b) + (snd a - snd b) * (snd a - snd b).
(** [o] and [r2] are the centre and the squared radius of a circle through the points. *)
Definition circle_through (o : R * R) (r2 : R) (l : list (R * R)) : Prop :=
  forall p, In p l -> dist2 p o = r2.
(** The point is near the segment: its distance to some point of it, times the larger
    extent of the segment, is at most the tolerance. *)
Definition near_seg (a b : R * R) (tol : R) (p : R * R) : Prop :=
  exists t, 0 <= t <= 1 /\ Rmax (Rabs (fst b - fst a)) (Rabs (snd b - snd a)) *
    (Rabs (fst p - fst (along a b t)) + Rabs (snd p - snd (along a b t))) <= tol.
