(** Specification vocabulary for the refinement and the measures of triangulations. *)
From Coq Require Import Reals List Arith.
From Verif Require Import Model_Base Model_Mesh Model_Tess Spec_Mesh Spec_Geom Spec_Tess.
Import ListNotations.
Local Open Scope nat_scope.

(** The second mesh covers exactly the same points as the first, with the same total area, does
    not overlap if the first does not, and its border is part of that of the first. *)
Definition same_region (h : plane) fs (h' : plane) fs' : Prop :=
  (no_overlap h fs -> no_overlap h' fs') /\ (forall q, covered h' fs' q <-> covered h fs q) /\
  (forall s, total_area h fs s <-> total_area h' fs' s) /\ (forall q, on_border h' fs' q -> on_border h fs q).
(** Every corner of the second is one of the first or one of at most [n] other points. *)
Definition corners_added (n : nat) (h : plane) fs (h' : plane) fs' : Prop :=
  exists l, length l <= n /\ forall q, corner_of h' fs' q -> In q l \/ corner_of h fs q.

(** A quality measure, which gives a face a number and a point to insert: it is defined on every
    face of every valid triangulation; and the insertion of a point does not change it on the
    faces that are not deleted. *)
Definition measure := (plane -> nat -> result (R * (R * R))).
Definition defined (q : measure) : Prop := forall h fs f, tri_mesh h fs -> In f fs -> exists r, q h f = Ok r.
Definition local (eps : R) (q : measure) : Prop := forall h fs xy h' fs' r f, tri_mesh h fs ->
  @boyerWatson R (NumR eps) h fs xy = Ok (h', fs', r) -> In f fs -> In f fs' -> q h' f = q h f.
(** The face is one of those whose number is largest. *)
Definition worst (q : measure) (h : plane) fs f (crit : R) (xy : R * R) : Prop :=
  In f fs /\ q h f = Ok (crit, xy) /\ forall g crit' xy', In g fs -> q h g = Ok (crit', xy') -> (crit' <= crit)%R.

(** Refinement in at most [n] rounds.  A round inserts the point of a worst triangle; it is the
    last if the number of that triangle, before the insertion, was not above the limit. *)
Inductive rounds (eps : R) (q : measure) (limit : R) : nat -> plane -> list nat -> plane -> list nat -> Prop :=
| no_more h fs : rounds eps q limit 0 h fs h fs
| last_round n h fs f crit xy h1 fs1 r : worst q h fs f crit xy -> (crit <= limit)%R ->
    @boyerWatson R (NumR eps) h fs xy = Ok (h1, fs1, r) -> rounds eps q limit (S n) h fs h1 fs1
| next_round n h fs f crit xy h1 fs1 r h2 fs2 : worst q h fs f crit xy -> (limit < crit)%R ->
    @boyerWatson R (NumR eps) h fs xy = Ok (h1, fs1, r) -> rounds eps q limit n h1 fs1 h2 fs2 ->
    rounds eps q limit (S n) h fs h2 fs2.

(** The half-edge has an opposite and joins the points. *)
Definition inner_edge (h : plane) (e : nat) (A B : R * R) : Prop :=
  from_to h e A B /\ exists o, opp_is h e (Some o).
Definition middle_of (A B : R * R) : R * R := ((fst A + fst B) / 2, (snd A + snd B) / 2)%R.
(** The square of the distance of two points. *)
Definition sq_dist (A B : R * R) : R := ((fst B - fst A) * (fst B - fst A) + (snd B - snd A) * (snd B - snd A))%R.
(** A distance: non-negative, symmetric, with the triangle inequality. *)
Definition distance_like {X : Type} (d : X -> X -> R) : Prop :=
  (forall x y, 0 <= d x y)%R /\ (forall x y, d x y = d y x) /\ forall x y z, (d x z <= d x y + d y z)%R.
(** By how much, relatively, the way from S(A) to S(B) through the image of the middle is longer. *)
Definition excess {X : Type} (d : X -> X -> R) (S : R * R -> X) (A B : R * R) : R :=
  ((d (S A) (S (middle_of A B)) + d (S (middle_of A B)) (S B) - d (S A) (S B)) / d (S A) (S B))%R.
