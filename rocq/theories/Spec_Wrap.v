(** Vocabulary for the statements about curves given by their value function. *)
From Coq Require Import List ZArith Reals.
From Verif Require Import Model_Base Model_Wrap.
Import ListNotations.
Local Open Scope R_scope.

(** On [a,b] the curve returns, for every order d <= D, the point whose i-th coordinate is
    f d i u, and inside (a,b) f (d+1) i is the derivative of f d i. *)
Definition represents (g : gcurve R) (f : nat -> nat -> R -> R) (a b : R) (D : nat) : Prop :=
  (forall u d, a <= u <= b -> (d <= D)%nat ->
     exists q, g_value g u d = Ok q /\ forall i, q i = f d i u) /\
  (forall u d i, a < u < b -> (d < D)%nat -> derivable_pt_lim (f d i) u (f (S d) i u)).

(** F(u,v) has the partial derivatives Fu and Fv at (u,v), in the strong sense (total
    differential). *)
Definition differential (F : R -> R -> R) (u v Fu Fv : R) : Prop :=
  forall e, 0 < e -> exists d, 0 < d /\ forall h k, Rabs h < d -> Rabs k < d ->
    Rabs (F (u + h) (v + k) - F u v - Fu * h - Fv * k) <= e * (Rabs h + Rabs k).

(** The surface returns the point with coordinates F du dv i (u,v) and these are partial
    derivatives of one another, up to total order D, at every point. *)
Definition surface_represents (s : gsurf R) (F : nat -> nat -> nat -> R -> R -> R) (D : nat) : Prop :=
  (forall u v du dv, (du + dv <= D)%nat ->
     exists q, s u v du dv = Ok q /\ forall i, q i = F du dv i u v) /\
  (forall u v du dv i, (du + dv < D)%nat ->
     differential (F du dv i) u v (F (S du) dv i u v) (F du (S dv) i u v)).

(** Start of the i-th piece of a composite curve: the lengths of the parameter ranges add
    up, beginning at the start of the first curve. *)
Fixpoint offset (l : list (gcurve R)) (start : R) (i : nat) : R :=
  match i, l with
  | O, _ => start
  | S j, g :: t => offset t (start + (g_hi g - g_lo g)) j
  | S _, [] => start
  end.
Definition piece_start (l : list (gcurve R)) (i : nat) : R :=
  match l with [] => 0 | g :: _ => offset l (g_lo g) i end.

(** What is used of fmod(v, 2 pi): it removes full turns. *)
Definition is_fmod (fmod2pi : R -> R) : Prop := forall v, exists k : Z, fmod2pi v = v - IZR k * (2 * PI).
