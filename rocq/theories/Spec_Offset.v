(** Vocabulary for offset curves and surfaces (C87). *)
From Coq Require Import List Arith Reals.
From Verif Require Import Model_Base Model_Wrap Spec_Base Spec_Build Spec_Analysis.
Import ListNotations.
Local Open Scope R_scope.

(** f gives at the order d the value of F d, up to the order m, over the open interval (a, b),
    where every F (d+1) is the derivative of F d. *)
Definition smooth_scalar (f : R -> nat -> result R) (F : nat -> R -> R) (m : nat) (a b : R) : Prop :=
  forall x d, a < x < b -> (d <= m)%nat -> f x d = Ok (F d x) /\ ((d < m)%nat -> derivable_pt_lim (F d) x (F (S d) x)).
Definition smooth_curve (dim : nat) (f : R -> nat -> result (pt R)) (F : nat -> R -> pt R) (m : nat) (a b : R) : Prop :=
  forall x d, a < x < b -> (d <= m)%nat ->
    f x d = Ok (F d x) /\ ((d < m)%nat -> forall i, (i < dim)%nat -> derivable_pt_lim (fun x => F d x i) x (F (S d) x i)).

(** The unit circle in space and its derivatives. *)
Definition circle3 : gcurve R :=
  mkg 0 (2 * PI) (fun u d => Ok (match d with
    | 0%nat => point3 (cos u) (sin u) 0 | 1%nat => point3 (- sin u) (cos u) 0 | 2%nat => point3 (- cos u) (- sin u) 0
    | _ => point3 (sin u) (- cos u) 0 end)).
Definition constant (o : R) : R -> nat -> result R := fun _ d => Ok (match d with 0%nat => o | _ => 0 end).
