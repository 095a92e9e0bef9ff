(** Vocabulary of the statements about surface knots and Gordon surfaces. *)
From Coq Require Import List Arith Reals.
From Verif Require Import Model_Base Model_Knots Model_Curve Model_Surface Model_Gordon Spec_Base Spec_Basis Spec_Knots
  Spec_Surface Spec_Elevate Spec_Unify.
Import ListNotations.
Local Open Scope R_scope.

(** The parts of the data of a surface. *)
Definition rows_in (s : @sinfo R) : list (list (pt R)) := let '(g, _, _, _, _) := s in g.
Definition u_knots (s : @sinfo R) : list R := let '(_, ku, _, _, _) := s in ku.
Definition v_knots (s : @sinfo R) : list R := let '(_, _, kv, _, _) := s in kv.
Definition u_degree (s : @sinfo R) : nat := let '(_, _, _, p, _) := s in p.
Definition v_degree (s : @sinfo R) : nat := let '(_, _, _, _, q) := s in q.

(** Degrees p and q, clamped knots in both directions with a matching grid of poles. *)
Definition clamped_sinfo (eps : R) (p q : nat) (s : @sinfo R) : Prop :=
  u_degree s = p /\ v_degree s = q /\
  exists U M V N, clamped_knots eps p U M /\ u_knots s = repeat_each U M /\
    clamped_knots eps q V N /\ v_knots s = repeat_each V N /\
    rectangular (rows_in s) (poles_for q N) (poles_for p M).

(** The knots of each direction, seen as those of a curve. *)
Definition u_info (s : @sinfo R) : @Model_Unify.info R := ([], u_knots s, u_degree s).
Definition v_info (s : @sinfo R) : @Model_Unify.info R := ([], v_knots s, v_degree s).

(** Evaluating s' at (x', y'), derivatives scaled by a^du b^dv, gives s at (x, y). *)
Definition same_surface_value (eps : R) (s : @sinfo R) (x y : R) (s' : @sinfo R) (x' y' a b : R) (du dv : nat) : Prop :=
  exists z z',
    @surf_eval R (NumR eps) x y (u_knots s) (v_knots s) (concat (rows_in s)) (u_degree s) (v_degree s) du dv = Ok z /\
    @surf_eval R (NumR eps) x' y' (u_knots s') (v_knots s') (concat (rows_in s')) (u_degree s') (v_degree s') du dv = Ok z' /\
    forall c, a ^ du * b ^ dv * z' c = z c.

(** Curves of degree at most 12 (not all constant), with clamped knots, on the interval [a, b]. *)
Definition family (eps : R) (cs : list (curve R)) (a b : R) : Prop :=
  (2 <= length cs)%nat /\ (1 <= list_max (map c_deg cs))%nat /\
  forall c, In c cs -> clamped_object eps c /\ (c_deg c <= 12)%nat /\ c_lo c = a /\ c_hi c = b.
(** Increasing parameters from a to b, one per curve. *)
Definition crossing_params (ps : list R) (n : nat) (a b : R) : Prop :=
  length ps = n /\ strictly_increasing ps /\ kn ps 0 = a /\ kn ps (n - 1) = b.
(** What the search of closest points answers on the curve [c] for each of the others. *)
Definition found (extrema : @extrema_t R) (tol : R) (c : curve R) (cs : list (curve R)) (ps : list R) : Prop :=
  Forall2 (fun c' x => exists y d, extrema c c' = Ok (x, y, d) /\ d <= tol) cs ps.
(** Numbers that are equal or more than eps apart. *)
Definition far_apart (eps : R) (l : list R) : Prop :=
  forall x y, In x l -> In y l -> x = y \/ eps < Rabs (x - y).
(** The curves cu at x and cv at y are at the same point. *)
Definition meet (eps : R) (dim : nat) (cu : curve R) (x : R) (cv : curve R) (y : R) : Prop :=
  exists a b, @value R (NumR eps) cu x 0 = Ok a /\ @value R (NumR eps) cv y 0 = Ok b /\ forall c, (c < dim)%nat -> a c = b c.
