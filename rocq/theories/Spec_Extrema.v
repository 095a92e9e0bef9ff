(** Vocabulary for closest points (C88): what is asked of the numerical minimiser. *)
From Coq Require Import List Arith Reals.
From Verif Require Import Model_Base Model_Wrap Model_Extrema Spec_Base Spec_Build Spec_Motion Spec_Analysis.
Import ListNotations.
Local Open Scope R_scope.

(** x is in the box from lb to hb. *)
Definition in_box (lb hb x : list R) : Prop := Forall2 Rle lb x /\ Forall2 Rle x hb.

(** What is reported is the value of the objective at the reported place, in the box. *)
Definition honest (opt : @minimiser R) : Prop := forall f g x0 lb hb tol x m,
  opt f g x0 lb hb tol = Ok (x, m) -> f x = Ok m /\ in_box lb hb x.
(** The result is at most the value at the start. *)
Definition descending (opt : @minimiser R) : Prop := forall f g x0 lb hb tol x m m0,
  opt f g x0 lb hb tol = Ok (x, m) -> f x0 = Ok m0 -> m <= m0.
(** For an objective that is never negative, the result is at most every value in the box. *)
Definition global (opt : @minimiser R) : Prop := forall f g x0 lb hb tol x m y m0,
  (forall z v, f z = Ok v -> 0 <= v) -> opt f g x0 lb hb tol = Ok (x, m) -> in_box lb hb y -> f y = Ok m0 -> m <= m0.
(** A start outside the box is refused, as NLopt does. *)
Definition strict (opt : @minimiser R) : Prop := forall f g x0 lb hb tol,
  ~ in_box lb hb x0 -> opt f g x0 lb hb tol = Throw InvalidArgument.

(** The objective NLopt is given for the residuals f: the sum of their squares. *)
Definition objective (f : list R -> result (list R)) (x : list R) (m : R) : Prop :=
  exists r, f x = Ok r /\ m = fold_right (fun a s => a ^ 2 + s) 0 r.
(** F is the objective of the residuals f, as a function of the i-th variable around x, and its
    derivative there is d. *)
Definition slope (f : list R -> result (list R)) (x : list R) (i : nat) (d : R) : Prop :=
  exists F : R -> R, (exists delta, 0 < delta /\ forall t, Rabs (t - nth i x 0) < delta ->
      objective f (firstn i x ++ t :: skipn (S i) x) (F t)) /\
    derivable_pt_lim F (nth i x 0) d.

(** It returns from every start in the box if the objective and its gradient are defined there. *)
Definition willing (opt : @minimiser R) : Prop := forall f g x0 lb hb tol, in_box lb hb x0 ->
  (forall y, in_box lb hb y -> exists m d, f y = Ok m /\ g y = Ok d) -> exists x m, opt f g x0 lb hb tol = Ok (x, m).

(** The same for the minimiser without gradients and for those of one variable. *)
Definition best_without_gradient (optN : (list R -> result R) -> list R -> list R -> list R -> R -> result (list R * R)) : Prop :=
  forall f x0 lb hb tol x m, optN f x0 lb hb tol = Ok (x, m) -> f x = Ok m /\ in_box lb hb x /\
    ((forall z v, f z = Ok v -> 0 <= v) -> forall y m0, in_box lb hb y -> f y = Ok m0 -> m <= m0).
Definition best_scalar (brent : (R -> result R) -> R -> R -> result (R * R)) : Prop := forall f lo hi u m, brent f lo hi = Ok (u, m) ->
  f u = Ok m /\ lo <= u <= hi /\ ((forall t v, f t = Ok v -> 0 <= v) -> forall t m0, lo <= t <= hi -> f t = Ok m0 -> m <= m0).
Definition finds_root (newton : (R -> result (R * R * R)) -> R -> R -> R -> result R) : Prop := forall f u0 lo hi u, newton f u0 lo hi = Ok u ->
  lo <= u <= hi /\ exists d e, f u = Ok (0, d, e).

(** The direction from p to c is orthogonal to t. *)
Definition on_normal (p t c : pt R) : Prop := t 0%nat * (c 0%nat - p 0%nat) + t 1%nat * (c 1%nat - p 1%nat) = 0.

(** The line x = u in one coordinate, over [-2, 1]. *)
Definition slide : gcurve R := mkg (-2) 1 (fun u d => Ok (fun _ => match d with 0%nat => u | 1%nat => 1 | _ => 0 end)).
(** The square with its derivatives. *)
Definition square (u : R) (d : nat) : result R := Ok (match d with 0%nat => u * u | 1%nat => 2 * u | 2%nat => 2 | _ => 0 end).
(** The straight segment (u^3, 0), whose curvature is zero everywhere. *)
Definition rushing : gcurve R := mkg 0 1 (fun u d => Ok (fun i => match i, d with
  | 0%nat, 0%nat => u ^ 3 | 0%nat, 1%nat => 3 * u ^ 2 | 0%nat, 2%nat => 6 * u | 0%nat, 3%nat => 6 | _, _ => 0 end)).
(** The plane z = 0 and the line (w, 0, 1). *)
Definition flat : @bsurf R := mkbs 0 1 0 1 (fun u v du dv => Ok (match du, dv with
  | 0%nat, 0%nat => point3 u v 0 | 1%nat, 0%nat => point3 1 0 0 | 0%nat, 1%nat => point3 0 1 0 | _, _ => point3 0 0 0 end)).
Definition above : gcurve R := mkg 0 1 (fun w d => Ok (match d with 0%nat => point3 w 0 1 | 1%nat => point3 1 0 0 | _ => point3 0 0 0 end)).
