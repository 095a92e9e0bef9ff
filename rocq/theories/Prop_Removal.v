(** Properties C18 (knot removal) and C19 (trimming). *)
From Coq Require Import List Arith ZArith QArith Reals.
From Verif Require Import Model_Base Model_Basis Model_Knots Model_Removal Spec_Base Spec_Basis Spec_Eval
  Spec_Curve Proof_PropRemove2.
Import ListNotations.
Local Open Scope R_scope.

(** C18: a call that reports 0 leaves knots and poles as they were, whatever the input. *)
Theorem C18_zero_untouched : forall eps dist (u : R) p num U P tol U' P',
  @remove_knot_tol R (NumR eps) dist u p num U P tol = Ok (0%Z, U', P') -> U' = U /\ P' = P.
Proof. exact remove_zero. Qed.
Print Assumptions C18_zero_untouched.

(** A call asking for no more copies than there are removes exactly the number m of
    copies of u it reports, and as many poles. *)
Theorem C18_removes_what_it_reports : forall eps dist u p num U P tol t U' P',
  nondecreasing U -> (num <= count_occ Req_EM_T U u)%nat ->
  @remove_knot_tol R (NumR eps) dist u p num U P tol = Ok (t, U', P') ->
  exists m, t = Z.of_nat m /\ (m <= num)%nat /\ (length P' + m)%nat = length P /\
    exists a b, U = a ++ repeat u m ++ b /\ U' = a ++ b.
Proof. exact remove_reported. Qed.
Print Assumptions C18_removes_what_it_reports.

(** If the curve (U, P) can be written with num copies of the interior knot u fewer, as
    (a ++ b, Q), then with any tolerance that accepts equal points all num copies are
    removed and the result is the curve (a ++ b, Q). *)
Theorem C18_removes_removable : forall eps dist tol U n p u num a b P Q, 0 <= eps ->
  knots_ok U n p -> length P = n -> kn U p < u < kn U n -> (1 <= num)%nat ->
  U = a ++ repeat u num ++ b -> (count_occ Req_EM_T U u <= p)%nat -> length Q = (n - num)%nat ->
  evaluable eps U n p -> evaluable eps (a ++ b) (n - num) p ->
  same_on eps p U P (a ++ b) Q (fun x => kn U p <= x <= kn U n) (fun d => d = 0%nat) ->
  (forall A B : pt R, (forall c, A c = B c) -> dist A B <= tol) ->
  exists P', @remove_knot_tol R (NumR eps) dist u p num U P tol = Ok (Z.of_nat num, a ++ b, P') /\
    length P' = (n - num)%nat /\
    same_on eps p (a ++ b) Q (a ++ b) P' (fun x => kn U p <= x <= kn U n) any /\
    (full_support (a ++ b) (n - num) p -> forall i c, (i < n - num)%nat -> polec P' c i = polec Q c i).
Proof. exact remove_prop. Qed.
Print Assumptions C18_removes_removable.

(** Insertion of r copies of an interior u followed by the removal of num <= r copies
    reports num, leaves r - num of them and the curve; with num = r the original knots
    and poles are recovered. *)
Theorem C18_inverts_insertion : forall eps dist tol k n p u r num P,
  0 <= eps -> knots_ok k n p -> length P = n -> kn k p < u < kn k n ->
  (1 <= num <= r)%nat -> (count_occ Req_EM_T k u + r <= p)%nat ->
  (forall A B : pt R, (forall c, A c = B c) -> dist A B <= tol) ->
  exists idx k1 P1 k2 P2, @insert_knots R (NumR eps) u p r k P = Ok (idx, k1, P1) /\
    @remove_knot_tol R (NumR eps) dist u p num k1 P1 tol = Ok (Z.of_nat num, k2, P2) /\
    length P2 = (n + r - num)%nat /\
    (exists a b, k = a ++ b /\ k2 = a ++ repeat u (r - num) ++ b) /\
    (evaluable eps k n p -> evaluable eps k2 (n + r - num) p ->
     same_on eps p k P k2 P2 (fun x => kn k p <= x <= kn k n) any) /\
    (num = r -> k2 = k /\ (full_support k n p -> forall i c, (i < n)%nat -> polec P2 c i = polec P c i)).
Proof. exact insert_then_remove. Qed.
Print Assumptions C18_inverts_insertion.

(** Undefined behaviour at the end knots of a clamped vector: P[-1], P[n]. *)
Theorem C18_first_knot_undefined : forall eps U n p u num P dist tol,
  0 <= eps -> knots_ok U n p -> clamped U n p -> kn U p < kn U (S p) ->
  (1 <= num)%nat -> (1 <= p)%nat -> u = kn U 0 ->
  @remove_knot_tol R (NumR eps) dist u p num U P tol = Undef BadIndex.
Proof. exact remove_first. Qed.
Print Assumptions C18_first_knot_undefined.

Theorem C18_last_knot_undefined : forall eps U n p u num P dist tol,
  0 <= eps -> knots_ok U n p -> clamped U n p -> length P = n -> (1 <= num)%nat -> u = kn U n ->
  @remove_knot_tol R (NumR eps) dist u p num U P tol = Undef BadIndex.
Proof. exact remove_last. Qed.
Print Assumptions C18_last_knot_undefined.

(** "Removes only copies of u" is false when more copies are requested than exist:
    asked for 2 copies of the simple knot 2, the code also deletes the knot 1. *)
Theorem C18_only_copies_refuted :
  let k := [0;0;0;0;1;2;3;4;4;4;4]%Q in
  let P := repeat (fun _ => 1%Q) 7 : list (pt Q) in
  exists k' P', @remove_knot_tol Q NumQ (fun a b => (a 0%nat - b 0%nat) * (a 0%nat - b 0%nat))%Q
      2%Q 3 2 k P 0%Q = Ok (2%Z, k', P') /\
    k' = [0;0;0;0;3;4;4;4;4]%Q.
Proof. exact remove_too_many. Qed.
Print Assumptions C18_only_copies_refuted.

Example ex_removal_hypotheses : let k := [0;0;0;0;1;2;3;3;3;3] in
  knots_ok k 6 3 /\ kn k 3 < 2 < kn k 6 /\ (count_occ Req_EM_T k 2%R + 2 <= 3)%nat /\ full_support k 6 3 /\
  evaluable (1/1000) k 6 3 /\
  (forall A B : pt R, (forall c, A c = B c) -> Rabs (A 0%nat - B 0%nat) <= 0).
Proof. exact ex_remove. Qed.

(** C19: trimming a clamped curve to [u1, u2] (in either order) gives a clamped curve;
    its ends are u1 and u2, except that a bound within eps of the old one is left where
    it was; values and derivatives are those of the original curve. *)
Theorem C19_trim : forall eps k n p u1 u2 P,
  0 < eps -> knots_ok k n p -> length P = n -> (1 <= p)%nat -> clamped k n p ->
  kn k p <= u1 -> u1 < u2 -> u2 <= kn k n ->
  exists k' P' n', @trim R (NumR eps) p k P u1 u2 = Ok (k', P') /\
    @trim R (NumR eps) p k P u2 u1 = Ok (k', P') /\
    knots_ok k' n' p /\ length P' = n' /\ clamped k' n' p /\
    u1 - eps < kn k' p <= u1 /\ u2 <= kn k' n' < u2 + eps /\
    (eps <= u1 - kn k p -> kn k' p = u1) /\ (eps <= kn k n - u2 -> kn k' n' = u2) /\
    (evaluable eps k n p -> evaluable eps k' n' p ->
       same_on eps p k P k' P' (fun x => u1 <= x < u2) any /\
       ((count_occ Req_EM_T k u2 <= p)%nat \/ kn k n - u2 < eps ->
          same_on eps p k P k' P' (fun x => x = u2) (fun d => d = 0%nat))).
Proof. exact trim_prop. Qed.
Print Assumptions C19_trim.

Example ex_trim_hypotheses : let k := [0;0;0;1;2;2;2] in
  0 < 1/1000 /\ knots_ok k 4 2 /\ clamped k 4 2 /\ kn k 2 <= 1/2 /\ 1/2 < 3/2 /\ 3/2 <= kn k 4 /\
  (count_occ Req_EM_T k (3/2)%R <= 2)%nat /\ evaluable (1/1000) k 4 2.
Proof. exact ex_trim. Qed.
