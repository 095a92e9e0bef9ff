(** Vocabulary for the statements about weighted curves and integer helpers. *)
From Coq Require Import List Arith ZArith Reals.
From Verif Require Import Model_Base Spec_Base Spec_Basis Spec_Eval.
Import ListNotations.
Local Open Scope R_scope.

(** n! *)
Fixpoint zfact (n : nat) : Z := match n with O => 1%Z | S m => (Z.of_nat n * zfact m)%Z end.

(** Pascal's triangle. *)
Fixpoint binom (n k : nat) : nat :=
  match n, k with
  | _, O => 1%nat
  | O, S _ => 0%nat
  | S m, S j => (binom m j + binom m (S j))%nat
  end.

(** Denominator sum_i N_{i,p}(u) w_i of a rational curve. *)
Definition denom (k : list R) (n p : nat) (ws : list R) (u : R) : R :=
  spline (kn k) n p (kn ws) u.

(** Numerator sum_i N_{i,p}(u) w_i P_i. *)
Definition numer (k : list R) (n p : nat) (poles : list (pt R)) (ws : list R) (c : nat) (u : R) : R :=
  spline (kn k) n p (fun i => kn ws i * polec poles c i) u.

(** Arithmetic mean. *)
Definition mean (l : list R) : R := fold_right Rplus 0 l / INR (length l).
