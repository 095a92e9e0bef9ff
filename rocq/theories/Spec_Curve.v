(** Vocabulary for statements comparing curves. *)
From Coq Require Import List Reals.
From Verif Require Import Model_Base Model_Basis Spec_Base Spec_Basis Spec_Eval.
Import ListNotations.
Local Open Scope R_scope.

(** Evaluation succeeds at every parameter x of [a, b] and every order d of [0, m] for
    both curves and the results are equal, coordinate by coordinate. *)
Definition same_on (eps : R) (p : nat) (k : list R) (P : list (pt R)) (k' : list R) (P' : list (pt R))
    (dom : R -> Prop) (ord : nat -> Prop) : Prop :=
  forall x d, dom x -> ord d ->
    exists q q', @eval_value R (NumR eps) x k P p d = Ok q /\
      @eval_value R (NumR eps) x k' P' p d = Ok q' /\ forall c, q' c = q c.

Definition any (d : nat) : Prop := True.

(** No basis function is identically null on the domain. *)
Definition full_support (k : list R) (n p : nat) : Prop :=
  kn k p < kn k (S p) /\ forall i, (i < n)%nat -> kn k i < kn k (i + p + 1).
