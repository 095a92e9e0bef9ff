(** Vocabulary for the statements about batches run under a schedule. *)
From Coq Require Import List Arith.
From Verif Require Import Model_Base Model_Batch.
Import ListNotations.

(** An execution of n elements of two steps each (compute, store), in any order and
    with any interleaving: every element is chosen twice, nothing else is chosen. *)
Definition complete (n : nat) (sched : list nat) : Prop :=
  forall i, count_occ Nat.eq_dec sched i = if i <? n then 2 else 0.

(** The outcome of the loop "for each input, in order: push build(input)", which stops at
    the first exception. *)
Fixpoint in_order {A B} (build : A -> attempt B) (inputs : list A) : result (list B) :=
  match inputs with
  | [] => Ok []
  | a :: rest =>
    match build a with
    | Exc e => Throw e
    | Val b => match in_order build rest with Ok bs => Ok (b :: bs) | other => other end
    end
  end.

(** Element i can make a step in state s. *)
Definition can_step {A B} (build : A -> attempt B) (inputs : list A) (s : bstate) (i : nat) : Prop :=
  exists s', batch_step build inputs i s = Ok s'.
