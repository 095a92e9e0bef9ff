(** Theorems about parallel batches (C37). *)
From Coq Require Import List Arith.
From Verif Require Import Model_Base Model_Batch Spec_Batch Proof_Batch.
Import ListNotations.

(** C37: whatever the gate and the complete execution, a batch gives what the loop in
    input order gives: all the values, or the exception of the lowest failing index. *)
Theorem C37_batch : forall (A B : Type) (build : A -> attempt B) (dflt : B) inputs min_size sched,
  complete (length inputs) sched ->
  build_batch build dflt min_size sched inputs = in_order build inputs.
Proof. intros A B build dflt inputs min_size sched. exact (batch_in_order build dflt inputs min_size sched). Qed.
Print Assumptions C37_batch.

Theorem C37_batch_values : forall (A B : Type) (build : A -> attempt B) (dflt : B) inputs bs min_size sched,
  complete (length inputs) sched -> map build inputs = map Val bs ->
  build_batch build dflt min_size sched inputs = Ok bs.
Proof. intros A B build dflt inputs bs min_size sched. exact (batch_values build dflt inputs bs min_size sched). Qed.
Print Assumptions C37_batch_values.

Theorem C37_batch_first_error : forall (A B : Type) (build : A -> attempt B) (dflt : B) inputs i e min_size sched,
  complete (length inputs) sched ->
  nth_error (map build inputs) i = Some (Exc e) ->
  (forall j, j < i -> exists b, nth_error (map build inputs) j = Some (Val b)) ->
  build_batch build dflt min_size sched inputs = Throw e.
Proof. intros A B build dflt inputs i e min_size sched. exact (batch_first build dflt inputs i e min_size sched). Qed.
Print Assumptions C37_batch_first_error.

(** At every moment of every execution an output slot holds its initial value or the value
    of its own input. *)
Theorem C37_slots : forall (A B : Type) (build : A -> attempt B) (dflt : B) inputs sched s i b,
  batch_run build inputs sched (batch_start dflt inputs) = Ok s ->
  nth_error (b_out s) i = Some b ->
  b = dflt \/ exists a, nth_error inputs i = Some a /\ build a = Val b.
Proof. intros A B build dflt inputs sched s i b. exact (batch_slots build dflt inputs sched s i b). Qed.
Print Assumptions C37_slots.

(** No execution can get stuck or go on for ever: until all elements are finished one of
    them can make a step, an execution has at most two steps per element, and all elements
    are finished exactly when the execution is a complete one. *)
Theorem C37_progress : forall (A B : Type) (build : A -> attempt B) (dflt : B) inputs sched s,
  batch_run build inputs sched (batch_start dflt inputs) = Ok s ->
  (forallb is_finished (b_pcs s) = false -> exists i, can_step build inputs s i) /\
  length sched <= 2 * length inputs /\
  (forallb is_finished (b_pcs s) = true <-> complete (length inputs) sched).
Proof.
  intros A B build dflt inputs sched s E.
  exact (conj (batch_progress build dflt inputs sched s E)
        (conj (batch_bounded build dflt inputs sched s E) (batch_unfinished build dflt inputs sched s E))).
Qed.
Print Assumptions C37_progress.

(** transform_threshold: the same when the function does not throw ... *)
Theorem C37_transform_partial : forall (A B : Type) (build : A -> attempt B) (dflt : B) inputs bs min_size sched,
  complete (length inputs) sched -> map build inputs = map Val bs ->
  transform_threshold build dflt min_size sched inputs = Done bs.
Proof. intros A B build dflt inputs bs min_size sched. exact (transform_values build dflt inputs bs min_size sched). Qed.
Print Assumptions C37_transform_partial.

(** ... and not when it throws: below the gate the caller receives the exception, above it
    the program is terminated. *)
Theorem C37_transform_refuted :
  exists (build : nat -> attempt nat) inputs sched,
    complete (length inputs) sched /\
    transform_threshold build 0 3 sched inputs = Raised OutOfBoundsEval /\
    transform_threshold build 0 2 sched inputs = Terminated.
Proof.
  exists (fun n => match n with 0 => Val 5 | _ => Exc OutOfBoundsEval end), [0; 1], [1; 0; 0; 1].
  split; [|split; reflexivity]. intros [|[|i]]; reflexivity.
Qed.
Print Assumptions C37_transform_refuted.

(** Three inputs, the second and third fail, run in the order 2, 0, 1 with overlaps. *)
Example batch_example :
  let build := fun n => match n with 0 => Val 5 | 1 => Exc LengthError | _ => Exc RuntimeError end in
  complete 3 [2; 0; 2; 1; 0; 1] /\ build_batch build 9 2 [2; 0; 2; 1; 0; 1] [0; 1; 2] = Throw LengthError
  /\ build_batch build 9 2 [2; 0; 2; 1; 0; 1] [0; 0; 0] = Ok [5; 5; 5].
Proof. split; [|split; reflexivity]. intros [|[|[|i]]]; reflexivity. Qed.
