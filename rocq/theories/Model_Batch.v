(** Model of the size-gated parallel algorithms of gbs/execution.h.  The parallel policy
    runs the element function on every index in an order, and with an interleaving, that the
    library does not control: an execution is a list of scheduling choices.  Each element
    function has two steps, computing its value (reading only its input) and storing it.
    No proofs in this file. *)
From Coq Require Import List Arith Bool.
From Verif Require Import Model_Base.
Import ListNotations.
Local Open Scope nat_scope.

(** What a call of the user's function gives: a value or an exception. *)
Inductive attempt (B : Type) := Val (b : B) | Exc (e : exn).
Arguments Val {B}. Arguments Exc {B}.

(** Progress of one element. *)
Inductive pc (B : Type) := Waiting | Computed (r : attempt B) | Finished.
Arguments Waiting {B}. Arguments Computed {B}. Arguments Finished {B}.

Section Batch.
Context {A B : Type}.
Variable build : A -> attempt B.
Variable dflt : B.

(** out, errs (gbs/execution.h l.122-123) and the progress of every element *)
Record bstate := mkb { b_out : list B; b_errs : list (option exn); b_pcs : list (pc B) }.

Definition batch_start (inputs : list A) : bstate :=
  let n := length inputs in mkb (filled n dflt) (filled n None) (filled n Waiting).

(** The lambda run of build_batch, gbs/execution.h l.130-134: try { out[i] = build(input i) }
    catch (...) { errs[i] = current_exception } , one step of element i *)
Definition batch_step (inputs : list A) (i : nat) (s : bstate) : result bstate :=
  let* p := get (b_pcs s) i in
  match p with
  | Waiting =>
    let* a := get inputs i in
    let* pcs := set (b_pcs s) i (Computed (build a)) in
    Ok (mkb (b_out s) (b_errs s) pcs)
  | Computed (Val b) =>
    let* out := set (b_out s) i b in
    let* pcs := set (b_pcs s) i Finished in
    Ok (mkb out (b_errs s) pcs)
  | Computed (Exc e) =>
    let* errs := set (b_errs s) i (Some e) in
    let* pcs := set (b_pcs s) i Finished in
    Ok (mkb (b_out s) errs pcs)
  | Finished => Fuel
  end.

(** A schedule: at every moment the index of the element that makes a step.  Fuel: the
    schedule asks a finished element to go on. *)
Fixpoint batch_run (inputs : list A) (sched : list nat) (s : bstate) : result bstate :=
  match sched with
  | [] => Ok s
  | i :: rest => let* s' := batch_step inputs i s in batch_run inputs rest s'
  end.

Definition is_finished (p : pc B) : bool := match p with Finished => true | _ => false end.

(** The loop that rethrows, gbs/execution.h l.140-141 *)
Fixpoint rethrow (errs : list (option exn)) : result unit :=
  match errs with
  | [] => Ok tt
  | Some e :: _ => Throw e
  | None :: rest => rethrow rest
  end.

(** The serial schedule 0, 0, 1, 1, ... *)
Definition serial (n : nat) : list nat := flat_map (fun i => [i; i]) (seq 0 n).

(** build_batch, gbs/execution.h l.117-144; [sched] is what the parallel for_each does, used
    from [min_size] inputs on.  Fuel: sched is not a complete execution (for_each returns
    only when all elements are finished). *)
Definition build_batch (min_size : nat) (sched : list nat) (inputs : list A) : result (list B) :=
  let n := length inputs in
  let* s := batch_run inputs (if min_size <=? n then sched else serial n) (batch_start inputs) in
  if negb (forallb is_finished (b_pcs s)) then Fuel else
  let* _ := rethrow (b_errs s) in
  Ok (b_out s).

(** transform_threshold, gbs/execution.h l.69-83.  Serial std::transform lets an exception
    through; an exception that leaves an element function under the parallel policy calls
    std::terminate. *)
Inductive toutcome := Done (out : list B) | Raised (e : exn) | Terminated | Incomplete.

Fixpoint transform_serial (inputs : list A) (out : list B) : toutcome :=
  match inputs with
  | [] => Done out
  | a :: rest => match build a with Val b => transform_serial rest (out ++ [b]) | Exc e => Raised e end
  end.

(** one step of an element; None: the process is terminated *)
Definition transform_step (inputs : list A) (i : nat) (s : bstate) : result (option bstate) :=
  let* p := get (b_pcs s) i in
  match p with
  | Waiting =>
    let* a := get inputs i in
    let* pcs := set (b_pcs s) i (Computed (build a)) in
    Ok (Some (mkb (b_out s) (b_errs s) pcs))
  | Computed (Val b) =>
    let* out := set (b_out s) i b in
    let* pcs := set (b_pcs s) i Finished in
    Ok (Some (mkb out (b_errs s) pcs))
  | Computed (Exc _) => Ok None
  | Finished => Fuel
  end.
Fixpoint transform_run (inputs : list A) (sched : list nat) (s : bstate) : result (option bstate) :=
  match sched with
  | [] => Ok (Some s)
  | i :: rest =>
    let* o := transform_step inputs i s in
    match o with Some s' => transform_run inputs rest s' | None => Ok None end
  end.
Definition transform_threshold (min_size : nat) (sched : list nat) (inputs : list A) : toutcome :=
  if min_size <=? length inputs then
    match transform_run inputs sched (batch_start inputs) with
    | Ok (Some s) => if forallb is_finished (b_pcs s) then Done (b_out s) else Incomplete
    | Ok None => Terminated
    | _ => Incomplete
    end
  else transform_serial inputs [].
End Batch.
Arguments mkb {B}. Arguments b_out {B}. Arguments b_errs {B}. Arguments b_pcs {B}.
Arguments Done {B}. Arguments Raised {B}. Arguments Terminated {B}. Arguments Incomplete {B}.
