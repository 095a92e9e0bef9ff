(** A complete solver: elimination with a search of the pivot. *)
From Coq Require Import List Arith Reals Lia Lra.
From Verif Require Import Model_Base Model_Interp Spec_Base Spec_Interp Spec_Solve Proof_Base.
Import ListNotations.
Local Open Scope R_scope.

Fixpoint pivot (A : nat -> nat -> R) (m : nat) : option nat :=
  match m with
  | O => None
  | S r => if Req_EM_T (A r 0%nat) 0 then pivot A r else Some r
  end.
Definition skip (r i : nat) : nat := if (i <? r)%nat then i else S i.

Fixpoint elim (n : nat) (A : nat -> nat -> R) (b : nat -> R) : option (nat -> R) :=
  match n with
  | O => Some (fun _ => 0)
  | S m =>
    match pivot A (S m) with
    | None => None
    | Some r =>
      let q i := A (skip r i) 0%nat / A r 0%nat in
      match elim m (fun i j => A (skip r i) (S j) - q i * A r (S j)) (fun i => b (skip r i) - q i * b r) with
      | None => None
      | Some y => Some (fun j => match j with
          | O => (b r - sumn m (fun j => A r (S j) * y j)) / A r 0%nat
          | S j => y j end)
      end
    end
  end.

Definition gauss (N : @mat R) (b : list R) : result (list R) :=
  if Nat.eqb (m_rows N) (m_cols N) then
    match elim (m_rows N) (m_cell N) (fun i => nth i b 0) with
    | Some x => Ok (map x (seq 0 (m_rows N)))
    | None => Throw RuntimeError
    end
  else Throw RuntimeError.

Lemma pivot_some A m r : pivot A m = Some r -> (r < m)%nat /\ A r 0%nat <> 0.
Proof.
  induction m as [|m IH]; cbn [pivot]; [discriminate|]. destruct (Req_EM_T (A m 0%nat) 0) as [e|e].
  - intros H. destruct (IH H). split; [lia|assumption].
  - intros [= <-]. split; [lia|exact e].
Qed.
Lemma pivot_none A m : pivot A m = None -> forall i, (i < m)%nat -> A i 0%nat = 0.
Proof.
  induction m as [|m IH]; cbn [pivot]; intros H i Hi; [lia|]. destruct (Req_EM_T (A m 0%nat) 0) as [e|e]; [|discriminate].
  destruct (Nat.eq_dec i m) as [->|]; [exact e|apply IH; auto; lia].
Qed.
Lemma skip_lt r i m : (i < m)%nat -> (r < S m)%nat -> (skip r i < S m)%nat.
Proof. intros. unfold skip. destruct (Nat.ltb_spec i r); lia. Qed.
Lemma skip_onto r i m : (i < S m)%nat -> i <> r -> (r < S m)%nat -> exists j, (j < m)%nat /\ skip r j = i.
Proof.
  intros Hi Hne Hr. unfold skip. destruct (Nat.lt_ge_cases i r) as [H|H].
  - exists i. split; [lia|]. destruct (Nat.ltb_spec i r); lia.
  - exists (i - 1)%nat. split; [lia|]. destruct (Nat.ltb_spec (i - 1) r); lia.
Qed.
Lemma sumn_first m f : sumn (S m) f = f 0%nat + sumn m (fun j => f (S j)).
Proof. rewrite (sumn_app 1 m). cbn [sumn]. rewrite Rplus_0_l. f_equal. Qed.

(** A row of the reduced system is a row of the system, less a multiple of the pivot row. *)
Lemma reduced_row m (A : nat -> nat -> R) r s q x :
  A s 0%nat = q * A r 0%nat ->
  sumn (S m) (fun j => A s j * x j) =
  sumn m (fun j => (A s (S j) - q * A r (S j)) * x (S j)) + q * sumn (S m) (fun j => A r j * x j).
Proof.
  intros E. rewrite !sumn_first, E.
  rewrite (sumn_ext m (fun j => (A s (S j) - q * A r (S j)) * x (S j)) (fun j => A s (S j) * x (S j) - q * (A r (S j) * x (S j)))) by (intros; ring).
  rewrite sumn_minus, sumn_scal. ring.
Qed.

Lemma elim_exact n : forall A b x, elim n A b = Some x -> forall i, (i < n)%nat -> sumn n (fun j => A i j * x j) = b i.
Proof.
  induction n as [|m IH]; intros A b x E i Hi; [lia|]. cbn [elim] in E.
  destruct (pivot A (S m)) as [r|] eqn:Ep; [|discriminate]. destruct (pivot_some _ _ _ Ep) as (Hr & Hne).
  destruct (elim m _ _) as [y|] eqn:Ey; [|discriminate]. specialize (IH _ _ _ Ey). injection E as <-.
  assert (Er : sumn (S m) (fun j => A r j * match j with O => (b r - sumn m (fun j => A r (S j) * y j)) / A r 0%nat | S j => y j end) = b r).
  { rewrite sumn_first. field_simplify_eq; [|exact Hne]. ring. }
  destruct (Nat.eq_dec i r) as [->|Hir]; [exact Er|].
  destruct (skip_onto r i m Hi Hir Hr) as (s & Hs & <-).
  rewrite (reduced_row m A r (skip r s) (A (skip r s) 0%nat / A r 0%nat)) by (field; exact Hne).
  rewrite Er, (IH s Hs). ring.
Qed.

Lemma elim_complete n : forall A b, nonsingular n A -> exists x, elim n A b = Some x.
Proof.
  induction n as [|m IH]; intros A b H; [eexists; reflexivity|]. cbn [elim].
  destruct (pivot A (S m)) as [r|] eqn:Ep.
  - destruct (pivot_some _ _ _ Ep) as (Hr & Hne).
    destruct (IH (fun i j => A (skip r i) (S j) - A (skip r i) 0%nat / A r 0%nat * A r (S j)) (fun i => b (skip r i) - A (skip r i) 0%nat / A r 0%nat * b r)) as (y & Ey).
    2:{ rewrite Ey. eexists. reflexivity. }
    intros y Hy j Hj.
    set (x := fun j => match j with O => (0 - sumn m (fun j => A r (S j) * y j)) / A r 0%nat | S j => y j end).
    change (y j) with (x (S j)). apply H; [|lia].
    assert (Er : sumn (S m) (fun j => A r j * x j) = 0).
    { rewrite sumn_first. unfold x. field_simplify_eq; [|exact Hne]. ring. }
    intros i Hi. destruct (Nat.eq_dec i r) as [->|Hir]; [exact Er|].
    destruct (skip_onto r i m Hi Hir Hr) as (s & Hs & <-).
    rewrite (reduced_row m A r (skip r s) (A (skip r s) 0%nat / A r 0%nat)) by (field; exact Hne).
    rewrite Er. unfold x. rewrite (Hy s Hs). ring.
  - exfalso. pose proof (pivot_none _ _ Ep) as Hz.
    set (e := fun j : nat => match j with O => 1 | _ => 0 end).
    assert (E : e 0%nat = 0); [|unfold e in E; lra].
    apply H; [|lia]. intros i Hi. rewrite sumn_first, (Hz i Hi), sumn_zero; [ring|]. intros. unfold e. ring.
Qed.

Lemma gauss_complete : complete_solver gauss.
Proof.
  split.
  - intros N b x E Hb. unfold gauss in E. destruct (Nat.eqb_spec (m_rows N) (m_cols N)) as [Hrc|]; [|discriminate].
    destruct (elim _ _ _) as [y|] eqn:Ey; [|discriminate]. injection E as <-.
    split; [rewrite map_length, seq_length; exact Hrc|]. split; [exact Hb|]. intros i Hi.
    rewrite <- (elim_exact _ _ _ _ Ey i Hi). rewrite <- Hrc. apply sumn_ext. intros j Hj. f_equal.
    rewrite (nth_indep _ 0 (y 0%nat)) by (rewrite map_length, seq_length; exact Hj). rewrite map_nth, seq_nth by exact Hj. reflexivity.
  - intros N b Hrc Hb H. unfold gauss. rewrite Hrc, Nat.eqb_refl, <- Hrc.
    destruct (elim_complete (m_rows N) (m_cell N) (fun i => nth i b 0) H) as (x & ->). eexists. reflexivity.
Qed.
