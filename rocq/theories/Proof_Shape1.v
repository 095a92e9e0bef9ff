(** Moving poles: the linear systems of the shaping functions. *)
From Coq Require Import List Arith Reals Lia Lra Bool.
From Verif Require Import Model_Base Model_Knots Model_Basis Model_Curve Model_Interp Model_Shape
  Spec_Base Spec_Basis Spec_Interp Spec_Solve Proof_Base Proof_Blossom Proof_Basis Proof_Eval Proof_Interp Proof_Interp3.
Import ListNotations.
Local Open Scope R_scope.

(** A sum over an injective image. *)
Lemma sumn_inj N n (w : nat -> nat) (f : nat -> R) :
  (forall b, (b < n)%nat -> (w b < N)%nat) ->
  (forall b b', (b < n)%nat -> (b' < n)%nat -> w b = w b' -> b = b') ->
  (forall j, (j < N)%nat -> (forall b, (b < n)%nat -> w b <> j) -> f j = 0) ->
  sumn N f = sumn n (fun b => f (w b)).
Proof.
  revert f. induction n as [|n IH]; intros f Hw Hi Hz.
  - cbn [sumn]. apply sumn_zero. intros j Hj. apply Hz; [exact Hj|]. intros; lia.
  - cbn [sumn].
    rewrite (sumn_ext N f (fun j => (if Nat.eqb j (w n) then 0 else f j) + (if Nat.eqb (w n) j then 1 else 0) * f j)).
    + rewrite sumn_plus. rewrite (IH (fun j => if Nat.eqb j (w n) then 0 else f j)).
      * f_equal.
        -- apply sumn_ext. intros b Hb. destruct (Nat.eqb_spec (w b) (w n)) as [E|]; [|reflexivity].
           apply Hi in E; lia.
        -- assert (Hn : (w n < N)%nat) by (apply Hw; lia). clear -Hn.
           rewrite (sumn_window N (w n) 1); [|lia|].
           ++ cbn [sumn]. rewrite Nat.add_0_r, Nat.eqb_refl. ring.
           ++ intros j Hj Ho. destruct (Nat.eqb_spec (w n) j); [lia|ring].
      * intros; apply Hw; lia.
      * intros; apply Hi; auto; lia.
      * intros j Hj Hb. destruct (Nat.eqb_spec j (w n)) as [|Hn]; [reflexivity|]. apply Hz; [exact Hj|].
        intros b Hb'. destruct (Nat.eq_dec b n) as [->|]; [congruence|]. apply Hb; lia.
    + intros j Hj. rewrite (Nat.eqb_sym (w n) j). destruct (Nat.eqb j (w n)); ring.
Qed.

Lemma sumn_ge_term n (f : nat -> R) l : (forall i, (i < n)%nat -> 0 <= f i) -> (l < n)%nat -> f l <= sumn n f.
Proof.
  intros Hf Hl. apply Rle_trans with (sumn n (fun i => if Nat.eqb i l then f l else 0)).
  - rewrite (sumn_single n _ l); [rewrite Nat.eqb_refl; lra|exact Hl|].
    intros i Hi Hne. destruct (Nat.eqb_spec i l); [lia|reflexivity].
  - apply sumn_le. intros i Hi. destruct (Nat.eqb_spec i l); [subst; lra|auto].
Qed.

Section AtR.
Variable eps : R.
Local Hint Extern 0 (Num R) => exact (NumR eps) : typeclass_instances.

Lemma trans_mul_nth (B : @mat R) (y : list R) l : length y = m_rows B -> (l < m_cols B)%nat ->
  nth l (trans_mul B y) 0 = sumn (m_rows B) (fun r => m_cell B r l * nth r y 0).
Proof.
  intros Ly Hl. unfold trans_mul. rewrite nth_map_seq by exact Hl. rewrite nsum_R. apply sumn_ext.
  intros r Hr. rewrite (nth_error_nth' y 0) by lia. reflexivity.
Qed.

Definition row_of (B : @mat R) (x : nat -> R) (r : nat) : R := sumn (m_cols B) (fun l => m_cell B r l * x l).

(** What the three cases of the system give. *)
Lemma shape_solve_ok (lu llt : @solver R) (B : @mat R) (b x : list R) : exact_solver lu -> exact_solver llt ->
  length b = m_rows B -> shape_solve lu llt B b = Ok x ->
  length x = m_cols B /\
  ((m_rows B <= m_cols B)%nat -> forall r, (r < m_rows B)%nat -> row_of B (fun l => nth l x 0) r = nth r b 0) /\
  ((m_rows B < m_cols B)%nat -> forall x', (forall r, (r < m_rows B)%nat -> row_of B x' r = nth r b 0) ->
     sumn (m_cols B) (fun l => nth l x 0 ^ 2) <= sumn (m_cols B) (fun l => x' l ^ 2)) /\
  ((m_cols B < m_rows B)%nat -> forall x',
     sumn (m_rows B) (fun r => (row_of B (fun l => nth l x 0) r - nth r b 0) ^ 2)
     <= sumn (m_rows B) (fun r => (row_of B x' r - nth r b 0) ^ 2)).
Proof.
  intros Hlu Hllt Lb E. unfold shape_solve in E.
  destruct (Nat.ltb_spec (m_rows B) (m_cols B)) as [Hlt|Hge].
  - destruct (bind_inv _ _ _ E) as (y & Ey & E'). injection E' as <-.
    destruct (Hllt _ _ _ Ey Lb) as (Ly & _ & Hs). cbn [outer m_rows m_cols m_cell] in Ly, Hs.
    assert (Hrow : forall r, (r < m_rows B)%nat -> row_of B (fun l => nth l (trans_mul B y) 0) r = nth r b 0).
    { intros r Hr. rewrite <- (Hs r Hr). unfold row_of.
      rewrite (sumn_ext (m_cols B) _ (fun l => sumn (m_rows B) (fun j => m_cell B r l * (m_cell B j l * nth j y 0)))).
      - rewrite sumn_swap. apply sumn_ext. intros j Hj. rewrite nsum_R. rewrite Rmult_comm, <- sumn_scal.
        apply sumn_ext. intros l _. nsimp. ring.
      - intros l Hl. rewrite trans_mul_nth by auto. rewrite sumn_scal. reflexivity. }
    split; [unfold trans_mul; rewrite map_length, seq_length; reflexivity|].
    split; [intros _; exact Hrow|]. split; [|lia].
    intros _ x' Hx'. set (x := fun l => nth l (trans_mul B y) 0) in *. set (e := fun l => x' l - x l).
    assert (He : forall r, (r < m_rows B)%nat -> row_of B e r = 0).
    { intros r Hr. unfold row_of, e. rewrite (sumn_ext _ _ (fun l => m_cell B r l * x' l - m_cell B r l * x l)) by (intros; ring).
      rewrite sumn_minus. pose proof (Hrow r Hr) as H1. pose proof (Hx' r Hr) as H2. unfold row_of in H1, H2. rewrite H1, H2. ring. }
    assert (Hxe : sumn (m_cols B) (fun l => x l * e l) = 0).
    { rewrite (sumn_ext (m_cols B) _ (fun l => sumn (m_rows B) (fun r => m_cell B r l * nth r y 0 * e l))).
      - rewrite sumn_swap. apply sumn_zero. intros r Hr.
        rewrite (sumn_ext _ _ (fun l => nth r y 0 * (m_cell B r l * e l))) by (intros; ring).
        rewrite sumn_scal. fold (row_of B e r). rewrite He by exact Hr. ring.
      - intros l Hl. unfold x. rewrite trans_mul_nth by auto. rewrite Rmult_comm, <- sumn_scal. apply sumn_ext. intros; ring. }
    rewrite (sumn_ext (m_cols B) (fun l => x' l ^ 2) (fun l => x l ^ 2 + (2 * (x l * e l) + e l ^ 2))) by (intros; unfold e; ring).
    rewrite !sumn_plus, sumn_scal, Hxe.
    assert (0 <= sumn (m_cols B) (fun l => e l ^ 2)) by (apply sumn_nonneg; intros; apply pow2_ge_0).
    change (sumn (m_cols B) (fun l => x l ^ 2) <= sumn (m_cols B) (fun l => x l ^ 2) + (2 * 0 + sumn (m_cols B) (fun l => e l ^ 2))). lra.
  - destruct (Nat.ltb_spec (m_cols B) (m_rows B)) as [Hgt|Hle].
    + assert (Es : solve_approx_banded llt B b = Ok x).
      { unfold solve_approx_banded. rewrite Lb, Nat.eqb_refl. exact E. }
      destruct (solve_lsq eps llt B b x Hllt Es) as (_ & Lx & Hn).
      split; [exact Lx|]. split; [lia|]. split; [lia|]. intros _ x'.
      exact (lsq_opt _ _ _ (fun l => nth l x 0) (fun r => nth r b 0) x' Hn).
    + destruct (Hlu _ _ _ E Lb) as (Lx & _ & Hs). split; [exact Lx|]. split; [intros _; exact Hs|]. split; lia.
Qed.

(** With one constraint of nonzero row the system has an answer. *)
Lemma shape_solve_one lu llt (B : @mat R) b l : complete_solver llt -> m_rows B = 1%nat -> (2 <= m_cols B)%nat ->
  length b = 1%nat -> (l < m_cols B)%nat -> m_cell B 0 l <> 0 -> exists x, shape_solve lu llt B b = Ok x.
Proof.
  intros [_ Hc] Hr Hn Lb Hl Hl0. unfold shape_solve. rewrite Hr. destruct (Nat.ltb_spec 1 (m_cols B)); [|lia].
  destruct (Hc (outer B) b) as (y & Ey).
  - reflexivity.
  - cbn [outer m_rows]. congruence.
  - cbn [outer m_rows m_cell]. rewrite Hr. intros x Hx j Hj. assert (j = 0)%nat as -> by lia.
    specialize (Hx 0%nat ltac:(lia)). cbn [sumn] in Hx. rewrite nsum_R in Hx.
    assert (0 < sumn (m_cols B) (fun c => m_cell B 0 c * m_cell B 0 c)) as Hp.
    { apply Rlt_le_trans with (m_cell B 0 l * m_cell B 0 l); [nra|].
      apply (sumn_ge_term (m_cols B) (fun c => m_cell B 0%nat c * m_cell B 0%nat c)); [|exact Hl]. intros; nra. }
    change (nmul (m_cell B 0%nat ?c) ?d) with (m_cell B 0%nat c * d) in Hx.
    apply Rplus_eq_reg_l with 0. rewrite Rplus_0_r, Rplus_0_l.
    destruct (Rmult_integral (sumn (m_cols B) (fun c => m_cell B 0%nat c * m_cell B 0%nat c)) (x 0%nat)); [|lra|assumption].
    rewrite Rplus_0_l in Hx. exact Hx.
  - rewrite Ey. cbn [bind]. eauto.
Qed.
End AtR.
