(** The derivatives of the basis functions at the two ends of clamped knots; two-ended
    interpolation systems are nonsingular. *)
From Coq Require Import List Arith ZArith Reals Lia Lra Bool.
From Verif Require Import Model_Base Model_Knots Model_Basis Model_Curve Model_Interp
  Spec_Base Spec_Basis Spec_Knots Spec_Interp Spec_Solve Proof_Base Proof_Blossom Proof_Basis Proof_Ders Proof_Eval
  Proof_PropBasis Proof_Band Proof_Interp.
Import ListNotations.
Local Open Scope R_scope.

Lemma pow_m1_step a b : (a = S b)%nat -> (-1) ^ a = - (-1) ^ b.
Proof. intros ->. simpl. ring. Qed.

(** Derivations of a Kronecker delta alternate in sign. *)
Lemma NH_alternates k l base t d :
  (forall i, NH k l base i = if (i =? t)%nat then 1 else 0) ->
  (forall e i, (1 <= e <= d)%nat -> (t < i + e)%nat -> (i <= t)%nat -> k i < k (i + length base + e)%nat) ->
  forall i, ((i <= t)%nat -> (t <= i + d)%nat -> 0 < (-1) ^ (t - i) * NH k l (repeat (1, 0) d ++ base) i) /\
    ((t < i)%nat \/ (i + d < t)%nat -> NH k l (repeat (1, 0) d ++ base) i = 0).
Proof.
  intros Hb. induction d as [|d IH]; intros Hk i.
  - cbn [repeat app]. rewrite Hb. destruct (Nat.eqb_spec i t) as [->|H].
    + rewrite Nat.sub_diag. simpl. split; [lra|lia].
    + split; [lia|reflexivity].
  - assert (Hk' : forall e i, (1 <= e <= d)%nat -> (t < i + e)%nat -> (i <= t)%nat -> k i < k (i + length base + e)%nat)
      by (intros; apply Hk; lia).
    specialize (IH Hk'). cbn [repeat app NH]. set (rest := repeat (1, 0) d ++ base) in *.
    assert (Lr : length rest = (d + length base)%nat) by (unfold rest; rewrite app_length, repeat_length; reflexivity).
    rewrite Lr.
    destruct (IH i) as (P1 & Z1). destruct (IH (S i)) as (P2 & Z2).
    assert (D1 : (i <= t)%nat -> (t <= i + d)%nat -> 0 < k (i + S (d + length base))%nat - k i).
    { intros Ha Hb'. specialize (Hk (S d) i ltac:(lia) ltac:(lia) Ha).
      replace (i + S (d + length base))%nat with (i + length base + S d)%nat by lia. lra. }
    assert (D2 : (S i <= t)%nat -> (t <= S i + d)%nat -> 0 < k (i + S (S (d + length base)))%nat - k (S i)).
    { intros Ha Hb'. specialize (Hk (S d) (S i) ltac:(lia) ltac:(lia) Ha).
      replace (i + S (S (d + length base)))%nat with (S i + length base + S d)%nat by lia. lra. }
    assert (T1 : (i <= t)%nat -> (t <= i + d)%nat -> 0 < (-1) ^ (t - i) * ((1 - 0 * k i) / (k (i + S (d + length base))%nat - k i) * NH k l rest i)).
    { intros Ha Hb'. specialize (P1 Ha Hb'). specialize (D1 Ha Hb').
      replace ((-1) ^ (t - i) * ((1 - 0 * k i) / (k (i + S (d + length base))%nat - k i) * NH k l rest i))
        with (/ (k (i + S (d + length base))%nat - k i) * ((-1) ^ (t - i) * NH k l rest i)) by (unfold Rdiv; ring).
      apply Rmult_lt_0_compat; [apply Rinv_0_lt_compat; lra|exact P1]. }
    assert (T2 : (S i <= t)%nat -> (t <= S i + d)%nat ->
       0 < (-1) ^ (t - i) * ((0 * k (i + S (S (d + length base)))%nat - 1) / (k (i + S (S (d + length base)))%nat - k (S i)) * NH k l rest (S i))).
    { intros Ha Hb'. specialize (P2 Ha Hb'). specialize (D2 Ha Hb').
      rewrite (pow_m1_step (t - i) (t - S i)) by lia.
      replace (- (-1) ^ (t - S i) * ((0 * k (i + S (S (d + length base)))%nat - 1) / (k (i + S (S (d + length base)))%nat - k (S i)) * NH k l rest (S i)))
        with (/ (k (i + S (S (d + length base)))%nat - k (S i)) * ((-1) ^ (t - S i) * NH k l rest (S i))) by (unfold Rdiv; ring).
      apply Rmult_lt_0_compat; [apply Rinv_0_lt_compat; lra|exact P2]. }
    split.
    + intros Ha Hb'. rewrite Rmult_plus_distr_l.
      destruct (Nat.le_gt_cases t (i + d)) as [H1|H1], (Nat.le_gt_cases (S i) t) as [H2|H2]; try lia.
      * specialize (T1 Ha H1). specialize (T2 H2 ltac:(lia)). lra.
      * specialize (T1 Ha H1). rewrite Z2 by lia. lra.
      * specialize (T2 H2 ltac:(lia)). rewrite (Z1 ltac:(lia)). lra.
    + intros H. rewrite Z1, Z2 by lia. ring.
Qed.

Section AtR.
Variable eps : R.
Local Hint Extern 0 (Num R) => exact (NumR eps) : typeclass_instances.

Section Ends.
Variables (k : list R) (n p : nat).
Hypothesis Hk : knots_ok k n p.
Variables (a b : R).
Hypothesis Hc : clamped_vector k n p a b.
Hypothesis Hab : a < b.

Let Ha : forall i, (i <= p)%nat -> kn k i = a.
Proof. apply Hc. Qed.
Let Hb : forall i, (n <= i <= n + p)%nat -> kn k i = b.
Proof. apply Hc. Qed.
Let Hp : (p < n)%nat.
Proof. apply Hk. Qed.
Lemma after_first : a < kn k (S p).
Proof.
  destruct Hc as (_ & _ & _ & H2 & H3). destruct (Nat.eq_dec (S p) n) as [->|H]; [rewrite H2 by lia; exact Hab|].
  apply H3. lia.
Qed.
Lemma before_last : kn k (n - 1) < b.
Proof.
  destruct Hc as (_ & _ & H1 & _ & H3). destruct (Nat.eq_dec (n - 1) p) as [->|H]; [rewrite H1 by lia; exact Hab|].
  apply H3. lia.
Qed.
Lemma mono_k i j : (i <= j)%nat -> (j <= n + p)%nat -> kn k i <= kn k j.
Proof. intros H1 H2. destruct Hk as (L & _ & Hnd & _). apply Hnd; lia. Qed.

Lemma inside_a : inside k n p a.
Proof. unfold inside. rewrite (Ha p), (Hb n) by lia. lra. Qed.
Lemma inside_b : inside k n p b.
Proof. unfold inside. rewrite (Ha p), (Hb n) by lia. lra. Qed.

Lemma spn_a : spn eps k n p a = p.
Proof.
  destruct (spn_ok eps k n p Hk a inside_a) as (_ & Hl & Hs & Hst). set (l := spn eps k n p a) in *.
  destruct (Nat.eq_dec l p) as [->|H]; [reflexivity|]. exfalso.
  pose proof after_first as F. pose proof (mono_k (S p) l ltac:(lia) ltac:(lia)) as M.
  destruct Hs as [[H1 H2]|[H1 H2]]; [lra|]. rewrite (Hb n) in H1 by lia. lra.
Qed.
Lemma spn_b : spn eps k n p b = (n - 1)%nat.
Proof.
  destruct (spn_ok eps k n p Hk b inside_b) as (_ & Hl & Hs & Hst). set (l := spn eps k n p b) in *.
  destruct Hs as [[H1 H2]|[_ H2]]; [|exact H2].
  pose proof (mono_k (S l) n ltac:(lia) ltac:(lia)) as M. rewrite (Hb n) in M by lia. exfalso; lra.
Qed.

Lemma NH_first r : (r <= p)%nat -> forall i, NH (kn k) p (repeat (a, 1) r) i = if (i =? p - r)%nat then 1 else 0.
Proof.
  induction r as [|r IH]; intros Hr i; [cbn [repeat NH]; rewrite Nat.sub_0_r; reflexivity|].
  cbn [repeat NH]. rewrite repeat_length, !IH by lia.
  destruct (Nat.eqb_spec i (p - r)) as [->|H1].
  - rewrite (Ha (p - r)) by lia. destruct (Nat.eqb_spec (S (p - r)) (p - r)); [lia|].
    destruct (Nat.eqb_spec (p - r) (p - S r)); [lia|]. unfold Rdiv. ring.
  - destruct (Nat.eqb_spec (S i) (p - r)) as [H2|H2], (Nat.eqb_spec i (p - S r)) as [H3|H3]; try lia; [|ring].
    replace (i + S (S r))%nat with (S p) by lia. rewrite (Ha (S i)) by lia. pose proof after_first. rewrite Rmult_0_r, Rplus_0_l. field. intros Q; lra.
Qed.
Lemma NH_last r : (r <= p)%nat -> forall i, NH (kn k) (n - 1) (repeat (b, 1) r) i = if (i =? n - 1)%nat then 1 else 0.
Proof.
  induction r as [|r IH]; intros Hr i; [reflexivity|].
  cbn [repeat NH]. rewrite repeat_length, !IH by lia.
  destruct (Nat.eqb_spec i (n - 1)) as [->|H1].
  - rewrite (Hb (n - 1 + S r)) by lia. destruct (Nat.eqb_spec (S (n - 1)) (n - 1)); [lia|].
    pose proof before_last. rewrite Rmult_0_r, Rplus_0_r. field. intros Q; lra.
  - destruct (Nat.eqb_spec (S i) (n - 1)) as [H2|H2]; [|ring].
    rewrite (Hb (i + S (S r))) by lia. unfold Rdiv. ring.
Qed.

Lemma ffall_pos d : (d <= p)%nat -> 0 < ffall p d.
Proof.
  induction d as [|d IH]; intros H; cbn [ffall]; [lra|]. apply Rmult_lt_0_compat; [apply IH; lia|].
  apply lt_0_INR. lia.
Qed.

(** Derivative [d] at the first end involves the poles 0 .. d, with alternating signs. *)
Lemma rv_first d j : (d <= p)%nat ->
  ((j <= d)%nat -> 0 < (-1) ^ (d - j) * rv eps k n p a d j) /\ ((d < j)%nat -> rv eps k n p a d j = 0).
Proof.
  intros Hd. unfold rv. rewrite spn_a. pose proof (ffall_pos d Hd) as F.
  destruct (NH_alternates (kn k) p (repeat (a, 1) (p - d)) d d) with (i := j) as (P & Z).
  - intros i. rewrite NH_first by lia. replace (p - (p - d))%nat with d by lia. reflexivity.
  - intros e i He H1 H2. rewrite repeat_length, (Ha i) by lia. pose proof after_first.
    pose proof (mono_k (S p) (i + (p - d) + e) ltac:(lia) ltac:(lia)). lra.
  - split; intros Hj.
    + destruct (Nat.leb_spec j p); [|lia]. specialize (P Hj ltac:(lia)).
      set (x := NH _ _ _ _) in *. replace ((-1) ^ (d - j) * (ffall p d * x)) with (ffall p d * ((-1) ^ (d - j) * x)) by ring.
      apply Rmult_lt_0_compat; assumption.
    + destruct (Nat.leb_spec j p); [|reflexivity]. rewrite Z by lia. ring.
Qed.
(** At the last end, the poles n-1-d .. n-1. *)
Lemma rv_last d j : (d <= p)%nat -> (j < n)%nat ->
  ((n <= j + d + 1)%nat -> 0 < (-1) ^ (n - 1 - j) * rv eps k n p b d j) /\ ((j + d + 1 < n)%nat -> rv eps k n p b d j = 0).
Proof.
  intros Hd Hjn. unfold rv. rewrite spn_b. pose proof (ffall_pos d Hd) as F.
  destruct (NH_alternates (kn k) (n - 1) (repeat (b, 1) (p - d)) (n - 1) d) with (i := j) as (P & Z).
  - intros i. rewrite NH_last by lia. reflexivity.
  - intros e i He H1 H2. rewrite repeat_length, (Hb (i + (p - d) + e)) by lia. pose proof before_last.
    pose proof (mono_k i (n - 1) ltac:(lia) ltac:(lia)). lra.
  - destruct (Nat.leb_spec j (n - 1)); [|lia]. split; intros Hj.
    + specialize (P ltac:(lia) ltac:(lia)).
      set (x := NH _ _ _ _) in *. replace ((-1) ^ (n - 1 - j) * (ffall p d * x)) with (ffall p d * ((-1) ^ (n - 1 - j) * x)) by ring.
      apply Rmult_lt_0_compat; assumption.
    + rewrite Z by lia. ring.
Qed.

Lemma m1_nonzero e x : 0 < (-1) ^ e * x -> x <> 0.
Proof. intros H E. rewrite E, Rmult_0_r in H. lra. Qed.

(** What the conditions at the ends determine. *)
Lemma first_determines m (x : nat -> R) : (m <= p + 1)%nat ->
  (forall d, (d < m)%nat -> sumn n (fun j => rv eps k n p a d j * x j) = 0) -> forall j, (j < m)%nat -> x j = 0.
Proof.
  intros Hm H. assert (Q : forall d, (d <= m)%nat -> forall j, (j < d)%nat -> x j = 0).
  { induction d as [|d IH]; intros Hd j Hj; [lia|].
    destruct (Nat.eq_dec j d) as [->|Hq]; [|apply IH; lia].
    specialize (H d ltac:(lia)). destruct (rv_first d d ltac:(lia)) as (P & _).
    rewrite (sumn_single n _ d) in H; [|lia|].
    - apply Rmult_integral in H as [H|H]; [|exact H]. exfalso. exact (m1_nonzero _ _ (P (le_n d)) H).
    - intros i Hi Hid. destruct (Nat.lt_ge_cases i d) as [Q|Q].
      + rewrite (IH ltac:(lia) i Q). ring.
      + destruct (rv_first d i ltac:(lia)) as (_ & ->); [ring|lia]. }
  intros j Hj. exact (Q m (le_n m) j Hj).
Qed.
Lemma last_determines m (x : nat -> R) : (m <= p + 1)%nat ->
  (forall d, (d < m)%nat -> sumn n (fun j => rv eps k n p b d j * x j) = 0) ->
  forall j, (j < n)%nat -> (n <= j + m)%nat -> x j = 0.
Proof.
  intros Hm H. assert (Q : forall d, (d <= m)%nat -> forall j, (j < n)%nat -> (n <= j + d)%nat -> x j = 0).
  { induction d as [|d IH]; intros Hd j Hj Hjd; [lia|].
    destruct (Nat.eq_dec (j + d + 1) n) as [Hq|Hq]; [|apply IH; lia].
    specialize (H d ltac:(lia)). destruct (rv_last d j ltac:(lia) Hj) as (P & _).
    rewrite (sumn_single n _ j) in H; [|exact Hj|].
    - apply Rmult_integral in H as [H|H]; [|exact H]. exfalso. exact (m1_nonzero _ _ (P ltac:(lia)) H).
    - intros i Hi Hij. destruct (Nat.lt_ge_cases i j) as [Q|Q].
      + destruct (rv_last d i ltac:(lia) Hi) as (_ & ->); [ring|lia].
      + rewrite (IH ltac:(lia) i Hi ltac:(lia)). ring. }
  intros j Hj. exact (Q m (le_n m) j Hj).
Qed.
(** Values and second derivatives only, at the last end. *)
Lemma natural_determines (x : nat -> R) : (2 <= p)%nat -> (forall j, (j + 2 < n)%nat -> x j = 0) ->
  sumn n (fun j => rv eps k n p b 0 j * x j) = 0 -> sumn n (fun j => rv eps k n p b 2 j * x j) = 0 ->
  forall j, (j < n)%nat -> x j = 0.
Proof.
  intros H2 Hz E0 E2.
  assert (L : x (n - 1)%nat = 0).
  { apply (last_determines 1 x); [lia| |lia|lia]. intros d Hd. replace d with 0%nat by lia. exact E0. }
  assert (L2 : x (n - 2)%nat = 0).
  { rewrite (sumn_single n _ (n - 2)) in E2; [|lia|].
    - apply Rmult_integral in E2 as [E|E]; [|exact E]. exfalso.
      destruct (rv_last 2 (n - 2) H2 ltac:(lia)) as (P & _). exact (m1_nonzero _ _ (P ltac:(lia)) E).
    - intros i Hi Hi2. destruct (Nat.eq_dec i (n - 1)) as [->|]; [rewrite L; ring|]. rewrite Hz by lia. ring. }
  intros j Hj. destruct (Nat.eq_dec j (n - 1)) as [->|]; [exact L|].
  destruct (Nat.eq_dec j (n - 2)) as [->|]; [exact L2|]. apply Hz. lia.
Qed.
End Ends.
End AtR.
