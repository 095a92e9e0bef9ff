(** Joining two clamped knot vectors of one degree: the part of join after the degrees
    agree. *)
From Coq Require Import List Arith ZArith Reals Lia Lra Bool.
From Verif Require Import Model_Base Spec_Base Spec_Basis Spec_Knots Spec_Eval
  Model_Basis Model_Knots Model_Curve Model_Unify
  Proof_Base Proof_Blossom Proof_Basis Proof_Ders Proof_Eval Proof_Trim Proof_Affine Proof_PropBasis Proof_Build2 Proof_Ctor Proof_Interp3.
Import ListNotations.
Local Open Scope R_scope.

(** Only the knots and poles of the span matter; moving both moves the values. *)
Lemma NH_shift (k k' : nat -> R) o sh l args : forall i,
  (forall j, (l < j + length args)%nat -> (j <= l + length args)%nat -> k' (j + o)%nat = k j + sh) ->
  NH k' (l + o) (map (fun aw => (fst aw + snd aw * sh, snd aw)) args) (i + o) = NH k l args i.
Proof.
  induction args as [|[a w] rest IH]; intros i Hk.
  - simpl. destruct (Nat.eqb_spec (i + o) (l + o)), (Nat.eqb_spec i l); try lia; reflexivity.
  - cbn [map NH fst snd]. rewrite map_length. set (q := length rest) in *.
    assert (Hk' : forall j, (l < j + length rest)%nat -> (j <= l + length rest)%nat -> k' (j + o)%nat = k j + sh).
    { intros j H1 H2. apply Hk; simpl; lia. }
    rewrite (IH i Hk'). change (Datatypes.S (i + o)) with (Datatypes.S i + o)%nat. rewrite (IH (Datatypes.S i) Hk'). f_equal.
    + destruct (le_lt_dec i l) as [H1|H1]; [|rewrite (NH_out k l rest i) by lia; ring].
      destruct (le_lt_dec l (i + q)) as [H2|H2]; [|rewrite (NH_out k l rest i) by (fold q; lia); ring].
      rewrite (Hk i) by (cbn [length]; fold q; lia).
      replace (i + o + Datatypes.S q)%nat with (i + Datatypes.S q + o)%nat by lia. rewrite (Hk (i + Datatypes.S q)%nat) by (cbn [length]; fold q; lia).
      f_equal. replace (a + w * sh - w * (k i + sh)) with (a - w * k i) by ring.
      replace (k (i + Datatypes.S q)%nat + sh - (k i + sh)) with (k (i + Datatypes.S q)%nat - k i) by ring. reflexivity.
    + destruct (le_lt_dec (Datatypes.S i) l) as [H1|H1]; [|rewrite (NH_out k l rest (Datatypes.S i)) by lia; ring].
      destruct (le_lt_dec l (Datatypes.S i + q)) as [H2|H2]; [|rewrite (NH_out k l rest (Datatypes.S i)) by (fold q; lia); ring].
      rewrite (Hk (Datatypes.S i)) by (cbn [length]; fold q; lia).
      replace (i + o + Datatypes.S (Datatypes.S q))%nat with (i + Datatypes.S (Datatypes.S q) + o)%nat by lia.
      rewrite (Hk (i + Datatypes.S (Datatypes.S q))%nat) by (cbn [length]; fold q; lia).
      f_equal. set (kk := k (i + Datatypes.S (Datatypes.S q))%nat). replace (w * (kk + sh) - (a + w * sh)) with (w * kk - a) by ring.
      replace (kk + sh - (k (Datatypes.S i) + sh)) with (kk - k (Datatypes.S i)) by ring. reflexivity.
Qed.

Lemma PS_shift k k' o sh p l d (P P' : nat -> R) u : (p <= l)%nat -> (d <= p)%nat ->
  (forall j, (l < j + p)%nat -> (j <= l + p)%nat -> kn k' (j + o) = kn k j + sh) ->
  (forall i, (l - p <= i <= l)%nat -> P' (i + o)%nat = P i) ->
  PS k' p (l + o) d P' (u + sh) = PS k p l d P u.
Proof.
  intros Hl Hd Hk HP. rewrite !PS_window by lia. apply sumn_ext. intros r Hr.
  replace (l + o - p + r)%nat with (l - p + r + o)%nat by lia. rewrite HP by lia.
  rewrite <- (NH_shift (kn k) (kn k') o sh l (repeat (1, 0) d ++ repeat (u, 1) (p - d)) (l - p + r)).
  - rewrite map_app. do 4 f_equal.
    + clear. induction d as [|d IH]; [reflexivity|]. cbn [repeat map fst snd]. rewrite <- IH. f_equal. f_equal. ring.
    + generalize (p - d)%nat. intros m. clear. induction m as [|m IH]; [reflexivity|]. cbn [repeat map fst snd]. rewrite <- IH. f_equal. f_equal. ring.
  - intros j H1 H2. rewrite app_length, !repeat_length in *. apply Hk; lia.
Qed.

Section Join.
Variables (k1 k2 : list R) (n1 n2 p : nat).
Hypothesis K1 : knots_ok k1 n1 p.
Hypothesis K2 : knots_ok k2 n2 p.
Hypothesis Hp : (1 <= p)%nat.
Hypothesis E1 : end_clamped k1 n1 p.
Hypothesis S2 : forall i, (i <= p)%nat -> kn k2 i = kn k2 0.
Let sh := kn k1 n1 - kn k2 0.
Let n := (n1 + n2 - 1)%nat.
Definition joined : list R := removelast k1 ++ skipn (p + 1) (map (fun x => x + kn k1 n1 - kn k2 0) k2).

Lemma joined_len : length joined = (n + p + 1)%nat.
Proof.
  destruct K1 as (L1 & H1 & _). destruct K2 as (L2 & H2 & _). unfold joined, n.
  rewrite app_length, length_removelast, skipn_length, map_length, L1, L2. lia.
Qed.
Lemma joined_1 i : (i < n1 + p)%nat -> kn joined i = kn k1 i.
Proof.
  intros Hi. destruct K1 as (L1 & H1 & _). unfold joined, kn. rewrite app_nth1 by (rewrite length_removelast, L1; lia).
  apply nth_removelast. lia.
Qed.
Lemma joined_2 j : (1 <= j <= n2 + p)%nat -> kn joined (j + (n1 - 1)) = kn k2 j + sh.
Proof.
  intros Hj. pose proof K1 as (L1 & H1 & _). pose proof K2 as (L2 & H2 & _). destruct (le_lt_dec j p) as [H|H].
  - rewrite joined_1 by lia. rewrite E1 by lia. rewrite S2 by lia. unfold sh. ring.
  - unfold joined, kn. rewrite app_nth2 by (rewrite length_removelast, L1; lia). rewrite length_removelast, L1.
    assert (LF : length (firstn (p + 1) k2) = (p + 1)%nat) by (rewrite firstn_length; lia).
    assert (X : nth j k2 0 = nth (j - (p + 1)) (skipn (p + 1) k2) 0).
    { rewrite <- (firstn_skipn (p + 1) k2) at 1. rewrite app_nth2 by lia. rewrite LF. reflexivity. }
    rewrite X, skipn_map.
    set (f := fun x => _). rewrite (nth_indep _ 0 (f 0)) by (rewrite map_length, skipn_length, L2; lia). rewrite map_nth.
    replace (j + (n1 - 1) - (n1 + p + 1 - 1))%nat with (j - (p + 1))%nat by lia.
    unfold f, sh, kn. ring.
Qed.

Lemma joined_ok : knots_ok joined n p.
Proof.
  pose proof K1 as (L1 & H1 & N1 & Z1). pose proof K2 as (L2 & H2 & N2 & Z2).
  split; [exact joined_len|]. split; [unfold n; lia|]. split.
  - intros i j Hij Hj. rewrite joined_len in Hj. unfold n in Hj.
    destruct (le_lt_dec (n1 + p) j) as [G|G].
    + replace j with (j - (n1 - 1) + (n1 - 1))%nat by lia. rewrite joined_2 by lia.
      destruct (le_lt_dec (n1 + p) i) as [F|F].
      * replace i with (i - (n1 - 1) + (n1 - 1))%nat by lia. rewrite joined_2 by lia.
        apply Rplus_le_compat_r. apply N2; lia.
      * rewrite joined_1 by lia. assert (kn k1 i <= kn k1 n1).
        { rewrite <- (E1 (n1 + p)%nat) by lia. apply N1; lia. }
        assert (kn k2 0 <= kn k2 (j - (n1 - 1))) by (apply N2; lia). unfold sh. lra.
    + rewrite !joined_1 by lia. apply N1; lia.
  - unfold n. replace (n1 + n2 - 1 - 1)%nat with (n2 - 1 + (n1 - 1))%nat by lia.
    replace (n1 + n2 - 1)%nat with (n2 + (n1 - 1))%nat by lia. rewrite !joined_2 by lia. lra.
Qed.
Lemma joined_dom : kn joined p = kn k1 p /\ kn joined n = kn k2 n2 + sh.
Proof.
  pose proof K1 as (L1 & H1 & _). pose proof K2 as (L2 & H2 & _). split; [apply joined_1; lia|].
  unfold n. replace (n1 + n2 - 1)%nat with (n2 + (n1 - 1))%nat by lia. apply joined_2. lia.
Qed.

Variables (P P1 P2 : nat -> R).
Hypothesis Q1 : forall i, (i < n1)%nat -> P i = P1 i.
Hypothesis Q2 : forall i, (i < n2)%nat -> P (i + (n1 - 1))%nat = P2 i.

Lemma joined_first x d : (d <= p)%nat -> kn k1 p <= x < kn k1 n1 -> CV joined n p d P x = CV k1 n1 p d P1 x.
Proof.
  intros Hd Hx. pose proof K1 as (L1 & H1 & N1 & Z1). pose proof K2 as (L2 & H2 & _).
  destruct (span_at_ex 0 n1 p x k1 K1) as (l & Hl & Sx & Hlt); [lra|].
  assert (Hsp : kn k1 l <= x < kn k1 (S l)).
  { destruct Sx as [H|[H _]]; [exact H|lra]. }
  rewrite (CV_at k1 n1 p d P1 x l); auto.
  rewrite (CV_at joined n p d P x l); auto.
  - replace l with (l + 0)%nat at 1 by lia. replace x with (x + 0) at 1 by ring. apply PS_shift; auto; [lia| |].
    + intros j _ Hj. rewrite Nat.add_0_r, joined_1 by lia. ring.
    + intros i Hi. rewrite Nat.add_0_r. apply Q1. lia.
  - exact joined_ok.
  - unfold n. lia.
  - left. rewrite !joined_1 by lia. exact Hsp.
Qed.

Lemma joined_second x d : (d <= p)%nat -> kn k2 p <= x <= kn k2 n2 -> CV joined n p d P (x + sh) = CV k2 n2 p d P2 x.
Proof.
  intros Hd Hx. pose proof K1 as (L1 & H1 & N1 & Z1). pose proof K2 as (L2 & H2 & N2 & Z2).
  destruct (span_at_ex 0 n2 p x k2 K2 Hx) as (l & Hl & Sx & Hlt).
  assert (J : forall j, (1 <= j <= n2 + p)%nat -> kn joined (j + (n1 - 1)) = kn k2 j + sh) by exact joined_2.
  rewrite (CV_at k2 n2 p d P2 x l); auto.
  rewrite (CV_at joined n p d P (x + sh) (l + (n1 - 1))); auto.
  - apply PS_shift; auto; [lia| |].
    + intros j H3 H4. apply J. lia.
    + intros i Hi. apply Q2. lia.
  - exact joined_ok.
  - unfold n. lia.
  - unfold span_at, n in *. destruct Sx as [H|[H El]].
    + left. change (S (l + (n1 - 1))) with (S l + (n1 - 1))%nat. rewrite !J by lia. lra.
    + right. replace (n1 + n2 - 1)%nat with (n2 + (n1 - 1))%nat by lia. rewrite J by lia. split; [lra|lia].
Qed.
End Join.
