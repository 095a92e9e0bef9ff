(** Blending forms under affine maps of the knots, orientation kept or reversed. *)
From Coq Require Import List Arith Reals Lia Lra.
From Verif Require Import Model_Base Spec_Base Spec_Basis Proof_Base Proof_Blossom
  Proof_Basis Proof_Ders Proof_Eval.
Import ListNotations.
Local Open Scope R_scope.

Lemma map_repeat' {A B} (f : A -> B) a n : map f (repeat a n) = repeat (f a) n.
Proof. induction n; simpl; congruence. Qed.

Lemma NH_aff k k' alpha beta l args : alpha <> 0 ->
  forall i, (forall j, (j <= i + S (length args))%nat -> k' j = alpha * k j + beta) ->
  NH k' l (map (fun x => (alpha * fst x + beta * snd x, snd x)) args) i = NH k l args i.
Proof.
  intros Ha. induction args as [|[a w] rest IH]; intros i Hk; [reflexivity|].
  cbn [map NH fst snd]. rewrite map_length. cbn [length] in Hk.
  rewrite !IH by (intros j Hj; apply Hk; lia). rewrite !Hk by lia.
  assert (E : forall x y z, (alpha * x) / (alpha * y - alpha * z) = x / (y - z)).
  { intros x y z. rewrite <- Rmult_minus_distr_l. unfold Rdiv. rewrite Rinv_mult.
    replace (alpha * x * (/ alpha * / (y - z))) with (alpha * / alpha * (x * / (y - z))) by ring.
    rewrite Rinv_r by auto. ring. }
  f_equal; f_equal.
  - etransitivity; [|apply E]. f_equal; ring.
  - etransitivity; [|apply E]. f_equal; ring.
Qed.

Lemma NH_scal_dirs k l alpha d rest : forall i,
  NH k l (repeat (alpha, 0) d ++ rest) i = alpha ^ d * NH k l (repeat (1, 0) d ++ rest) i.
Proof.
  induction d as [|d IH]; intros i; cbn [repeat app pow]; [ring|].
  cbn [NH]. rewrite !app_length, !repeat_length, !IH. unfold Rdiv. ring.
Qed.

Lemma NH_aff_dirs k k' alpha beta l x d q i : alpha <> 0 ->
  (forall j, (j <= i + S (d + q))%nat -> k' j = alpha * k j + beta) ->
  alpha ^ d * NH k' l (repeat (1, 0) d ++ repeat (alpha * x + beta, 1) q) i
  = NH k l (repeat (1, 0) d ++ repeat (x, 1) q) i.
Proof.
  intros Ha Hk. rewrite <- NH_scal_dirs.
  rewrite <- (NH_aff k k' alpha beta l) by (auto; rewrite app_length, !repeat_length; exact Hk).
  rewrite map_app, !map_repeat'. cbn [fst snd].
  rewrite !Rmult_1_r, !Rmult_0_r, !Rplus_0_r. reflexivity.
Qed.

(** Orientation reversed: k'_j = beta - k_{M-j}. *)
Lemma NH_rev k k' beta M l args : (l < M)%nat ->
  forall i, (i + S (length args) <= M)%nat ->
  (forall j, (j <= M)%nat -> k' j = beta - k (M - j)%nat) ->
  NH k' (M - 1 - l) (map (fun x => (beta * snd x - fst x, snd x)) args) i
  = NH k l args (M - 1 - length args - i).
Proof.
  intros Hl. induction args as [|[a w] rest IH]; intros i Hi Hk.
  - cbn [map NH length]. destruct (Nat.eqb_spec i (M - 1 - l)); destruct (Nat.eqb_spec (M - 1 - 0 - i) l);
      auto; simpl in Hi; lia.
  - cbn [map NH fst snd]. rewrite map_length. cbn [length] in Hi |- *.
    rewrite (IH i), (IH (S i)) by (auto; lia).
    set (q := length rest) in *.
    rewrite !Hk by lia.
    replace (M - (i + S q))%nat with (S (M - 1 - S q - i)) by lia.
    replace (M - i)%nat with (M - 1 - S q - i + S (S q))%nat by lia.
    replace (M - (i + S (S q)))%nat with (M - 1 - S q - i)%nat by lia.
    replace (M - S i)%nat with (M - 1 - S q - i + S q)%nat by lia.
    replace (M - 1 - q - i)%nat with (S (M - 1 - S q - i)) by lia.
    replace (M - 1 - q - S i)%nat with (M - 1 - S q - i)%nat by lia.
    set (ii := (M - 1 - S q - i)%nat).
    rewrite Rplus_comm. f_equal; f_equal; f_equal; ring.
Qed.

Lemma NH_rev_dirs k k' beta M l x d q i : (l < M)%nat -> (i + S (d + q) <= M)%nat ->
  (forall j, (j <= M)%nat -> k' j = beta - k (M - j)%nat) ->
  NH k' (M - 1 - l) (repeat (1, 0) d ++ repeat (beta - x, 1) q) i
  = (-1) ^ d * NH k l (repeat (1, 0) d ++ repeat (x, 1) q) (M - 1 - (d + q) - i).
Proof.
  intros Hl Hi Hk.
  assert (E : NH k' (M - 1 - l) (repeat (-1, 0) d ++ repeat (beta - x, 1) q) i
     = NH k l (repeat (1, 0) d ++ repeat (x, 1) q) (M - 1 - (d + q) - i)).
  { replace (d + q)%nat with (length (repeat (1, 0) d ++ repeat (x, 1) q))
      by (rewrite app_length, !repeat_length; reflexivity).
    rewrite <- (NH_rev k k' beta M l) by (auto; rewrite app_length, !repeat_length; auto).
    rewrite map_app, !map_repeat'. cbn [fst snd]. repeat f_equal; ring. }
  rewrite NH_scal_dirs in E. rewrite <- E.
  rewrite <- Rmult_assoc, <- Rpow_mult_distr. replace (-1 * -1) with 1 by ring. rewrite pow1. ring.
Qed.

Lemma PS_aff k k' alpha beta p l d P x : alpha <> 0 -> (d <= p)%nat ->
  (forall j, (j <= l + p + 1)%nat -> kn k' j = alpha * kn k j + beta) ->
  alpha ^ d * PS k' p l d P (alpha * x + beta) = PS k p l d P x.
Proof.
  intros Ha Hd Hk. unfold PS. rewrite <- sumn_scal. apply sumn_ext. intros i Hi.
  rewrite <- (NH_aff_dirs (kn k) (kn k') alpha beta l x d (p - d) i) by (auto; intros j Hj; apply Hk; lia). ring.
Qed.

Lemma PS_window k p l d P x : (p <= l)%nat -> (d <= p)%nat ->
  PS k p l d P x = sumn (p + 1) (fun r => ffall p d * NH (kn k) l (repeat (1, 0) d ++ repeat (x, 1) (p - d)) (l - p + r)
     * P (l - p + r)%nat).
Proof.
  intros Hp Hd. unfold PS. apply (window_sum l p (fun i => ffall p d * NH (kn k) l
    (repeat (1, 0) d ++ repeat (x, 1) (p - d)) i * P i)); [lia|].
  intros i Hi. rewrite NH_out; [ring|]. rewrite app_length, !repeat_length. lia.
Qed.

Lemma PS_rev k k' beta n p l d P P' x : (p <= l < n)%nat -> (d <= p)%nat ->
  (forall j, (j <= n + p)%nat -> kn k' j = beta - kn k (n + p - j)) ->
  (forall j, (j < n)%nat -> P' j = P (n - 1 - j)%nat) ->
  PS k' p (n + p - 1 - l) d P' (beta - x) = (-1) ^ d * PS k p l d P x.
Proof.
  intros Hl Hd Hk HP. rewrite !PS_window by lia. rewrite <- sumn_scal.
  rewrite (sumn_rev (p + 1)). apply sumn_ext. intros r Hr. cbv beta.
  rewrite HP by lia.
  rewrite (NH_rev_dirs (kn k) (kn k') beta (n + p) l) by (auto; lia).
  replace (d + (p - d))%nat with p by lia.
  replace (n + p - 1 - p - (n + p - 1 - l - p + (p + 1 - 1 - r)))%nat with (l - p + r)%nat by lia.
  replace (n - 1 - (n + p - 1 - l - p + (p + 1 - 1 - r)))%nat with (l - p + r)%nat by lia. ring.
Qed.
