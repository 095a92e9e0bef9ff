(** Blossoms of neighbouring pieces agree on arguments holding the common knot. *)
From Coq Require Import List Arith ZArith Reals Lia Lra Permutation.
From Verif Require Import Model_Base Spec_Base Spec_Basis Spec_Eval Model_Basis
  Proof_Base Proof_Blossom Proof_Basis Proof_Ders Proof_Eval Proof_PropBasis Proof_Refine.
Import ListNotations.
Local Open Scope R_scope.

(** Fixing some arguments of a symmetric multilinear form. *)
Lemma symml_fix p q f pre : symml p f -> (length pre + q)%nat = p -> symml q (fun a => f (pre ++ a)).
Proof.
  intros (Hp & Hl) HL. split.
  - intros a b Ha Hab. apply Hp; [rewrite app_length; lia|]. apply Permutation_app_head; auto.
  - intros c d x y r Hr.
    assert (E : forall z, f (pre ++ z :: r) = f (z :: pre ++ r)).
    { intros z. apply Hp; [rewrite app_length; simpl; lia|]. symmetry; apply Permutation_middle. }
    rewrite !E. apply Hl. rewrite app_length. lia.
Qed.

(** k without its entries of index l2+1 .. l2+mu. *)
Definition skipk (k : nat -> R) (l2 mu x : nat) : R := if (x <=? l2)%nat then k x else k (x + mu)%nat.

(** Two forms agreeing on the knot windows that contain k_{l2+1} .. k_{l2+mu} = u agree
    whenever u occurs mu times among the arguments. *)
Lemma forms_agree k l2 mu M p f g u rest :
  (forall i j, (i <= j)%nat -> (j <= M)%nat -> k i <= k j) ->
  symml p f -> symml p g ->
  (forall x, (1 <= x <= mu)%nat -> k (l2 + x)%nat = u) -> k l2 < k (l2 + mu + 1)%nat ->
  (mu <= p)%nat -> (p <= l2 + mu)%nat -> (l2 + p + 1 <= M)%nat -> (l2 + mu + 1 <= M)%nat ->
  (forall j, (l2 + mu - p <= j <= l2)%nat -> f (kargs k j p) = g (kargs k j p)) ->
  length rest = (p - mu)%nat ->
  f (repeat (u, 1) mu ++ rest) = g (repeat (u, 1) mu ++ rest).
Proof.
  intros mono Hf Hg Hu Hspan Hmu Hp HM HM2 Hag Hrest.
  set (k2 := skipk k l2 mu). set (q := (p - mu)%nat).
  assert (mono2 : forall i j, (i <= j)%nat -> (j <= M - mu)%nat -> k2 i <= k2 j).
  { intros i j Hij Hj. unfold k2, skipk. destruct (Nat.leb_spec i l2), (Nat.leb_spec j l2); try lia; apply mono; lia. }
  assert (Hs2 : k2 l2 < k2 (S l2)).
  { unfold k2, skipk. destruct (Nat.leb_spec l2 l2); [|lia]. destruct (Nat.leb_spec (S l2) l2); [lia|].
    replace (S l2 + mu)%nat with (l2 + mu + 1)%nat by lia. auto. }
  assert (Hwin : forall h, symml p h -> forall i, (l2 + mu - p <= i <= l2)%nat ->
            h (repeat (u, 1) mu ++ kargs k2 i q) = h (kargs k i p)).
  { intros h (Hh & _) i Hi. apply Hh.
    - rewrite app_length, repeat_length, kargs_length. unfold q; lia.
    - replace (kargs k i p) with (kargs k i ((l2 - i) + (mu + (q - (l2 - i))))) by (f_equal; unfold q; lia).
      rewrite !kargs_app. rewrite (kargs_const k (i + (l2 - i)) mu u).
      2: { intros x Hx. replace (i + (l2 - i) + x)%nat with (l2 + x)%nat by lia. auto. }
      replace (kargs k2 i q) with (kargs k2 i ((l2 - i) + (q - (l2 - i)))) by (f_equal; unfold q; lia).
      rewrite kargs_app.
      rewrite (kargs_shift k2 k i i (l2 - i)).
      2: { intros x Hx. unfold k2, skipk. destruct (Nat.leb_spec (i + x) l2); [auto|lia]. }
      rewrite (kargs_shift k2 k (i + (l2 - i)) (i + (l2 - i) + mu) (q - (l2 - i))).
      2: { intros x Hx. unfold k2, skipk. destruct (Nat.leb_spec (i + (l2 - i) + x) l2); [lia|]. f_equal; lia. }
      rewrite !app_assoc. apply Permutation_app_tail. apply Permutation_app_comm. }
  assert (Hrep : forall h, symml p h -> h (repeat (u, 1) mu ++ rest) =
            sumn (S l2) (fun i => NH k2 l2 rest i * h (repeat (u, 1) mu ++ kargs k2 i q))).
  { intros h Hh. symmetry.
    apply (NH_repro k2 l2 (M - mu) mono2 Hs2 (fun a => h (repeat (u, 1) mu ++ a)) q rest).
    - apply (symml_fix p q); auto. rewrite repeat_length. unfold q; lia.
    - exact Hrest.
    - unfold q; lia.
    - unfold q; lia. }
  rewrite (Hrep f Hf), (Hrep g Hg). apply sumn_ext. intros i Hi.
  destruct (Nat.le_gt_cases (l2 + mu - p) i) as [Hi2|Hi2].
  - rewrite (Hwin f Hf), (Hwin g Hg) by lia. rewrite Hag by lia. reflexivity.
  - rewrite (NH_out k2 l2 rest i) by (rewrite Hrest; lia). ring.
Qed.

(** Blossoms of two pieces separated by one knot. *)
Lemma blo_agree k n p l2 l P u rest :
  knots_ok k n p -> (p <= l2)%nat -> (l2 <= l)%nat -> (l < n)%nat ->
  kn k l2 < kn k (S l2) -> kn k l < kn k (S l) ->
  (forall x, (l2 < x <= l)%nat -> kn k x = u) -> (l - l2 <= p)%nat ->
  length rest = (p - (l - l2))%nat ->
  blo (kn k) l P (repeat (u, 1) (l - l2) ++ rest) = blo (kn k) l2 P (repeat (u, 1) (l - l2) ++ rest).
Proof.
  intros Hk H1 H2 H3 Hs2 Hs Hu Hmu Hr.
  pose proof (knots_mono k n p Hk) as mono.
  apply (forms_agree (kn k) l2 (l - l2) (n + p) p); auto; try lia.
  - apply (blo_symml k n p); auto; lia.
  - apply (blo_symml k n p); auto; lia.
  - intros x Hx. apply Hu. lia.
  - apply Rlt_le_trans with (kn k (S l2)); auto. apply mono; lia.
  - intros j Hj. rewrite !(blo_dual k n p) by (auto; lia). reflexivity.
Qed.

Lemma PS0_blo k p l P x : PS k p l 0 P x = blo (kn k) l P (repeat (x, 1) p).
Proof.
  unfold PS, blo. apply sumn_ext. intros i Hi. cbn [repeat app ffall]. rewrite Nat.sub_0_r. ring.
Qed.

(** Continuity: at a knot of multiplicity at most p both pieces give the same point. *)
Lemma PS_continuous k n p l2 l P u :
  knots_ok k n p -> (p <= l2)%nat -> (l2 <= l)%nat -> (l < n)%nat ->
  kn k l2 < kn k (S l2) -> kn k l < kn k (S l) ->
  (forall x, (l2 < x <= l)%nat -> kn k x = u) -> (l - l2 <= p)%nat ->
  PS k p l 0 P u = PS k p l2 0 P u.
Proof.
  intros Hk H1 H2 H3 Hs2 Hs Hu Hmu. rewrite !PS0_blo.
  replace (repeat (u, 1) p) with (repeat (u, 1) (l - l2) ++ repeat (u, 1) (p - (l - l2))).
  2: { rewrite <- repeat_app. f_equal. lia. }
  apply (blo_agree k n p); auto. apply repeat_length.
Qed.
