(** Transfer of polynomial pieces between knot vectors through blossoms. *)
From Coq Require Import List Arith ZArith Reals Lia Lra Permutation.
From Verif Require Import Model_Base Spec_Base Spec_Basis Spec_Eval Model_Basis
  Proof_Base Proof_Blossom Proof_Basis Proof_Ders Proof_Eval Proof_PropBasis.
Import ListNotations.
Local Open Scope R_scope.

Lemma kargs_app k i a b : kargs k i (a + b) = kargs k i a ++ kargs k (i + a) b.
Proof.
  unfold kargs. rewrite seq_app, map_app. do 2 f_equal.
Qed.

Lemma kargs_shift k1 k2 i j q :
  (forall x, (1 <= x <= q)%nat -> k1 (i + x)%nat = k2 (j + x)%nat) -> kargs k1 i q = kargs k2 j q.
Proof.
  revert i j; induction q as [|q IH]; intros i j E; [reflexivity|].
  rewrite !kargs_S. f_equal.
  - specialize (E 1%nat ltac:(lia)). rewrite !Nat.add_1_r in E. rewrite E. reflexivity.
  - apply IH. intros x Hx. specialize (E (S x) ltac:(lia)). rewrite !Nat.add_succ_r in E. exact E.
Qed.

Lemma kargs_const k i q u :
  (forall x, (1 <= x <= q)%nat -> k (i + x)%nat = u) -> kargs k i q = repeat (u, 1) q.
Proof.
  revert i; induction q as [|q IH]; intros i E; [reflexivity|].
  rewrite kargs_S. cbn [repeat]. f_equal.
  - specialize (E 1%nat ltac:(lia)). rewrite Nat.add_1_r in E. rewrite E. reflexivity.
  - apply IH. intros x Hx. specialize (E (S x) ltac:(lia)). rewrite Nat.add_succ_r in E. exact E.
Qed.

Lemma knots_mono k n p : knots_ok k n p ->
  forall i j, (i <= j)%nat -> (j <= n + p)%nat -> kn k i <= kn k j.
Proof. intros (Hl & _ & Hs & _) i j Hij Hj. apply Hs; lia. Qed.

(** The blossom of the piece of span [l]. *)
Definition blo (k : nat -> R) (l : nat) (P : nat -> R) (args : list (R * R)) : R :=
  sumn (S l) (fun i => NH k l args i * P i).

Lemma blo_symml k n p l P : knots_ok k n p -> (p <= l < n)%nat -> kn k l < kn k (S l) ->
  symml p (blo (kn k) l P).
Proof.
  intros Hk Hl Hs. unfold blo. apply (NH_symml (kn k) l (n + p)); auto; try lia.
  apply (knots_mono k n p Hk).
Qed.

Lemma blo_dual k n p l P j : knots_ok k n p -> (p <= l < n)%nat -> kn k l < kn k (S l) ->
  (j <= l)%nat -> (l <= j + p)%nat -> blo (kn k) l P (kargs (kn k) j p) = P j.
Proof.
  intros Hk Hl Hs H1 H2. unfold blo. apply (NH_dual_sum (kn k) l (n + p)); auto; try lia.
  apply (knots_mono k n p Hk).
Qed.

(** Poles that are the blossom of the old piece at the new knots give the same piece. *)
Lemma PS_transfer k n k' n' p l l' P P' d u :
  knots_ok k n p -> knots_ok k' n' p -> (p <= l < n)%nat -> (p <= l' < n')%nat ->
  kn k l < kn k (S l) -> kn k' l' < kn k' (S l') -> (d <= p)%nat ->
  (forall j, (l' - p <= j <= l')%nat -> P' j = blo (kn k) l P (kargs (kn k') j p)) ->
  PS k' p l' d P' u = PS k p l d P u.
Proof.
  intros Hk Hk' Hl Hl' Hs Hs' Hd HP.
  set (args := repeat (1, 0) d ++ repeat (u, 1) (p - d)).
  assert (La : length args = p) by (unfold args; rewrite app_length, !repeat_length; lia).
  unfold PS. fold args.
  transitivity (ffall p d * sumn (S l') (fun i => NH (kn k') l' args i * blo (kn k) l P (kargs (kn k') i p))).
  - rewrite <- sumn_scal. apply sumn_ext. intros i Hi.
    destruct (Nat.le_gt_cases (l' - p) i).
    + rewrite HP by lia. ring.
    + rewrite (NH_out (kn k') l' args i) by (rewrite La; lia). ring.
  - rewrite (NH_repro (kn k') l' (n' + p) (knots_mono k' n' p Hk') Hs'
               (blo (kn k) l P) p args (blo_symml k n p l P Hk Hl Hs) La) by lia.
    unfold blo. rewrite <- sumn_scal. apply sumn_ext. intros; ring.
Qed.

(** Same curve: every parameter lies in a pair of spans with the same piece. *)
Lemma same_curve eps k n k' n' p poles poles' x d :
  knots_ok k n p -> knots_ok k' n' p -> length poles = n -> length poles' = n' ->
  evaluable eps k n p -> evaluable eps k' n' p ->
  (exists l l', (p <= l < n)%nat /\ (p <= l' < n')%nat /\ span_at k n x l /\ span_at k' n' x l' /\
     kn k l < kn k (S l) /\ kn k' l' < kn k' (S l') /\
     forall c j, (l' - p <= j <= l')%nat ->
       pole poles' c j = blo (kn k) l (pole poles c) (kargs (kn k') j p)) ->
  exists q q', @eval_value R (NumR eps) x k poles p d = Ok q /\
    @eval_value R (NumR eps) x k' poles' p d = Ok q' /\ forall c, q' c = q c.
Proof.
  intros Hk Hk' Hn Hn' He He' (l & l' & Hl & Hl' & Sx & Sx' & Hs & Hs' & HP).
  destruct (Nat.le_gt_cases d p) as [Hd|Hd].
  - destruct (eval_value_span eps k n p poles x d l Hk Hn Hl Sx Hd) as (q & Eq & Vq).
    { exact He. }
    destruct (eval_value_span eps k' n' p poles' x d l' Hk' Hn' Hl' Sx' Hd) as (q' & Eq' & Vq').
    { exact He'. }
    exists q, q'. repeat split; auto. intros c. rewrite Vq, Vq'.
    apply (PS_transfer k n k' n'); auto.
  - exists (fun _ => 0), (fun _ => 0). rewrite !eval_value_high by lia. auto.
Qed.
