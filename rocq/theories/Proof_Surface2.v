(** Partial derivatives and derivative tables of surfaces. *)
From Coq Require Import List Arith ZArith Reals Lia Lra Bool.
From Verif Require Import Model_Base Model_Basis Model_Rational Model_Surface Spec_Base Spec_Basis Spec_Eval Spec_Rational
  Spec_Surface Proof_Base Proof_Blossom Proof_Basis Proof_Ders Proof_Eval Proof_PropBasis Proof_Rational Proof_Quotient
  Proof_Surface.
Import ListNotations.
Local Open Scope R_scope.

(** ** Tables *)
Definition cell (nv : nat) (S : list (pt R)) (k l : nat) : pt R := nth (k * (nv + 1) + l) S (fun _ => 0).

Lemma cell_inj nv k l k' l' : (l <= nv)%nat -> (l' <= nv)%nat ->
  (k * (nv + 1) + l = k' * (nv + 1) + l')%nat -> k = k' /\ l = l'.
Proof. intros. assert (k = k') by nia. subst. lia. Qed.

Lemma table_loop (Q : nat -> nat -> pt R -> Prop) nu nv nu' nv' body S0 :
  (nu' <= nu + 1)%nat -> (nv' <= nv + 1)%nat -> length S0 = ((nu + 1) * (nv + 1))%nat ->
  (forall k l S, (k < nu')%nat -> (l < nv')%nat -> length S = ((nu + 1) * (nv + 1))%nat ->
     (forall k' l', (k' < nu')%nat -> (l' < nv')%nat -> (k' < k \/ k' = k /\ l' < l)%nat -> Q k' l' (cell nv S k' l')) ->
     cell nv S k l = cell nv S0 k l ->
     exists z, body k l S = Ok (upd S (k * (nv + 1) + l) z) /\ Q k l z) ->
  exists S', for_ 0 nu' (fun k S => for_ 0 nv' (body k) S) S0 = Ok S' /\ length S' = ((nu + 1) * (nv + 1))%nat /\
    (forall k l, (k < nu')%nat -> (l < nv')%nat -> Q k l (cell nv S' k l)) /\
    (forall k l, (k <= nu)%nat -> (l <= nv)%nat -> (nu' <= k \/ nv' <= l)%nat -> cell nv S' k l = cell nv S0 k l).
Proof.
  intros Hu Hv L0 Hb.
  assert (Hidx : forall k l, (k <= nu)%nat -> (l <= nv)%nat -> (k * (nv + 1) + l < (nu + 1) * (nv + 1))%nat) by (intros; nia).
  assert (Hupd : forall S k l z k' l', length S = ((nu + 1) * (nv + 1))%nat -> (k <= nu)%nat -> (l <= nv)%nat -> (l' <= nv)%nat ->
     cell nv (upd S (k * (nv + 1) + l) z) k' l' = if ((k =? k') && (l =? l'))%nat then z else cell nv S k' l').
  { intros S k l z k' l' LS Hk Hl Hl'. unfold cell. rewrite nth_upd. specialize (Hidx k l Hk Hl). rewrite LS.
    destruct (Nat.ltb_spec (k * (nv + 1) + l) ((nu + 1) * (nv + 1))); [|lia]. rewrite andb_true_r.
    destruct (Nat.eqb_spec k k') as [->|], (Nat.eqb_spec l l') as [->|]; cbn [andb].
    - rewrite Nat.eqb_refl. reflexivity.
    - destruct (Nat.eqb_spec (k' * (nv + 1) + l) (k' * (nv + 1) + l')); [lia|reflexivity].
    - destruct (Nat.eqb_spec (k * (nv + 1) + l') (k' * (nv + 1) + l')) as [E|]; [|reflexivity].
      apply cell_inj in E; [lia|lia|lia].
    - destruct (Nat.eqb_spec (k * (nv + 1) + l) (k' * (nv + 1) + l')) as [E|]; [|reflexivity].
      apply cell_inj in E; lia. }
  destruct (for_inv (fun k S => length S = ((nu + 1) * (nv + 1))%nat /\
     (forall k' l', (k' < k)%nat -> (l' < nv')%nat -> Q k' l' (cell nv S k' l')) /\
     (forall k' l', (k' <= nu)%nat -> (l' <= nv)%nat -> (k <= k' \/ nv' <= l')%nat -> cell nv S k' l' = cell nv S0 k' l'))
    (fun k S => for_ 0 nv' (body k) S) 0 nu' S0) as (S' & E & L' & V1 & V2).
  - split; [exact L0|]. split; [intros; lia|reflexivity].
  - intros k S Hk (LS & V1 & V2).
    destruct (for_inv (fun l S => length S = ((nu + 1) * (nv + 1))%nat /\
     (forall k' l', (k' < nu')%nat -> (l' < nv')%nat -> (k' < k \/ k' = k /\ l' < l)%nat -> Q k' l' (cell nv S k' l')) /\
     (forall k' l', (k' <= nu)%nat -> (l' <= nv)%nat -> (k < k' \/ k' = k /\ l <= l' \/ nv' <= l')%nat -> cell nv S k' l' = cell nv S0 k' l'))
     (body k) 0 nv' S) as (S1 & E1 & L1 & W1 & W2).
    + split; [exact LS|]. split; [intros; apply V1; lia|intros; apply V2; lia].
    + intros l S1 Hl (L1 & W1 & W2). destruct (Hb k l S1 ltac:(lia) ltac:(lia) L1) as (z & E & Qz).
      { intros; apply W1; lia. } { apply W2; lia. }
      eexists; split; [exact E|]. rewrite upd_length. split; [exact L1|]. split.
      * intros k' l' Hk' Hl' Hlt. rewrite Hupd by lia.
        destruct (Nat.eqb_spec k k') as [<-|], (Nat.eqb_spec l l') as [<-|]; cbn [andb]; auto; apply W1; lia.
      * intros k' l' Hk' Hl' Hlt. rewrite Hupd by lia.
        destruct (Nat.eqb_spec k k') as [<-|], (Nat.eqb_spec l l') as [<-|]; cbn [andb]; try lia; apply W2; lia.
    + exists S1. split; [exact E1|]. split; [exact L1|]. split; [intros; apply W1; lia|intros; apply W2; lia].
  - exists S'. auto.
Qed.

(** ** The two-dimensional quotient rule *)
Fixpoint rq2f (f : nat) (A W : nat -> nat -> R) (k l : nat) : R :=
  match f with
  | O => 0
  | S f => (A k l
      - sumn l (fun j => INR (binom l (S j)) * W 0%nat (S j) * rq2f f A W k (l - 1 - j))
      - sumn k (fun i => INR (binom k (S i)) * W (S i) 0%nat * rq2f f A W (k - 1 - i) l
          + INR (binom k (S i)) * sumn l (fun j => INR (binom l (S j)) * W (S i) (S j) * rq2f f A W (k - 1 - i) (l - 1 - j))))
     / W 0%nat 0%nat
  end.
Definition rq2 (A W : nat -> nat -> R) (k l : nat) : R := rq2f (S (k + l)) A W k l.

Lemma rq2f_indep A W : forall s k l f, (k + l = s)%nat -> (s < f)%nat -> rq2f f A W k l = rq2 A W k l.
Proof.
  induction s as [s IH] using lt_wf_ind. intros k l [|f] Hs Hf; [lia|]. unfold rq2. cbn [rq2f]. f_equal. f_equal; [f_equal|].
  - apply sumn_ext. intros j Hj. f_equal. rewrite !(IH (k + (l - 1 - j))%nat) by lia. reflexivity.
  - apply sumn_ext. intros i Hi. f_equal; f_equal.
    + rewrite !(IH (k - 1 - i + l)%nat) by lia. reflexivity.
    + apply sumn_ext. intros j Hj. f_equal. rewrite !(IH (k - 1 - i + (l - 1 - j))%nat) by lia. reflexivity.
Qed.
Lemma rq2_eq A W k l : rq2 A W k l = (A k l
      - sumn l (fun j => INR (binom l (S j)) * W 0%nat (S j) * rq2 A W k (l - 1 - j))
      - sumn k (fun i => INR (binom k (S i)) * W (S i) 0%nat * rq2 A W (k - 1 - i) l
          + INR (binom k (S i)) * sumn l (fun j => INR (binom l (S j)) * W (S i) (S j) * rq2 A W (k - 1 - i) (l - 1 - j))))
     / W 0%nat 0%nat.
Proof.
  unfold rq2 at 1. cbn [rq2f]. f_equal. f_equal; [f_equal|].
  - apply sumn_ext. intros j Hj. f_equal. apply (rq2f_indep A W (k + (l - 1 - j))); lia.
  - apply sumn_ext. intros i Hi. f_equal; f_equal.
    + apply (rq2f_indep A W (k - 1 - i + l)); lia.
    + apply sumn_ext. intros j Hj. f_equal. apply (rq2f_indep A W (k - 1 - i + (l - 1 - j))); lia.
Qed.
Lemma rq2_ext A A' W W' : forall s k l, (k + l = s)%nat ->
  (forall i j, (i <= k)%nat -> (j <= l)%nat -> A i j = A' i j) ->
  (forall i j, (i <= k)%nat -> (j <= l)%nat -> W i j = W' i j) -> rq2 A W k l = rq2 A' W' k l.
Proof.
  induction s as [s IH] using lt_wf_ind. intros k l Hs HA HW. rewrite !rq2_eq.
  rewrite HA, (HW 0%nat 0%nat) by lia. f_equal. f_equal; [f_equal|].
  - apply sumn_ext. intros j Hj. rewrite HW by lia. f_equal.
    apply (IH (k + (l - 1 - j))%nat); [lia|lia| |]; intros; [apply HA|apply HW]; lia.
  - apply sumn_ext. intros i Hi. rewrite (HW (S i) 0%nat) by lia. f_equal; f_equal.
    + apply (IH (k - 1 - i + l)%nat); [lia|lia| |]; intros; [apply HA|apply HW]; lia.
    + apply sumn_ext. intros j Hj. rewrite HW by lia. f_equal.
      apply (IH (k - 1 - i + (l - 1 - j))%nat); [lia|lia| |]; intros; [apply HA|apply HW]; lia.
Qed.
Lemma rq2_transpose A W : forall s k l, (k + l = s)%nat ->
  rq2 A W k l = rq2 (fun i j => A j i) (fun i j => W j i) l k.
Proof.
  induction s as [s IH] using lt_wf_ind. intros k l Hs. rewrite !rq2_eq. f_equal.
  rewrite !sumn_plus.
  rewrite (sumn_ext l (fun j => INR (binom l (S j)) * W 0%nat (S j) * rq2 A W k (l - 1 - j))
    (fun j => INR (binom l (S j)) * W 0%nat (S j) * rq2 (fun i j => A j i) (fun i j => W j i) (l - 1 - j) k))
    by (intros j Hj; rewrite (IH (k + (l - 1 - j))%nat) by lia; reflexivity).
  rewrite (sumn_ext k (fun i => INR (binom k (S i)) * W (S i) 0%nat * rq2 A W (k - 1 - i) l)
    (fun i => INR (binom k (S i)) * W (S i) 0%nat * rq2 (fun i j => A j i) (fun i j => W j i) l (k - 1 - i)))
    by (intros j Hj; rewrite (IH (k - 1 - j + l)%nat) by lia; reflexivity).
  assert (X : sumn k (fun i => INR (binom k (S i)) * sumn l (fun j => INR (binom l (S j)) * W (S i) (S j) * rq2 A W (k - 1 - i) (l - 1 - j)))
    = sumn l (fun i => INR (binom l (S i)) * sumn k (fun j => INR (binom k (S j)) * W (S j) (S i) *
        rq2 (fun i j => A j i) (fun i j => W j i) (l - 1 - i) (k - 1 - j)))).
  { rewrite (sumn_ext k _ (fun i => sumn l (fun j => INR (binom k (S i)) * (INR (binom l (S j)) * W (S i) (S j) * rq2 A W (k - 1 - i) (l - 1 - j)))))
      by (intros; rewrite sumn_scal; reflexivity).
    rewrite sumn_swap. apply sumn_ext; intros j Hj. rewrite <- sumn_scal. apply sumn_ext; intros i Hi.
    rewrite (IH (k - 1 - i + (l - 1 - j))%nat) by lia. ring. }
  rewrite X. ring.
Qed.

(** Leibniz *)
Definition leib (F G : nat -> R) (k : nat) : R := sumn (S k) (fun i => INR (binom k i) * F i * G (k - i)%nat).
Lemma leib_D (F G : nat -> R -> R) (D : R -> Prop) x :
  (forall i, D_in (F i) (F (S i)) D x) -> (forall i, D_in (G i) (G (S i)) D x) ->
  forall k, D_in (fun y => leib (fun i => F i y) (fun i => G i y) k) (fun y => leib (fun i => F i y) (fun i => G i y) (S k)) D x.
Proof.
  intros HF HG k.
  assert (X : D_in (fun y => leib (fun i => F i y) (fun i => G i y) k)
    (fun y => sumn (S k) (fun i => INR (binom k i) * (F (S i) y * G (k - i)%nat y + F i y * G (S (k - i)) y))) D x).
  { apply (D_in_sumn (S k) (fun i y => INR (binom k i) * F i y * G (k - i)%nat y)
      (fun i y => INR (binom k i) * (F (S i) y * G (k - i)%nat y + F i y * G (S (k - i)) y))).
    intros i Hi. pose proof (Dmult D _ _ _ _ x (HF i) (HG (k - i)%nat)) as M.
    pose proof (Dmult D _ _ _ _ x (Dconst D (INR (binom k i)) x) M) as M2.
    eapply D_in_ext; [| | |exact M2]; cbn beta; intros; ring. }
  eapply D_in_ext; [| | |exact X]; auto. cbn beta. unfold leib.
  rewrite (sumn_shift (S k) (fun i => INR (binom (S k) i) * F i x * G (S k - i)%nat x)).
  rewrite (sumn_ext (S k) (fun i => INR (binom (S k) (S i)) * F (S i) x * G (S k - S i)%nat x)
    (fun i => INR (binom k i) * F (S i) x * G (k - i)%nat x + INR (binom k (S i)) * F (S i) x * G (k - i)%nat x)).
  2:{ intros i Hi. cbn [binom]. rewrite plus_INR. replace (S k - S i)%nat with (k - i)%nat by lia. ring. }
  rewrite sumn_plus.
  rewrite (sumn_ext (S k) (fun i => INR (binom k i) * (F (S i) x * G (k - i)%nat x + F i x * G (S (k - i)) x))
    (fun i => INR (binom k i) * F (S i) x * G (k - i)%nat x + INR (binom k i) * F i x * G (S (k - i)) x)) by (intros; ring).
  rewrite sumn_plus.
  assert (Y : sumn (S k) (fun i => INR (binom k i) * F i x * G (S (k - i)) x) =
     INR (binom (S k) 0) * F 0%nat x * G (S k - 0)%nat x + sumn (S k) (fun i => INR (binom k (S i)) * F (S i) x * G (k - i)%nat x)).
  { rewrite sumn_shift. rewrite !binom_0, !Nat.sub_0_r. f_equal.
    cbn [sumn]. rewrite (binom_gt k (S k)) by lia. cbn [INR].
    rewrite (sumn_ext k (fun i => INR (binom k (S i)) * F (S i) x * G (S (k - S i)) x)
      (fun i => INR (binom k (S i)) * F (S i) x * G (k - i)%nat x)) by (intros i Hi; replace (S (k - S i)) with (k - i)%nat by lia; reflexivity).
    ring. }
  rewrite Y. ring.
Qed.

(** For fixed l, [rq2] is a one-dimensional quotient. *)
Definition B2 (A W : nat -> nat -> R) (l k : nat) : R :=
  A k l - sumn l (fun j => INR (binom l (S j)) * leib (fun i => W i (S j)) (fun i => rq2 A W i (l - 1 - j)) k).
Lemma rq2_rq A W l k : rq2 A W k l = rq (B2 A W l) (fun i => W i 0%nat) k.
Proof.
  induction k as [k IH] using lt_wf_ind. rewrite rq_eq, rq2_eq. f_equal. unfold B2.
  rewrite sumn_plus.
  assert (X : sumn l (fun j => INR (binom l (S j)) * leib (fun i => W i (S j)) (fun i => rq2 A W i (l - 1 - j)) k) =
    sumn l (fun j => INR (binom l (S j)) * W 0%nat (S j) * rq2 A W k (l - 1 - j)) +
    sumn k (fun i => INR (binom k (S i)) * sumn l (fun j => INR (binom l (S j)) * W (S i) (S j) * rq2 A W (k - 1 - i) (l - 1 - j)))).
  { rewrite (sumn_ext k _ (fun i => sumn l (fun j => INR (binom k (S i)) * (INR (binom l (S j)) * W (S i) (S j) * rq2 A W (k - 1 - i) (l - 1 - j)))))
      by (intros; rewrite sumn_scal; reflexivity).
    rewrite sumn_swap, <- sumn_plus. apply sumn_ext; intros j Hj. unfold leib. rewrite sumn_shift, binom_0, Nat.sub_0_r.
    rewrite (sumn_ext k (fun i => INR (binom k (S i)) * (INR (binom l (S j)) * W (S i) (S j) * rq2 A W (k - 1 - i) (l - 1 - j)))
      (fun i => INR (binom l (S j)) * (INR (binom k (S i)) * W (S i) (S j) * rq2 A W (k - S i) (l - 1 - j)))).
    2:{ intros i Hi. replace (k - S i)%nat with (k - 1 - i)%nat by lia. ring. }
    rewrite sumn_scal. cbn [INR]. ring. }
  rewrite X.
  rewrite (sumn_ext k (fun i => INR (binom k (S i)) * W (S i) 0%nat * rq2 A W (k - 1 - i) l)
    (fun i => INR (binom k (S i)) * W (S i) 0%nat * rq (B2 A W l) (fun i => W i 0%nat) (k - 1 - i)))
    by (intros i Hi; rewrite IH by lia; reflexivity).
  unfold B2. ring.
Qed.

Lemma rq2_D_in (A W : nat -> nat -> R -> R) (D : R -> Prop) x :
  (forall k l, D_in (A k l) (A (S k) l) D x) -> (forall k l, D_in (W k l) (W (S k) l) D x) ->
  W 0%nat 0%nat x <> 0 -> (forall y, D y -> W 0%nat 0%nat y <> 0) ->
  forall l k, D_in (fun y => rq2 (fun i j => A i j y) (fun i j => W i j y) k l)
                   (fun y => rq2 (fun i j => A i j y) (fun i j => W i j y) (S k) l) D x.
Proof.
  intros HA HW Hx HD. induction l as [l IH] using lt_wf_ind. intros k.
  set (B := fun k y => B2 (fun i j => A i j y) (fun i j => W i j y) l k).
  assert (HB : forall k, D_in (B k) (B (S k)) D x).
  { intros k0. unfold B, B2. apply Dminus; [apply HA|].
    apply (D_in_sumn l (fun j y => INR (binom l (S j)) * leib (fun i => W i (S j) y) (fun i => rq2 (fun i j => A i j y) (fun i j => W i j y) i (l - 1 - j)) k0)
      (fun j y => INR (binom l (S j)) * leib (fun i => W i (S j) y) (fun i => rq2 (fun i j => A i j y) (fun i j => W i j y) i (l - 1 - j)) (S k0))).
    intros j Hj.
    pose proof (leib_D (fun i y => W i (S j) y) (fun i y => rq2 (fun i j => A i j y) (fun i j => W i j y) i (l - 1 - j)) D x
      (fun i => HW i (S j)) (fun i => IH (l - 1 - j)%nat ltac:(lia) i) k0) as M.
    pose proof (Dmult D _ _ _ _ x (Dconst D (INR (binom l (S j))) x) M) as M2.
    eapply D_in_ext; [| | |exact M2]; cbn beta; intros; ring. }
  pose proof (rq_D_in B (fun i => W i 0%nat) D x HB (fun d => HW d 0%nat) Hx HD k) as F.
  eapply D_in_ext; [| | |exact F]; cbn beta; intros; rewrite rq2_rq; reflexivity.
Qed.
