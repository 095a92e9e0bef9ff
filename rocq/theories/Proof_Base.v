(** Lemmas about the vocabulary of Model_Base and Spec_Base. *)
From Coq Require Import List Arith ZArith Reals Lia Lra Bool.
From Verif Require Import Model_Base Spec_Base.
Import ListNotations.

Lemma bind_ok {A B} (m : result A) (f : A -> result B) a b :
  m = Ok a -> f a = b -> bind m f = b.
Proof. intros -> H; exact H. Qed.

Lemma bind_inv {A B} (m : result A) (f : A -> result B) b :
  bind m f = Ok b -> exists a, m = Ok a /\ f a = Ok b.
Proof. destruct m; simpl; intros H; try discriminate; eauto. Qed.

(** ** Vectors *)
Lemma upd_length {A} (l : list A) i a : length (upd l i a) = length l.
Proof. revert i; induction l as [|h t IH]; intros [|i]; simpl; auto. Qed.

Lemma get_some {A} (l : list A) i a : get l i = Ok a <-> nth_error l i = Some a.
Proof. unfold get; destruct (nth_error l i); split; congruence. Qed.

Lemma get_lt {A} (l : list A) i a : get l i = Ok a -> i < length l.
Proof. rewrite get_some; intros H; apply nth_error_Some; congruence. Qed.

Lemma get_nth {A} (l : list A) i d : i < length l -> get l i = Ok (nth i l d).
Proof. intros H; rewrite get_some; apply nth_error_nth'; exact H. Qed.

Lemma get_ok_nth {A} (l : list A) i a d : get l i = Ok a -> nth i l d = a.
Proof. rewrite get_some; intros H; apply nth_error_nth; exact H. Qed.

Lemma get_ge {A} (l : list A) i : length l <= i -> get l i = Undef BadIndex.
Proof. intros H; unfold get; rewrite (proj2 (nth_error_None l i) H); reflexivity. Qed.

Lemma nth_error_upd {A} (l : list A) i j a :
  nth_error (upd l i a) j =
  if (i =? j) && (i <? length l) then Some a else nth_error l j.
Proof.
  revert i j; induction l as [|h t IH]; intros [|i] [|j]; simpl; auto.
  - rewrite andb_false_r; reflexivity.
  - rewrite IH; reflexivity.
Qed.

Lemma get_upd_same {A} (l : list A) i a : i < length l -> get (upd l i a) i = Ok a.
Proof.
  intros H; rewrite get_some, nth_error_upd, Nat.eqb_refl.
  apply Nat.ltb_lt in H; rewrite H; reflexivity.
Qed.

Lemma get_upd_other {A} (l : list A) i j a : i <> j -> get (upd l i a) j = get l j.
Proof.
  intros H; unfold get; rewrite nth_error_upd.
  apply Nat.eqb_neq in H; rewrite H; reflexivity.
Qed.

Lemma set_ok {A} (l : list A) i a : i < length l -> set l i a = Ok (upd l i a).
Proof. intros H; unfold set; apply Nat.ltb_lt in H; rewrite H; reflexivity. Qed.

Lemma set_inv {A} (l : list A) i a l' : set l i a = Ok l' -> i < length l /\ l' = upd l i a.
Proof.
  unfold set; destruct (Nat.ltb_spec i (length l)); intros H'; inversion H'; auto.
Qed.

Lemma nth_upd {A} (l : list A) i j a d :
  nth j (upd l i a) d = if (i =? j) && (i <? length l) then a else nth j l d.
Proof.
  revert i j; induction l as [|h t IH]; intros [|i] [|j]; simpl; auto.
  - rewrite andb_false_r; reflexivity.
  - apply IH.
Qed.

Lemma filled_length {A} n (a : A) : length (filled n a) = n.
Proof. apply repeat_length. Qed.

Lemma subi_ok a b : b <= a -> subi a b = Ok (a - b).
Proof. intros H; unfold subi; apply Nat.leb_le in H; rewrite H; reflexivity. Qed.

Lemma list_ext_get {A} (l1 l2 : list A) :
  length l1 = length l2 -> (forall i, i < length l1 -> get l1 i = get l2 i) -> l1 = l2.
Proof.
  revert l2; induction l1 as [|a t IH]; intros [|b u] Hl H; simpl in *; try lia; auto.
  f_equal.
  - specialize (H 0 ltac:(lia)); unfold get in H; simpl in H; congruence.
  - apply IH; [lia|]. intros i Hi. specialize (H (S i) ltac:(lia)).
    unfold get in *; simpl in H; exact H.
Qed.

(** ** Loops *)
Lemma for_inv {St : Type} (P : nat -> St -> Prop) body lo n st :
  P lo st ->
  (forall i s, lo <= i < lo + n -> P i s -> exists s', body i s = Ok s' /\ P (S i) s') ->
  exists s', for_ lo n body st = Ok s' /\ P (lo + n) s'.
Proof.
  revert lo st; induction n as [|n IH]; intros lo st H0 Hs; simpl.
  - rewrite Nat.add_0_r; eauto.
  - destruct (Hs lo st ltac:(lia) H0) as (s1 & E & H1).
    rewrite E; simpl.
    destruct (IH (S lo) s1 H1) as (s2 & E2 & H2).
    + intros i s Hi; apply Hs; lia.
    + exists s2; split; [exact E2|]. replace (lo + S n) with (S lo + n) by lia; exact H2.
Qed.

Lemma for_ext {St} lo n (b1 b2 : nat -> St -> result St) st :
  (forall i s, lo <= i < lo + n -> b1 i s = b2 i s) -> for_ lo n b1 st = for_ lo n b2 st.
Proof.
  revert lo st; induction n as [|n IH]; intros lo st H; simpl; auto.
  rewrite H by lia. destruct (b2 lo st); simpl; auto. apply IH; intros; apply H; lia.
Qed.

Lemma for_app {St} lo n m (b : nat -> St -> result St) st :
  for_ lo (n + m) b st = (let* s := for_ lo n b st in for_ (lo + n) m b s).
Proof.
  revert lo st; induction n as [|n IH]; intros lo st; simpl.
  - rewrite Nat.add_0_r; reflexivity.
  - destruct (b lo st); simpl; auto. rewrite IH.
    replace (lo + S n) with (S lo + n) by lia; reflexivity.
Qed.

Lemma forp_inv {St : Type} (P : nat -> St -> Prop) body lo n st :
  P lo st -> (forall i s, lo <= i < lo + n -> P i s -> P (S i) (body i s)) ->
  P (lo + n) (forp lo n body st).
Proof.
  revert lo st; induction n as [|n IH]; intros lo st H0 Hs; simpl.
  - rewrite Nat.add_0_r; exact H0.
  - replace (lo + S n) with (S lo + n) by lia. apply IH.
    + apply Hs; [lia|exact H0].
    + intros i s Hi; apply Hs; lia.
Qed.

Lemma mapM_ok {A B} (f : A -> result B) (g : A -> B) l :
  (forall a, In a l -> f a = Ok (g a)) -> mapM f l = Ok (map g l).
Proof.
  induction l as [|a t IH]; simpl; intros H; auto.
  rewrite (H a (or_introl eq_refl)); simpl. rewrite IH by auto; reflexivity.
Qed.

Lemma mapM_get {A B} (f : A -> result B) l l' :
  mapM f l = Ok l' -> length l' = length l /\
  forall i a, nth_error l i = Some a -> exists b, nth_error l' i = Some b /\ f a = Ok b.
Proof.
  revert l'; induction l as [|a t IH]; simpl; intros l' H.
  - inversion H; subst; split; auto. intros [|i] a; discriminate.
  - apply bind_inv in H as (b & Hb & H). apply bind_inv in H as (bs & Hbs & H).
    inversion H; subst; clear H. destruct (IH _ Hbs) as (Hl & Hn). split; simpl; auto.
    intros [|i] x Hx; simpl in *; [inversion Hx; subst; eauto | eauto].
Qed.

(** ** Scalars at R *)
Lemma Rltb_true a b : Rltb a b = true <-> (a < b)%R.
Proof. unfold Rltb; destruct (Rlt_dec a b); split; intros; auto; discriminate. Qed.
Lemma Rltb_false a b : Rltb a b = false <-> (b <= a)%R.
Proof. unfold Rltb; destruct (Rlt_dec a b); split; intros; auto; try discriminate; lra. Qed.
Lemma Rleb_true a b : Rleb a b = true <-> (a <= b)%R.
Proof. unfold Rleb; destruct (Rle_dec a b); split; intros; auto; discriminate. Qed.
Lemma Rleb_false a b : Rleb a b = false <-> (b < a)%R.
Proof. unfold Rleb; destruct (Rle_dec a b); split; intros; auto; try discriminate; lra. Qed.

Lemma Rltb_spec a b : BoolSpec (a < b)%R (b <= a)%R (Rltb a b).
Proof. unfold Rltb; destruct (Rlt_dec a b); constructor; lra. Qed.
Lemma Rleb_spec a b : BoolSpec (a <= b)%R (b < a)%R (Rleb a b).
Proof. unfold Rleb; destruct (Rle_dec a b); constructor; lra. Qed.

Ltac nsimp := cbn [n0 n1 nadd nsub nmul ndiv nopp nltb nleb neps NumR] in *.

Section AtR.
  Variable eps : R.
  Local Existing Instance NumR.
  Notation NR := (NumR eps).

  Lemma neqb_R a b : @neqb R NR a b = true <-> a = b.
  Proof.
    unfold neqb; nsimp; rewrite andb_true_iff, !Rleb_true. split; intros; lra.
  Qed.
  Lemma neqb_R_false a b : @neqb R NR a b = false <-> a <> b.
  Proof.
    rewrite <- (neqb_R a b). destruct (@neqb R NR a b); split; congruence.
  Qed.
  Lemma nabs_R a : @nabs R NR a = Rabs a.
  Proof.
    unfold nabs; nsimp. destruct (Rltb_spec a 0).
    - rewrite Rabs_left; lra.
    - rewrite Rabs_right; lra.
  Qed.
  Lemma nofnat_R n : @nofnat R NR n = INR n.
  Proof.
    induction n as [|n IH]; [reflexivity|]. cbn [nofnat]; rewrite IH; nsimp.
    rewrite S_INR; reflexivity.
  Qed.
  Lemma divc_ok a b : b <> 0%R -> @divc R NR a b = Ok (a / b)%R.
  Proof.
    intros H; unfold divc; nsimp. apply neqb_R_false in H; rewrite H; reflexivity.
  Qed.
  Lemma divc_zero a : @divc R NR a 0%R = Undef DivByZero.
  Proof.
    unfold divc; nsimp. replace (@neqb R NR 0%R 0%R) with true; auto.
    symmetry; apply neqb_R; reflexivity.
  Qed.
End AtR.

(** ** Sums *)
Local Open Scope R_scope.

Lemma sumn_ext n f g : (forall i, (i < n)%nat -> f i = g i) -> sumn n f = sumn n g.
Proof.
  induction n as [|n IH]; simpl; intros H; auto. rewrite IH, H by auto; reflexivity.
Qed.
Lemma sumn_plus n f g : sumn n (fun i => f i + g i) = sumn n f + sumn n g.
Proof. induction n as [|n IH]; simpl; [lra|rewrite IH; lra]. Qed.
Lemma sumn_minus n f g : sumn n (fun i => f i - g i) = sumn n f - sumn n g.
Proof. induction n as [|n IH]; simpl; [lra|rewrite IH; lra]. Qed.
Lemma sumn_scal n c f : sumn n (fun i => c * f i) = c * sumn n f.
Proof. induction n as [|n IH]; simpl; [lra|rewrite IH; lra]. Qed.
Lemma sumn_zero n f : (forall i, (i < n)%nat -> f i = 0) -> sumn n f = 0.
Proof. induction n as [|n IH]; simpl; intros H; auto. rewrite IH, H by auto; lra. Qed.
Lemma sumn_app n m f : sumn (n + m) f = sumn n f + sumn m (fun i => f (n + i)%nat).
Proof.
  induction m as [|m IH]; simpl.
  - rewrite Nat.add_0_r; lra.
  - rewrite Nat.add_succ_r; simpl; rewrite IH; lra.
Qed.
Lemma sumn_shift n f : sumn (S n) f = f 0%nat + sumn n (fun i => f (S i)).
Proof. induction n as [|n IH]; simpl in *; [lra|]. rewrite IH; lra. Qed.
Lemma sumn_le n f g : (forall i, (i < n)%nat -> f i <= g i) -> sumn n f <= sumn n g.
Proof.
  induction n as [|n IH]; simpl; intros H; [lra|].
  assert (sumn n f <= sumn n g) by (apply IH; auto). specialize (H n (Nat.lt_succ_diag_r n)); lra.
Qed.
Lemma sumn_nonneg n f : (forall i, (i < n)%nat -> 0 <= f i) -> 0 <= sumn n f.
Proof.
  intros H. replace 0 with (sumn n (fun _ => 0)) by (apply sumn_zero; auto). apply sumn_le; auto.
Qed.
Lemma sumn_single n f j :
  (j < n)%nat -> (forall i, (i < n)%nat -> i <> j -> f i = 0) -> sumn n f = f j.
Proof.
  induction n as [|n IH]; simpl; intros Hj H; [lia|].
  destruct (Nat.eq_dec j n) as [->|Hne].
  - rewrite sumn_zero; [lra|]. intros i Hi; apply H; lia.
  - rewrite IH by (try lia; intros; apply H; lia). rewrite (H n) by lia; lra.
Qed.
(** The sum restricted to a window outside which the terms vanish. *)
Lemma sumn_window n lo m f :
  (lo + m <= n)%nat -> (forall i, (i < n)%nat -> (i < lo \/ lo + m <= i)%nat -> f i = 0) ->
  sumn n f = sumn m (fun r => f (lo + r)%nat).
Proof.
  intros Hle H. replace n with (lo + (m + (n - lo - m)))%nat by lia.
  rewrite !sumn_app. rewrite (sumn_zero lo) by (intros; apply H; lia).
  rewrite (sumn_zero (n - lo - m)) by (intros; apply H; lia). lra.
Qed.
Lemma sumn_swap n m f :
  sumn n (fun i => sumn m (fun j => f i j)) = sumn m (fun j => sumn n (fun i => f i j)).
Proof.
  induction n as [|n IH]; simpl.
  - symmetry; apply sumn_zero; auto.
  - rewrite IH, sumn_plus; reflexivity.
Qed.
Lemma sumn_rev n f : sumn n f = sumn n (fun i => f (n - 1 - i)%nat).
Proof.
  induction n as [|n IH]; [reflexivity|].
  rewrite sumn_shift. cbn [sumn]. replace (S n - 1 - n)%nat with 0%nat by lia.
  rewrite Rplus_comm. f_equal.
  rewrite (sumn_ext n (fun i => f (S n - 1 - i)%nat) (fun i => f (S (n - 1 - i)%nat)))
    by (intros; f_equal; lia).
  clear IH. revert f. induction n as [|n IH]; intros f; [reflexivity|].
  rewrite sumn_shift. cbn [sumn]. replace (S n - 1 - n)%nat with 0%nat by lia.
  rewrite (IH (fun i => f (S i))). rewrite Rplus_comm. f_equal.
  apply sumn_ext; intros; f_equal; lia.
Qed.
Lemma sumn_const n c : sumn n (fun _ => c) = INR n * c.
Proof. induction n as [|n IH]; [simpl; lra|]. rewrite S_INR. cbn [sumn]. rewrite IH; lra. Qed.

Lemma get_kn k i : (i < length k)%nat -> get k i = Ok (kn k i).
Proof. intros H; apply get_nth; exact H. Qed.

(** ** Stack arrays *)
Lemma uninit_length {A} n : length (@uninit A n) = n.
Proof. apply repeat_length. Qed.
Lemma seti_ok {A} (l : list (option A)) i a :
  (i < length l)%nat -> seti l i a = Ok (upd l i (Some a)).
Proof. apply set_ok. Qed.
Lemma geti_upd_same {A} (l : list (option A)) i a :
  (i < length l)%nat -> geti (upd l i (Some a)) i = Ok a.
Proof.
  intros H; unfold geti; rewrite nth_error_upd, Nat.eqb_refl.
  apply Nat.ltb_lt in H; rewrite H; reflexivity.
Qed.
Lemma geti_upd_other {A} (l : list (option A)) i j x :
  i <> j -> geti (upd l i x) j = geti l j.
Proof.
  intros H; unfold geti; rewrite nth_error_upd.
  apply Nat.eqb_neq in H; rewrite H; reflexivity.
Qed.
Lemma getz_nat {A} (l : list (option A)) z n : z = Z.of_nat n -> getz l z = geti l n.
Proof.
  intros ->. unfold getz. destruct (Z.ltb_spec (Z.of_nat n) 0); [lia|].
  rewrite Nat2Z.id; reflexivity.
Qed.
Lemma read_cells_ok {A} m (l : list (option A)) f :
  (forall i, (i < m)%nat -> geti l i = Ok (f i)) -> mapM (geti l) (seq 0 m) = Ok (map f (seq 0 m)).
Proof.
  intros H. apply mapM_ok. intros i Hi; apply in_seq in Hi. apply H; lia.
Qed.
Lemma get_map_seq {A} (f : nat -> A) m i : (i < m)%nat -> get (map f (seq 0 m)) i = Ok (f i).
Proof.
  intros H. rewrite get_some. rewrite nth_error_map.
  rewrite (nth_error_nth' _ 0%nat) by (rewrite seq_length; exact H).
  simpl. rewrite seq_nth by exact H. reflexivity.
Qed.

(** Checking [nondecreasing] on literals. *)
Fixpoint adjacent_le (k : list R) : Prop :=
  match k with a :: ((b :: _) as t) => a <= b /\ adjacent_le t | _ => True end.
Lemma adjacent_nondecreasing k : adjacent_le k -> nondecreasing k.
Proof.
  intros H i j Hij Hj. revert i Hij. induction j as [|j IH]; intros i Hij.
  - replace i with 0%nat by lia. lra.
  - destruct (Nat.eq_dec i (S j)) as [->|]; [lra|].
    apply Rle_trans with (kn k j); [apply IH; lia|].
    clear -H Hj. revert j Hj. induction k as [|a [|b t] IHk]; intros j Hj; simpl in Hj; try lia.
    destruct H as [H1 H2]. destruct j as [|j]; [exact H1|].
    apply (IHk H2 j). simpl; lia.
Qed.
