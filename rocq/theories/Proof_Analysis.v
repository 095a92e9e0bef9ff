(** Lemmas on the sampling of curves, part 1: the recursion (C84). *)
From Coq Require Import List Arith ZArith Reals Lia Lra Bool Permutation.
From Verif Require Import Model_Base Model_Vec Model_Math Model_Wrap Model_Analysis Spec_Base Spec_Build Spec_Analysis
  Proof_Base Proof_Build.
Import ListNotations.
Local Open Scope R_scope.

(** ** Chains of neighbours *)
Fixpoint linked (P : R -> R -> Prop) (a : R) (l : list R) : Prop :=
  match l with [] => True | b :: t => P a b /\ linked P b t end.

Lemma linked_app P a l m r : linked P a (l ++ [m]) -> linked P m r -> linked P a (l ++ m :: r).
Proof.
  revert a. induction l as [|b t IH]; cbn [app linked]; intros a H Hr.
  - destruct H as (H & _). auto.
  - destruct H as (H & Ht). split; auto.
Qed.
Lemma linked_weaken (P Q : R -> R -> Prop) a l : (forall x y, P x y -> Q x y) -> linked P a l -> linked Q a l.
Proof. intros H. revert a. induction l as [|b t IH]; cbn [linked]; intros a Hl; [trivial|]. destruct Hl. split; auto. Qed.
Lemma linked_adjacent P a l x y : linked P a l -> adjacent (a :: l) x y -> P x y.
Proof.
  intros H (l1 & l2 & E). revert a l H E. induction l1 as [|z l1 IH]; intros a l H E; cbn [app] in E; injection E as <- El.
  - subst l. destruct H; auto.
  - destruct l as [|b t]; [destruct l1; discriminate|]. destruct H as (_ & H). apply (IH b t H El).
Qed.
Lemma linked_le_bound a l x : linked Rle a l -> In x l -> a <= x.
Proof.
  revert a. induction l as [|b t IH]; cbn [linked In]; intros a H Hx; [tauto|].
  destruct H as (H & Ht). destruct Hx as [<-|Hx]; [exact H|]. specialize (IH b Ht Hx). lra.
Qed.
Lemma linked_le_last a l b : linked Rle a (l ++ [b]) -> forall x, In x (a :: l) -> x <= b.
Proof.
  revert a. induction l as [|c t IH]; cbn [app linked]; intros a H x Hx.
  - destruct Hx as [<-|[]]. tauto.
  - destruct H as (H & Ht). destruct Hx as [<-|Hx]; [|apply (IH c Ht); exact Hx].
    specialize (IH c Ht c (or_introl eq_refl)). lra.
Qed.

(** ** The test *)
Section AtR.
Variable eps : R.
Local Hint Extern 0 (Num R) => exact (NumR eps) : typeclass_instances.

Lemma cross_norm_R dim (a b : pt R) : (dim = 2 \/ dim = 3)%nat ->
  cross_norm sqrt dim a b = sqrt (sqlen dim a * sqlen dim b - (dot dim a b) ^ 2).
Proof.
  intros [-> | ->]; cbn [cross_norm]; nsimp.
  - f_equal. cbn [sqlen dot]. nsimp. ring.
  - rewrite (norm_R eps). f_equal. cbn [sqlen dot cross]. nsimp. ring.
Qed.

Lemma sqlen_minus dim (a b : pt R) t :
  sqlen dim (fun i => a i - t * b i) = sqlen dim a - 2 * t * dot dim a b + t ^ 2 * sqlen dim b.
Proof. induction dim as [|m IH]; cbn [sqlen dot]; nsimp; [ring|]. rewrite IH. nsimp. ring. Qed.

Lemma neqb_true (a b : R) : neqb a b = true <-> a = b.
Proof. rewrite (neqb_R eps). destruct (Req_EM_T a b); split; congruence. Qed.

Lemma bends_false dim dev (p m q : pt R) : (dim = 2 \/ dim = 3)%nat -> 0 <= dev -> bends sqrt dim dev p m q = false ->
  (forall i, (i < dim)%nat -> p i = q i) \/
  exists t, sqlen dim (fun i => m i - (p i + t * (q i - p i))) <= dev * dev * sqlen dim (fun i => m i - p i).
Proof.
  intros Hd Hv. unfold bends. rewrite !(norm_R eps), (cross_norm_R dim _ _ Hd). nsimp.
  change (psub m p) with (fun i => m i - p i). change (psub q p) with (fun i => q i - p i).
  set (v1 := fun i => m i - p i). set (v2 := fun i => q i - p i).
  pose proof (sqlen_nonneg dim v1) as HA. pose proof (sqlen_nonneg dim v2) as HB.
  assert (Ext : forall t, sqlen dim (fun i => m i - (p i + t * (q i - p i))) = sqlen dim (fun i => v1 i - t * v2 i)).
  { intros t. apply sqlen_ext. intros i _. unfold v1, v2. ring. }
  destruct (Req_dec (sqlen dim v2) 0) as [HB0|HB0].
  { intros _. left. intros i Hi. pose proof (sqlen_zero dim v2 HB0 i Hi) as E. unfold v2 in E. lra. }
  destruct (Req_dec (sqlen dim v1) 0) as [HA0|HA0].
  { intros _. right. exists 0. rewrite Ext, sqlen_minus, HA0. lra. }
  assert (SA : 0 < sqrt (sqlen dim v1)) by (apply sqrt_lt_R0; lra).
  assert (SB : 0 < sqrt (sqlen dim v2)) by (apply sqrt_lt_R0; lra).
  assert (SAB : 0 < sqrt (sqlen dim v1) * sqrt (sqlen dim v2)) by (apply Rmult_lt_0_compat; auto).
  destruct (neqb _ _) eqn:E1; [apply neqb_true in E1; lra|].
  intros E. assert (Hle : sqrt (sqlen dim v1 * sqlen dim v2 - dot dim v1 v2 ^ 2) <= dev * (sqrt (sqlen dim v1) * sqrt (sqlen dim v2))).
  { apply Rltb_false in E. apply Rmult_le_compat_r with (r := sqrt (sqlen dim v1) * sqrt (sqlen dim v2)) in E; [|lra].
    unfold Rdiv in E. rewrite Rmult_assoc, Rinv_l, Rmult_1_r in E by lra. exact E. }
  right. exists (dot dim v1 v2 / sqlen dim v2). rewrite Ext, sqlen_minus.
  set (C := sqlen dim v1 * sqlen dim v2 - dot dim v1 v2 ^ 2) in *.
  assert (HC : C <= dev * dev * (sqlen dim v1 * sqlen dim v2)).
  { destruct (Rle_lt_dec C 0) as [Hn|Hp].
    - apply Rle_trans with 0; [exact Hn|]. repeat apply Rmult_le_pos; auto.
    - rewrite <- (sqrt_sqrt C) by lra.
      apply Rle_trans with ((dev * (sqrt (sqlen dim v1) * sqrt (sqlen dim v2))) * (dev * (sqrt (sqlen dim v1) * sqrt (sqlen dim v2)))).
      + apply Rmult_le_compat; auto using sqrt_pos.
      + apply Req_le. rewrite <- (sqrt_sqrt (sqlen dim v1)) at 3 by lra. rewrite <- (sqrt_sqrt (sqlen dim v2)) at 3 by lra. ring. }
  replace (sqlen dim v1 - 2 * (dot dim v1 v2 / sqlen dim v2) * dot dim v1 v2 + (dot dim v1 v2 / sqlen dim v2) ^ 2 * sqlen dim v2)
    with (C / sqlen dim v2) by (unfold C; field; auto).
  apply Rmult_le_reg_r with (sqlen dim v2); [lra|]. unfold Rdiv. rewrite Rmult_assoc, Rinv_l, Rmult_1_r by auto.
  rewrite Rmult_assoc. exact HC.
Qed.

Lemma dot_scal dim (d : pt R) s t (a b : pt R) : (forall i, (i < dim)%nat -> a i = s * d i) -> (forall i, (i < dim)%nat -> b i = t * d i) ->
  dot dim a b = s * t * sqlen dim d.
Proof.
  induction dim as [|m IH]; intros Ha Hb; cbn [dot sqlen]; nsimp; [ring|].
  rewrite IH, (Ha m), (Hb m) by auto. ring.
Qed.
Lemma bends_line dim dev (o d p m q : pt R) s t w : (dim = 2 \/ dim = 3)%nat -> 0 <= dev ->
  (forall i, (i < dim)%nat -> p i = o i + s * d i) -> (forall i, (i < dim)%nat -> m i = o i + t * d i) ->
  (forall i, (i < dim)%nat -> q i = o i + w * d i) -> bends sqrt dim dev p m q = false.
Proof.
  intros Hd Hv Hp Hm Hq. unfold bends. destruct (neqb _ _); [reflexivity|]. rewrite (cross_norm_R dim _ _ Hd).
  assert (E1 : forall i, (i < dim)%nat -> psub m p i = (t - s) * d i) by (intros i Hi; unfold psub; nsimp; rewrite Hp, Hm by auto; ring).
  assert (E2 : forall i, (i < dim)%nat -> psub q p i = (w - s) * d i) by (intros i Hi; unfold psub; nsimp; rewrite Hp, Hq by auto; ring).
  rewrite (sqlen_ext dim _ _ E1), (sqlen_ext dim _ _ E2), (dot_scal dim d _ _ _ _ E1 E2), !sqlen_scal.
  match goal with |- context [sqrt ?x] => replace x with 0 by ring end. rewrite sqrt_0. nsimp.
  unfold Rltb. destruct (Rlt_dec _ _) as [Hlt|]; [|reflexivity]. unfold Rdiv in Hlt. rewrite Rmult_0_l in Hlt. lra.
Qed.

(** ** The recursion *)
Variable dim : nat.
Hypothesis Hdim : (dim = 2 \/ dim = 3)%nat.
Variable f : R -> result (pt R).
Variable dev : R.
Hypothesis Hdev : 0 <= dev.

Lemma middle_R a b : middle a b = (a + b) / 2.
Proof. unfold middle. rewrite (nofnat_R eps). nsimp. simpl. field. Qed.

Definition close (guard : bool) (a b : R) : Prop := a <= b /\ ((guard = true /\ b - a <= eps) \/ near_chord dim dev f a b).

Lemma refine_inv guard fuel : forall a b l, a <= b -> refine_params sqrt fuel guard dim f dev a b = Ok l ->
  linked (close guard) a (l ++ [b]).
Proof.
  induction fuel as [|fuel IH]; intros a b l Hab; cbn [refine_params]; [discriminate|].
  destruct (guard && _) eqn:G.
  - intros [= <-]. cbn [app linked]. split; [|trivial]. split; [exact Hab|left].
    apply andb_prop in G as (-> & G). split; [reflexivity|]. apply negb_true_iff in G. nsimp. rewrite (nabs_R eps) in G.
    apply Rltb_false in G. rewrite Rabs_pos_eq in G by lra. lra.
  - rewrite middle_R. intros H. apply bind_inv in H as (m & Em & H). apply bind_inv in H as (p & Ep & H).
    apply bind_inv in H as (q & Eq & H). destruct (bends _ _ _ _ _ _) eqn:B.
    + apply bind_inv in H as (l1 & E1 & H). apply bind_inv in H as (l2 & E2 & H). injection H as <-.
      rewrite <- app_assoc. cbn [app]. apply linked_app; [apply IH with (2 := E1); lra|apply IH with (2 := E2); lra].
    + injection H as <-. cbn [app linked]. split; [|trivial]. split; [exact Hab|right].
      intros p' m' q' Hp Hm Hq. rewrite Ep in Hp. rewrite Em in Hm. rewrite Eq in Hq. injection Hp as <-. injection Hm as <-. injection Hq as <-.
      apply bends_false; auto.
Qed.

Lemma refine_mono guard fuel : forall fuel' a b l, (fuel <= fuel')%nat ->
  refine_params sqrt fuel guard dim f dev a b = Ok l -> refine_params sqrt fuel' guard dim f dev a b = Ok l.
Proof.
  induction fuel as [|fuel IH]; intros fuel' a b l Hf; cbn [refine_params]; [discriminate|].
  destruct fuel' as [|fuel']; [lia|]. cbn [refine_params]. destruct (guard && _); [auto|].
  intros H. apply bind_inv in H as (m & -> & H). apply bind_inv in H as (p & -> & H). apply bind_inv in H as (q & -> & H).
  cbn [bind]. destruct (bends _ _ _ _ _ _); [|exact H].
  apply bind_inv in H as (l1 & E1 & H). apply bind_inv in H as (l2 & E2 & H).
  rewrite (IH fuel' _ _ _ ltac:(lia) E1), (IH fuel' _ _ _ ltac:(lia) E2). exact H.
Qed.

Lemma refine_returns lo hi fuel : (forall u, lo <= u <= hi -> exists p, f u = Ok p) -> forall a b, lo <= a -> a <= b -> b <= hi ->
  b - a <= eps * 2 ^ fuel -> exists l, refine_params sqrt (S fuel) true dim f dev a b = Ok l.
Proof.
  intros Hf. induction fuel as [|fuel IH]; intros a b Ha Hab Hb Hw.
  - cbn [refine_params]. destruct (true && _) eqn:G; [eexists; reflexivity|].
    cbn [andb] in G. apply negb_false_iff in G. nsimp. rewrite (nabs_R eps) in G. apply Rltb_true in G.
    rewrite Rabs_pos_eq in G by lra. simpl in Hw. lra.
  - remember (S fuel) as k eqn:Ek. cbn [refine_params]. destruct (true && _) eqn:G; [eexists; reflexivity|]. rewrite middle_R.
    assert (Hw2 : b - a <= 2 * (eps * 2 ^ fuel)) by (rewrite Ek in Hw; simpl in Hw; lra).
    destruct (Hf ((a + b) / 2)) as (m & ->); [lra|]. destruct (Hf a) as (p & ->); [lra|]. destruct (Hf b) as (q & ->); [lra|].
    cbn [bind]. destruct (bends _ _ _ _ _ _); [|eexists; reflexivity].
    destruct (IH a ((a + b) / 2)) as (l1 & E1); try lra.
    destruct (IH ((a + b) / 2) b) as (l2 & E2); try lra.
    rewrite E1, E2. eexists; reflexivity.
Qed.

Lemma refine_all_inv guard fuel us : forall a l, linked Rle a us -> refine_all sqrt fuel guard dim f dev a us = Ok l ->
  exists t, l = a :: t /\ linked (close guard) a t /\ (forall x, In x (a :: us) -> In x l) /\ last l a = last (a :: us) a /\
    (length (a :: us) <= length l)%nat.
Proof.
  induction us as [|b us IH]; intros a l Hl H; cbn [refine_all] in H.
  - injection H as <-. exists []. cbn [linked last length]. repeat split; auto.
  - apply bind_inv in H as (l1 & E1 & H). apply bind_inv in H as (l2 & E2 & H). injection H as <-.
    destruct Hl as (Hab & Hl). destruct (IH b l2 Hl E2) as (t & -> & Ht & Hin & Hlast & Hlen).
    exists (l1 ++ b :: t). split; [reflexivity|]. split.
    { apply linked_app; auto. apply (refine_inv guard fuel a b l1 Hab E1). }
    split.
    { intros x [<-|Hx]; [left; reflexivity|]. right. apply in_app_iff. right. apply Hin. exact Hx. }
    split.
    { change (last (a :: l1 ++ b :: t) a) with (last ((a :: l1) ++ b :: t) a).
      assert (L1 : forall (x y : list R) d, y <> [] -> last (x ++ y) d = last y d).
      { intros x y d Hy. induction x as [|z x IHx]; [reflexivity|]. cbn [app]. destruct (x ++ y) eqn:E; [apply app_eq_nil in E; tauto|]. exact IHx. }
      rewrite L1 by discriminate.
      assert (L2 : forall (z : R) x d d', last (z :: x) d = last (z :: x) d').
      { intros z x. revert z. induction x as [|w x IHx]; intros z d d'; [reflexivity|]. cbn [last]. apply IHx. }
      rewrite (L2 b t a b), Hlast. cbn [last]. apply L2. }
    cbn [length] in *. rewrite app_length. cbn [length]. lia.
Qed.

Lemma refine_all_returns lo hi us : (forall u, lo <= u <= hi -> exists p, f u = Ok p) -> 0 < eps -> forall a,
  lo <= a -> (forall x, In x us -> x <= hi) -> linked Rle a us ->
  exists l, eventually (fun fuel => refine_all sqrt fuel true dim f dev a us) l.
Proof.
  intros Hf He. induction us as [|b us IH]; intros a Ha Hus Hl.
  - exists [a], 0%nat. reflexivity.
  - destruct Hl as (Hab & Hl). assert (Hb : b <= hi) by (apply Hus; left; reflexivity).
    destruct (IH b) as (l2 & f2 & E2); [lra| |exact Hl|]; [intros x Hx; apply Hus; right; exact Hx|].
    assert (Hn : exists n, b - a <= eps * 2 ^ n).
    { destruct (Pow_x_infinity 2 ltac:(rewrite Rabs_pos_eq; lra) ((b - a) / eps)) as (n & Hn). exists n.
      specialize (Hn n ltac:(lia)). rewrite Rabs_pos_eq in Hn by (apply pow_le; lra).
      apply Rge_le in Hn. apply Rmult_le_compat_l with (r := eps) in Hn; [|lra]. replace (eps * ((b - a) / eps)) with (b - a) in Hn by (field; lra). exact Hn. }
    destruct Hn as (n & Hn). destruct (refine_returns lo hi n Hf a b Ha Hab Hb Hn) as (l1 & E1).
    exists (a :: l1 ++ l2), (Nat.max (S n) f2). intros fuel Hfuel. cbn [refine_all].
    rewrite (refine_mono true (S n) fuel a b l1 ltac:(lia) E1). rewrite E2 by lia. reflexivity.
Qed.

Lemma refine_straight guard fuel : straight dim f -> forall a b l, refine_params sqrt fuel guard dim f dev a b = Ok l -> l = [].
Proof.
  intros (o & d & Hs) a b l. destruct fuel as [|fuel]; cbn [refine_params]; [discriminate|].
  destruct (guard && _); [congruence|]. intros H. apply bind_inv in H as (m & Em & H). apply bind_inv in H as (p & Ep & H).
  apply bind_inv in H as (q & Eq & H).
  destruct (Hs _ _ Em) as (t & Ht). destruct (Hs _ _ Ep) as (s & Hp). destruct (Hs _ _ Eq) as (w & Hw).
  rewrite (bends_line dim dev o d p m q s t w Hdim Hdev Hp Ht Hw) in H. congruence.
Qed.
Lemma refine_all_straight guard fuel us : straight dim f -> forall a l, refine_all sqrt fuel guard dim f dev a us = Ok l -> l = a :: us.
Proof.
  intros Hs. induction us as [|b us IH]; intros a l H; cbn [refine_all] in H; [congruence|].
  apply bind_inv in H as (l1 & E1 & H). apply bind_inv in H as (l2 & E2 & H). apply refine_straight in E1; [|exact Hs]. apply IH in E2.
  subst. cbn [app] in H. congruence.
Qed.
End AtR.
