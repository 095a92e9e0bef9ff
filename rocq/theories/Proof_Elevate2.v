(** Knot vectors as distinct knots with multiplicities: positions, spans, editing. *)
From Coq Require Import List Arith Reals Lia Lra Bool Permutation.
From Verif Require Import Model_Base Spec_Base Spec_Basis Spec_Knots Spec_Elevate
  Proof_Base Proof_Eval Proof_Trim Proof_Builders Proof_PropRemove2.
Import ListNotations.
Local Open Scope R_scope.

(** The clamped structure without tolerance *)
Definition ckn (p : nat) (U : list R) (M : list nat) : Prop :=
  length M = length U /\ (2 <= length U)%nat /\ strictly_increasing U /\
  nth 0 M 0%nat = (p + 1)%nat /\ nth (length U - 1) M 0%nat = (p + 1)%nat /\
  forall i, (0 < i < length U - 1)%nat -> (1 <= nth i M 0 <= p)%nat.

Lemma spaced_inc eps U : 0 <= eps -> spaced eps U -> strictly_increasing U.
Proof.
  intros He H i j Hij Hj. induction Hij as [|j Hij IH].
  - specialize (H i Hj). lra.
  - specialize (H j Hj). specialize (IH ltac:(lia)). lra.
Qed.

Lemma ck_ckn eps p U M : 0 <= eps -> clamped_knots eps p U M -> ckn p U M.
Proof. intros He (A & B & Sp & R). split; [exact A|]. split; [exact B|]. split; [apply (spaced_inc eps); auto|exact R]. Qed.

Definition pre (M : list nat) (s : nat) : nat := list_sum (firstn s M).

Lemma pre_0 M : pre M 0 = 0%nat. Proof. reflexivity. Qed.
Lemma pre_S M : forall s, pre M (S s) = (pre M s + nth s M 0)%nat.
Proof.
  induction M as [|m M IH]; intros [|s]; try reflexivity; [cbn; lia|].
  change (pre (m :: M) (S (S s))) with (m + pre M (S s))%nat. change (pre (m :: M) (S s)) with (m + pre M s)%nat.
  rewrite IH. cbn [nth]. lia.
Qed.
Lemma pre_all M : pre M (length M) = list_sum M.
Proof. unfold pre. rewrite firstn_all. reflexivity. Qed.
Lemma pre_mono M s t : (s <= t)%nat -> (pre M s <= pre M t)%nat.
Proof. induction 1; [lia|]. rewrite pre_S. lia. Qed.

Lemma re_length U : forall M, length M = length U -> length (repeat_each U M) = list_sum M.
Proof.
  induction U as [|u U IH]; intros [|m M] L; try discriminate; [reflexivity|].
  cbn [repeat_each]. rewrite app_length, repeat_length, IH by (simpl in L; lia). reflexivity.
Qed.

Lemma re_at U : forall M s i, length M = length U -> (s < length U)%nat -> (pre M s <= i < pre M s + nth s M 0)%nat ->
  kn (repeat_each U M) i = kn U s.
Proof.
  induction U as [|u U IH]; intros [|m M] s i L Hs Hi; try discriminate; [simpl in Hs; lia|].
  simpl in L. cbn [repeat_each]. unfold kn. destruct s as [|s].
  - cbn [nth pre firstn list_sum] in *. unfold pre in Hi. cbn in Hi. rewrite app_nth1 by (rewrite repeat_length; lia).
    rewrite (nth_indep _ 0 u) by (rewrite repeat_length; lia). apply nth_repeat.
  - assert (E : pre (m :: M) (S s) = (m + pre M s)%nat) by reflexivity. rewrite E in Hi. cbn [nth] in Hi.
    rewrite app_nth2 by (rewrite repeat_length; lia). rewrite repeat_length.
    apply (IH M s (i - m)%nat); simpl in *; lia.
Qed.

Lemma re_find M : forall i, (i < list_sum M)%nat -> exists s, (s < length M)%nat /\ (pre M s <= i < pre M s + nth s M 0)%nat.
Proof.
  induction M as [|m M IH]; intros i Hi; [simpl in Hi; lia|].
  destruct (Nat.lt_ge_cases i m) as [H|H].
  - exists 0%nat. cbn. unfold pre. cbn. lia.
  - destruct (IH (i - m)%nat) as (s & Hs & Hs2). { unfold list_sum in *. cbn in Hi. lia. }
    exists (S s). split; [simpl; lia|]. assert (E : pre (m :: M) (S s) = (m + pre M s)%nat) by reflexivity. rewrite E. cbn [nth]. lia.
Qed.

Section Ckn.
Variables (p : nat) (U : list R) (M : list nat).
Hypothesis HC : ckn p U M.
Let k := repeat_each U M.
Let n := poles_for p M.
Let m := (length U - 1)%nat.

Lemma ck_pre_m : (pre M m + (p + 1) = list_sum M)%nat.
Proof.
  destruct HC as (L & L2 & _ & _ & E & _). rewrite <- pre_all, L. replace (length U) with (S m) by (unfold m; lia).
  rewrite pre_S. unfold m. rewrite E. reflexivity.
Qed.
Lemma ck_n : n = pre M m.
Proof. unfold n, poles_for. pose proof ck_pre_m. lia. Qed.
Lemma ck_pre_1 : pre M 1 = (p + 1)%nat.
Proof. destruct HC as (_ & _ & _ & E & _). rewrite pre_S, E. reflexivity. Qed.
Lemma ck_mult s : (s < length U)%nat -> (1 <= nth s M 0)%nat.
Proof.
  destruct HC as (L & L2 & _ & E0 & E1 & Hm). intros Hs.
  destruct (Nat.eq_dec s 0) as [->|]; [lia|]. destruct (Nat.eq_dec s (length U - 1)) as [->|]; [lia|]. apply Hm. lia.
Qed.
Lemma ck_mult_le s : (s < length U)%nat -> (nth s M 0 <= p + 1)%nat.
Proof.
  destruct HC as (L & L2 & _ & E0 & E1 & Hm). intros Hs.
  destruct (Nat.eq_dec s 0) as [->|]; [lia|]. destruct (Nat.eq_dec s (length U - 1)) as [->|]; [lia|]. specialize (Hm s). lia.
Qed.

Lemma ck_len : length k = (n + p + 1)%nat.
Proof. unfold k. rewrite re_length by apply HC. rewrite ck_n. pose proof ck_pre_m. lia. Qed.

Lemma ck_at s i : (s < length U)%nat -> (pre M s <= i < pre M (S s))%nat -> kn k i = kn U s.
Proof. intros Hs Hi. rewrite pre_S in Hi. apply re_at; [apply HC|exact Hs|lia]. Qed.

(** The last index of knot s *)
Definition lst (s : nat) : nat := (pre M (S s) - 1)%nat.

Lemma ck_lst s : (s < m)%nat -> (p <= lst s < n)%nat /\ kn k (lst s) = kn U s /\ kn k (S (lst s)) = kn U (S s) /\
  kn k (lst s) < kn k (S (lst s)).
Proof.
  intros Hs. unfold lst. rewrite ck_n. unfold m in *.
  pose proof (ck_mult s ltac:(lia)) as H1. pose proof (pre_S M s) as E.
  pose proof (pre_mono M 1 (S s) ltac:(lia)) as H2. rewrite ck_pre_1 in H2.
  pose proof (pre_mono M (S s) (length U - 1) ltac:(lia)) as H3.
  pose proof (ck_mult (S s) ltac:(lia)) as H4.
  assert (K1 : kn k (pre M (S s) - 1) = kn U s) by (apply ck_at; lia).
  assert (K2 : kn k (S (pre M (S s) - 1)) = kn U (S s)).
  { apply ck_at; [lia|]. rewrite (pre_S M (S s)). lia. }
  split; [lia|]. split; [exact K1|]. split; [exact K2|]. rewrite K1, K2. apply HC; lia.
Qed.

Lemma ck_knots_ok : knots_ok k n p.
Proof.
  assert (Hm : (0 < m)%nat) by (pose proof HC as (_ & L2 & _); unfold m; lia).
  destruct (ck_lst (m - 1)) as (A & K1 & K2 & K3); [lia|].
  assert (E : S (lst (m - 1)) = n).
  { unfold lst. rewrite ck_n. replace (S (m - 1)) with m by lia.
    pose proof (pre_mono M 1 m ltac:(lia)). rewrite ck_pre_1 in H. lia. }
  split; [exact ck_len|]. split; [lia|]. split; [apply repeat_each_nondec, HC|].
  rewrite <- E. replace (S (lst (m - 1)) - 1)%nat with (lst (m - 1)) by lia. exact K3.
Qed.

Lemma ck_first : kn k p = kn U 0.
Proof. apply ck_at; [destruct HC as (_ & L2 & _); lia|]. rewrite pre_0, ck_pre_1. lia. Qed.
Lemma ck_last : kn k n = kn U m.
Proof.
  destruct HC as (L & L2 & _). apply ck_at; [unfold m; lia|]. rewrite ck_n, pre_S.
  pose proof (ck_mult m ltac:(unfold m; lia)). lia.
Qed.

(** Every non-empty span is one of them *)
Lemma ck_span l : (l < n)%nat -> kn k l < kn k (S l) -> exists s, (s < m)%nat /\ l = lst s.
Proof.
  intros Hl Hlt. pose proof ck_pre_m as Em. rewrite ck_n in Hl. pose proof HC as (L & L2 & _).
  destruct (re_find M l ltac:(lia)) as (s & Hs & Hi). rewrite L in Hs.
  assert (Hsm : (s < m)%nat).
  { destruct (Nat.lt_ge_cases s m) as [|G]; [auto|]. pose proof (pre_mono M m s G). lia. }
  exists s. split; [exact Hsm|]. unfold lst. destruct (Nat.eq_dec l (pre M (S s) - 1)) as [|Ne]; [auto|exfalso].
  assert (kn k (S l) = kn U s) by (apply ck_at; [lia|rewrite pre_S in *; lia]).
  assert (kn k l = kn U s) by (apply ck_at; [lia|rewrite pre_S in *; lia]). lra.
Qed.

Lemma ck_kn_mono i j : (i <= j)%nat -> (j < length U)%nat -> kn U i <= kn U j.
Proof.
  intros Hij Hj. destruct (Nat.eq_dec i j) as [->|N]; [lra|]. destruct HC as (_ & _ & Hs & _).
  specialize (Hs i j ltac:(lia) Hj). lra.
Qed.

Lemma ck_in x : kn U 0 <= x <= kn U m -> exists s, (s < m)%nat /\ kn U s <= x <= kn U (S s) /\ (x < kn U (S s) \/ S s = m) /\
  span_at k n x (lst s).
Proof.
  intros Hx. destruct (span_at_ex 0 n p x k ck_knots_ok) as (l & Hl & Sx & Hlt).
  { rewrite ck_first, ck_last. exact Hx. }
  destruct (ck_span l ltac:(lia) Hlt) as (s & Hs & ->). exists s. split; [exact Hs|].
  destruct (ck_lst s Hs) as (_ & K1 & K2 & _). 
  destruct Sx as [Hu|[Eu El]].
  - rewrite K1, K2 in Hu. split; [lra|]. split; [left; lra|]. left. rewrite K1, K2. lra.
  - assert (Em : S s = m).
    { destruct (Nat.eq_dec (S s) m) as [|N]; [auto|exfalso]. rewrite ck_n in El. unfold lst in El.
      pose proof (pre_S M (S s)). pose proof (ck_mult (S s) ltac:(unfold m in *; lia)).
      pose proof (pre_mono M (S (S s)) m ltac:(lia)). pose proof (pre_mono M 1 (S s) ltac:(lia)) as Q1. rewrite ck_pre_1 in Q1. lia. }
    rewrite ck_last in Eu. split; [|split; [right; exact Em|]].
    + rewrite Eu, Em. pose proof (ck_kn_mono s m ltac:(lia) ltac:(unfold m; lia)). lra.
    + right. split; [rewrite ck_last; exact Eu|exact El].
Qed.

Lemma ck_span_at s x : (s < m)%nat -> kn U s <= x < kn U (S s) -> span_at k n x (lst s).
Proof. intros Hs Hx. destruct (ck_lst s Hs) as (_ & K1 & K2 & _). left. rewrite K1, K2. exact Hx. Qed.

(** Between two consecutive spans there are the copies of one knot. *)
Lemma ck_between s : (S s < m)%nat -> (lst (S s) - lst s = nth (S s) M 0)%nat /\ (lst s < lst (S s))%nat /\
  forall x, (lst s < x <= lst (S s))%nat -> kn k x = kn U (S s).
Proof.
  intros Hs. unfold lst. pose proof (pre_S M (S s)). pose proof (pre_S M s).
  pose proof (ck_mult (S s) ltac:(unfold m in *; lia)). pose proof (ck_mult s ltac:(unfold m in *; lia)).
  split; [lia|]. split; [lia|]. intros x Hx. apply ck_at; [unfold m in *; lia|lia].
Qed.
End Ckn.

(** Sorted lists with the same entries are equal. *)
Lemma nd_head x l y : nondecreasing (x :: l) -> In y l -> x <= y.
Proof.
  intros H Hy. destruct (In_nth l y 0 Hy) as (i & Hi & E).
  specialize (H 0%nat (S i) ltac:(lia) ltac:(simpl; lia)). unfold kn in H. simpl in H. lra.
Qed.
Lemma nd_tail x l : nondecreasing (x :: l) -> nondecreasing l.
Proof. intros H i j Hij Hj. apply (H (S i) (S j)); simpl; lia. Qed.

Lemma sorted_count_eq l : forall l', nondecreasing l -> nondecreasing l' ->
  (forall x, count_occ Req_EM_T l x = count_occ Req_EM_T l' x) -> l = l'.
Proof.
  induction l as [|x l IH]; intros l' H H' HC.
  - destruct l' as [|y l']; [reflexivity|]. specialize (HC y). simpl in HC. destruct (Req_EM_T y y); [discriminate|congruence].
  - destruct l' as [|y l'].
    { specialize (HC x). simpl in HC. destruct (Req_EM_T x x); [discriminate|congruence]. }
    assert (E : x = y).
    { assert (Hx : In x (y :: l')).
      { apply (count_occ_In Req_EM_T). rewrite <- HC. simpl. destruct (Req_EM_T x x); [lia|congruence]. }
      assert (Hy : In y (x :: l)).
      { apply (count_occ_In Req_EM_T). rewrite HC. simpl. destruct (Req_EM_T y y); [lia|congruence]. }
      destruct Hx as [->|Hx]; [reflexivity|]. destruct Hy as [->|Hy]; [reflexivity|].
      pose proof (nd_head _ _ _ H Hy). pose proof (nd_head _ _ _ H' Hx). lra. }
    subst y. f_equal. apply IH; [apply (nd_tail _ _ H)|apply (nd_tail _ _ H')|].
    intros z. specialize (HC z). simpl in HC. destruct (Req_EM_T x z); lia.
Qed.

Lemma re_count U : forall M x, length M = length U -> strictly_increasing U ->
  count_occ Req_EM_T (repeat_each U M) x = list_sum (map (fun s => if Req_EM_T x (kn U s) then nth s M 0%nat else 0%nat) (seq 0 (length U))).
Proof.
  induction U as [|u U IH]; intros [|m M] x L Hs; try discriminate; [reflexivity|].
  cbn [repeat_each length seq map]. rewrite count_occ_app, count_repeat.
  change (list_sum (?a :: ?b)) with (a + list_sum b)%nat. f_equal.
  - rewrite <- seq_shift, map_map. simpl in L. rewrite IH; [reflexivity|lia|].
    intros i j Hij Hj. apply (Hs (S i) (S j)); simpl; lia.
Qed.

Lemma list_sum_single f n s : (s < n)%nat -> (forall i, (i < n)%nat -> i <> s -> f i = 0%nat) ->
  list_sum (map f (seq 0 n)) = f s.
Proof.
  intros Hs H. replace n with (s + (1 + (n - s - 1)))%nat by lia. rewrite !seq_app, !map_app. cbn [seq map Nat.add].
  assert (Z : forall l, (forall i, In i l -> (i < n)%nat /\ i <> s) -> list_sum (map f l) = 0%nat).
  { induction l as [|a l IH]; intros Hl; [reflexivity|]. cbn [map]. change (list_sum (?a :: ?b)) with (a + list_sum b)%nat.
    rewrite IH by (intros; apply Hl; simpl; auto). destruct (Hl a (or_introl eq_refl)). rewrite H by assumption. reflexivity. }
  rewrite list_sum_app. rewrite Z by (intros i Hi; apply in_seq in Hi; lia).
  change (list_sum ([f s] ++ ?b)) with (f s + list_sum b)%nat.
  rewrite Z by (intros i Hi; apply in_seq in Hi; lia). lia.
Qed.

Lemma re_count_at U M s : length M = length U -> strictly_increasing U -> (s < length U)%nat ->
  count_occ Req_EM_T (repeat_each U M) (kn U s) = nth s M 0%nat.
Proof.
  intros L Hs Hlt. rewrite re_count by assumption.
  rewrite (list_sum_single _ _ s Hlt). { destruct (Req_EM_T (kn U s) (kn U s)); [reflexivity|congruence]. }
  intros i Hi Ne. destruct (Req_EM_T (kn U s) (kn U i)) as [E|]; [exfalso|reflexivity].
  destruct (Nat.lt_total i s) as [G|[G|G]]; [|lia|].
  - specialize (Hs i s G Hlt). lra.
  - specialize (Hs s i G Hi). lra.
Qed.

Lemma nth_updn (M : list nat) i r j : nth j (upd M i r) 0%nat = if ((j =? i) && (i <? length M))%nat then r else nth j M 0%nat.
Proof.
  destruct (Nat.eqb_spec j i) as [->|N]; cbn [andb].
  - revert i; induction M as [|m M IH]; intros [|i]; try reflexivity. cbn [upd nth length]. rewrite IH. reflexivity.
  - revert i j N; induction M as [|m M IH]; intros [|i] [|j] N; try reflexivity; try lia. cbn [upd nth]. apply IH. lia.
Qed.

(** Inserting copies *)
Lemma re_insert U M s r k' : length M = length U -> strictly_increasing U -> (s < length U)%nat -> nondecreasing k' ->
  (exists a b, repeat_each U M = a ++ b /\ k' = a ++ repeat (kn U s) r ++ b) ->
  k' = repeat_each U (upd M s (nth s M 0 + r)%nat).
Proof.
  intros L Hs Hlt Hnd (a & b & Ea & Ek). apply sorted_count_eq; [exact Hnd|apply repeat_each_nondec, Hs|].
  intros x. rewrite (re_count U (upd M s _)) by (rewrite ?upd_length; assumption).
  assert (E : count_occ Req_EM_T k' x = (count_occ Req_EM_T (repeat_each U M) x + if Req_EM_T x (kn U s) then r else 0)%nat).
  { rewrite Ek, Ea, !count_occ_app, count_repeat. lia. }
  rewrite E, re_count by assumption.
  set (F := fun s0 => if Req_EM_T x (kn U s0) then nth s0 M 0%nat else 0%nat).
  assert (Hdec : forall i j, (i < length U)%nat -> (j < length U)%nat -> kn U i = kn U j -> i = j).
  { intros i j Hi Hj Eij. destruct (Nat.lt_total i j) as [G|[G|G]]; [|exact G|].
    - specialize (Hs i j G Hj). lra.
    - specialize (Hs j i G Hi). lra. }
  destruct (Req_EM_T x (kn U s)) as [->|N].
  - rewrite (list_sum_single F _ s Hlt), (list_sum_single _ _ s Hlt).
    + unfold F. rewrite nth_updn, Nat.eqb_refl. destruct (Nat.ltb_spec s (length M)); [|lia]. cbn [andb].
      destruct (Req_EM_T (kn U s) (kn U s)); [reflexivity|congruence].
    + intros i Hi Ne. destruct (Req_EM_T (kn U s) (kn U i)) as [G|]; [exfalso; apply Ne; symmetry; apply Hdec; assumption|reflexivity].
    + intros i Hi Ne. unfold F. destruct (Req_EM_T (kn U s) (kn U i)) as [G|]; [exfalso; apply Ne; symmetry; apply Hdec; assumption|reflexivity].
  - rewrite Nat.add_0_r. f_equal. apply map_ext_in. intros i Hi. apply in_seq in Hi. unfold F. rewrite nth_updn.
    destruct (Nat.eqb_spec i s) as [->|]; cbn [andb]; [|reflexivity]. destruct (Req_EM_T x (kn U s)); [contradiction|reflexivity].
Qed.

(** Taking copies out *)
Lemma re_remove U : forall M s r, length M = length U -> (s < length U)%nat -> (r <= nth s M 0)%nat ->
  exists a b, repeat_each U M = a ++ repeat (kn U s) r ++ b /\ repeat_each U (upd M s (nth s M 0 - r)%nat) = a ++ b.
Proof.
  induction U as [|u U IH]; intros [|m M] s r L Hs Hr; try discriminate; [simpl in Hs; lia|].
  simpl in L. destruct s as [|s].
  - cbn [nth] in Hr. exists [], (repeat u (m - r) ++ repeat_each U M). cbn [upd nth repeat_each app]. split; [|reflexivity].
    unfold kn. cbn [nth]. rewrite app_assoc, <- repeat_app. f_equal. f_equal. lia.
  - destruct (IH M s r ltac:(lia) ltac:(simpl in Hs; lia) Hr) as (a & b & E1 & E2).
    exists (repeat u m ++ a), b. cbn [upd nth repeat_each]. rewrite E1, E2, <- !app_assoc. split; reflexivity.
Qed.
