(** Knot insertion preserves the curve. *)
From Coq Require Import List Arith ZArith Reals Lia Lra Permutation.
From Verif Require Import Model_Base Spec_Base Spec_Basis Spec_Eval Model_Basis Model_Knots
  Proof_Base Proof_Blossom Proof_Basis Proof_Ders Proof_Eval Proof_PropBasis Proof_Refine Proof_Insert.
Import ListNotations.
Local Open Scope R_scope.

Lemma succ_nondecreasing k :
  (forall i, (S i < length k)%nat -> kn k i <= kn k (S i)) -> nondecreasing k.
Proof.
  intros H i j Hij Hj. induction Hij as [|j Hij IH]; [lra|].
  apply Rle_trans with (kn k j); [apply IH; lia|apply H; lia].
Qed.
Lemma nth_error_firstn_lt' {A} (l : list A) a x : (x < a)%nat -> nth_error (firstn a l) x = nth_error l x.
Proof.
  revert a x; induction l as [|y l IH]; intros [|a] [|x] H; simpl; auto; try lia. apply IH; lia.
Qed.
Lemma nth_error_skipn' {A} (l : list A) a x : nth_error (skipn a l) x = nth_error l (a + x).
Proof.
  revert l; induction a as [|a IH]; intros l; [reflexivity|]. destruct l; simpl; [destruct x; auto|apply IH].
Qed.

Section Boehm.
Variable eps : R.
Local Hint Extern 0 (Num R) => exact (NumR eps) : typeclass_instances.
Notation tri := (tri eps). Notation insE := (insE eps).

(** Affine combination in one argument of a symmetric multilinear form. *)
Lemma symml_affine p f (u a c : R) pre post :
  symml p f -> a <> c -> S (length (pre ++ post)) = p ->
  f ((u, 1) :: pre ++ post) =
    (u - a) / (c - a) * f (pre ++ post ++ [(c, 1)]) + (1 - (u - a) / (c - a)) * f (pre ++ (a, 1) :: post).
Proof.
  intros (Hp & Hl) Hac HL.
  assert (Hca : c - a <> 0) by lra.
  replace (u, 1) with (lc ((u - a) / (c - a)) (c, 1) (1 - (u - a) / (c - a)) (a, 1)).
  2: { unfold lc; cbn [fst snd]. f_equal; field; auto. }
  rewrite Hl by auto. f_equal; f_equal; apply Hp; auto.
  - rewrite app_assoc. apply Permutation_cons_append.
  - apply Permutation_middle.
Qed.

Lemma tri_blo k u n p m s P l c : knots_ok k n p -> ipos k u n p m s -> length P = n ->
  (p <= l < n)%nat -> kn k l < kn k (S l) ->
  forall a i, (a + i + s <= p)%nat -> (l <= m + i)%nat -> (m - p + i + a <= l)%nat ->
  tri k u m p P a i c =
    blo (kn k) l (pole P c) (repeat (u, 1) a ++ kargs (kn k) (m - p + i + a) (p - a)).
Proof.
  intros Hk Hp HP Hl Hs. pose proof Hp as (Hm & Hsm & _).
  assert (Hsy := blo_symml k n p l (pole P c) Hk Hl Hs).
  induction a as [|a IH]; intros i Hi H1 H2.
  - cbn [repeat app]. rewrite Nat.sub_0_r, Nat.add_0_r.
    rewrite (blo_dual k n p l _ _ Hk Hl Hs) by lia. reflexivity.
  - pose proof (alpha_den k u n p m s (S a) i Hk Hp ltac:(lia) ltac:(lia)) as (D1 & D2).
    cbn [repeat]. set (com := kargs (kn k) (m - p + i + S a) (p - S a)).
    change (((u, 1) :: repeat (u, 1) a) ++ com) with ((u, 1) :: repeat (u, 1) a ++ com).
    rewrite (symml_affine p _ u (kn k (m - p + S a + i)) (kn k (i + m + 1)) _ _ Hsy).
    3: { unfold com. rewrite app_length, repeat_length, kargs_length. lia. }
    2: lra.
    cbn [Proof_Insert.tri padd pscal nadd nmul nsub n1 NumR]. unfold al.
    unfold padd, pscal; cbn [nadd nmul nsub n1 NumR].
    rewrite (IH (i + 1)%nat), (IH i) by lia.
    f_equal; f_equal; f_equal; f_equal.
    + unfold com. replace (p - a)%nat with (S (p - S a)) by lia. rewrite kargs_snoc.
      replace (m - p + (i + 1) + a)%nat with (m - p + i + S a)%nat by lia.
      replace (m - p + i + S a + S (p - S a))%nat with (i + m + 1)%nat by lia. reflexivity.
    + unfold com. replace (p - a)%nat with (S (p - S a)) by lia. rewrite kargs_S.
      replace (S (m - p + i + a)) with (m - p + i + S a)%nat by lia.
      replace (m - p + S a + i)%nat with (m - p + i + S a)%nat by lia. reflexivity.
Qed.

Lemma ins_knots_ok k k' u n p m s r :
  knots_ok k n p -> ipos k u n p m s -> (1 <= r)%nat ->
  length k' = (n + r + p + 1)%nat -> (forall x, (x < n + r + p + 1)%nat -> kn k' x = ins_kn k u m r x) ->
  knots_ok k' (n + r) p.
Proof.
  intros (Hl & Hpn & Hs & Hlast) (Hm & Hsm & H1 & H2 & H3 & H4) Hr L G.
  split; [lia|]. split; [lia|]. split.
  - apply succ_nondecreasing. intros i Hi. rewrite !G by lia. unfold ins_kn.
    destruct (Nat.leb_spec i m), (Nat.leb_spec (S i) m), (Nat.leb_spec i (m + r)),
      (Nat.leb_spec (S i) (m + r)); try lia; try lra.
    + apply Hs; lia.
    + replace i with m by lia. auto.
    + replace (S i - r)%nat with (S m) by lia. lra.
    + apply Hs; lia.
  - rewrite !G by lia. unfold ins_kn.
    destruct (Nat.leb_spec (n + r) m); [lia|]. destruct (Nat.leb_spec (n + r) (m + r)); [lia|].
    destruct (Nat.leb_spec (n + r - 1) m); [lia|]. replace (n + r - r)%nat with n by lia.
    destruct (Nat.leb_spec (n + r - 1) (m + r)).
    + replace n with (S m) by lia. auto.
    + replace (n + r - 1 - r)%nat with (n - 1)%nat by lia. auto.
Qed.

(** The poles computed are the blossom values at the new knots. *)
Lemma insE_blo k k' u n p m s r P l l' c :
  knots_ok k n p -> ipos k u n p m s -> length P = n -> (1 <= r <= p - s)%nat -> (s < p)%nat ->
  (forall x, (x < n + r + p + 1)%nat -> kn k' x = ins_kn k u m r x) ->
  (p <= l < n)%nat -> kn k l < kn k (S l) -> (p <= l' < n + r)%nat ->
  (l' = l /\ (l' <= m)%nat /\ (l' = m -> s = 0%nat) \/ (l' = l + r)%nat /\ (m + r <= l')%nat) ->
  forall j, (l' - p <= j <= l')%nat ->
  insE k u m p P s r j c = blo (kn k) l (pole P c) (kargs (kn k') j p).
Proof.
  intros Hk Hp HP Hr Hsp G Hl Hs Hl' Hll j Hj.
  pose proof Hp as (Hm & Hsm & H1 & H2 & H3 & H4).
  assert (Hsy := blo_symml k n p l (pole P c) Hk Hl Hs).
  assert (Hls : l' = l -> (l' <= m - s)%nat).
  { intros ->. destruct Hll as [(_ & Hlm & Hs0)|(HH & _)]; [|lia].
    destruct (Nat.eq_dec s 0); [lia|]. assert (l <> m) by (intros E; specialize (Hs0 E); lia).
    destruct (Nat.le_gt_cases l (m - s)); auto.
    rewrite (H3 l), (H3 (S l)) in Hs by lia. lra. }
  assert (Hperm : forall a j0,
     (a + s <= p)%nat ->
     Permutation (kargs (kn k') j p) (repeat (u, 1) a ++ kargs (kn k) j0 (p - a)) ->
     blo (kn k) l (pole P c) (kargs (kn k') j p) =
     blo (kn k) l (pole P c) (repeat (u, 1) a ++ kargs (kn k) j0 (p - a))).
  { intros a j0 Ha HPm. apply Hsy; auto. apply kargs_length. }
  unfold insE.
  destruct (Nat.leb_spec j (m - p)) as [B1|B1].
  { (* old head *)
    rewrite (kargs_shift (kn k') (kn k) j j p).
    2: { intros x Hx. rewrite G by lia. unfold ins_kn.
         destruct (Nat.leb_spec (j + x) m); [auto|lia]. }
    rewrite (blo_dual k n p l _ _ Hk Hl Hs) by lia. reflexivity. }
  destruct (Nat.leb_spec j (m - p + r)) as [B2|B2].
  { set (a := (j - (m - p))%nat).
    rewrite (Hperm a (m - p + 0 + a)%nat); [|lia|].
    - apply (tri_blo k u n p m s P l c Hk Hp HP Hl Hs); lia.
    - replace p with ((m - j) + a)%nat at 1 by lia. rewrite kargs_app.
      rewrite (kargs_shift (kn k') (kn k) j j (m - j)).
      2: { intros x Hx. rewrite G by lia. unfold ins_kn.
           destruct (Nat.leb_spec (j + x) m); [auto|lia]. }
      rewrite (kargs_const (kn k') _ a u).
      2: { intros x Hx. rewrite G by lia. unfold ins_kn.
           destruct (Nat.leb_spec (j + (m - j) + x) m); [lia|].
           destruct (Nat.leb_spec (j + (m - j) + x) (m + r)); [auto|lia]. }
      replace (m - p + 0 + a)%nat with j by lia. replace (p - a)%nat with (m - j)%nat by lia.
      apply Permutation_app_comm. }
  destruct (Nat.ltb_spec j (m - s)) as [B3|B3].
  { rewrite (Hperm r j); [|lia|].
    - rewrite (tri_blo k u n p m s P l c Hk Hp HP Hl Hs) by lia.
      replace (m - p + (j - (m - p + r)) + r)%nat with j by lia. reflexivity.
    - replace p with ((m - j) + (r + (p - r - (m - j))))%nat at 1 by lia. rewrite !kargs_app.
      rewrite (kargs_shift (kn k') (kn k) j j (m - j)).
      2: { intros x Hx. rewrite G by lia. unfold ins_kn.
           destruct (Nat.leb_spec (j + x) m); [auto|lia]. }
      rewrite (kargs_const (kn k') _ r u).
      2: { intros x Hx. rewrite G by lia. unfold ins_kn.
           destruct (Nat.leb_spec (j + (m - j) + x) m); [lia|].
           destruct (Nat.leb_spec (j + (m - j) + x) (m + r)); [auto|lia]. }
      rewrite (kargs_shift (kn k') (kn k) (j + (m - j) + r) (j + (m - j)) (p - r - (m - j))).
      2: { intros x Hx. rewrite G by lia. unfold ins_kn.
           destruct (Nat.leb_spec (j + (m - j) + r + x) m); [lia|].
           destruct (Nat.leb_spec (j + (m - j) + r + x) (m + r)); [lia|]. f_equal; lia. }
      assert (Esp : kargs (kn k) j (p - r) = kargs (kn k) j (m - j) ++ kargs (kn k) (j + (m - j)) (p - r - (m - j))).
      { rewrite <- kargs_app. f_equal. lia. }
      rewrite Esp.
      rewrite !app_assoc. apply Permutation_app_tail. apply Permutation_app_comm. }
  destruct (Nat.ltb_spec j (m + r - s)) as [B4|B4].
  { set (a := (m + r - s - j)%nat).
    rewrite (Hperm a (m - p + (p - s - a) + a)%nat); [|lia|].
    - apply (tri_blo k u n p m s P l c Hk Hp HP Hl Hs); lia.
    - match goal with |- Permutation ?x ?y => enough (x = y) as -> by apply Permutation_refl end.
      replace (kargs (kn k') j p) with (kargs (kn k') j (a + s + (p - a - s))) by (f_equal; lia).
      rewrite kargs_app.
      rewrite (kargs_const (kn k') j (a + s) u).
      2: { intros x Hx. rewrite G by lia. unfold ins_kn.
           destruct (Nat.leb_spec (j + x) m).
           { apply H3; lia. }
           destruct (Nat.leb_spec (j + x) (m + r)); [auto|lia]. }
      rewrite repeat_app, <- app_assoc. f_equal.
      assert (Esp : forall z, kargs (kn k) z (p - a) = kargs (kn k) z s ++ kargs (kn k) (z + s) (p - a - s)).
      { intros z. rewrite <- kargs_app. f_equal. lia. }
      rewrite Esp.
      rewrite (kargs_const (kn k) _ s u).
      2: { intros x Hx. apply H3. lia. }
      f_equal. apply kargs_shift. intros x Hx. rewrite G by lia. unfold ins_kn.
      destruct (Nat.leb_spec (j + (a + s) + x) m); [lia|].
      destruct (Nat.leb_spec (j + (a + s) + x) (m + r)); [lia|]. f_equal; lia. }
  rewrite (kargs_shift (kn k') (kn k) j (j - r) p).
  2: { intros x Hx. rewrite G by lia. unfold ins_kn.
       destruct (Nat.leb_spec (j + x) m).
       - rewrite !H3 by lia. auto.
       - destruct (Nat.leb_spec (j + x) (m + r)).
         + rewrite H3 by lia. auto.
         + f_equal; lia. }
  rewrite (blo_dual k n p l _ _ Hk Hl Hs) by lia. reflexivity.
Qed.

Definition knot_inserted (k : list R) (u : R) (r : nat) (k' : list R) : Prop :=
  exists a b, k = a ++ b /\ k' = a ++ repeat u r ++ b.

(** Knot insertion in full. *)
Lemma insert_knots_same (k : list R) (u : R) n p r P :
  knots_ok k n p -> length P = n -> kn k p <= u < kn k n ->
  (multiplicity u k < p)%nat -> (1 <= r)%nat ->
  exists idx k' P' r', r' = min r (p - multiplicity u k) /\
    insert_knots u p r k P = Ok (idx, k', P') /\
    knots_ok k' (n + r') p /\ length P' = (n + r')%nat /\
    knot_inserted k u r' k' /\
    kn k' p = kn k p /\ kn k' (n + r') = kn k n /\
    (exists m, upper_bound k u = S m /\ ipos k u n p m (multiplicity u k) /\ idx = Z.of_nat (m + r' - p) /\
       forall x, (x < n + r' + p + 1)%nat -> kn k' x = ins_kn k u m r' x) /\
    forall x, kn k p <= x <= kn k n -> exists l l',
     (p <= l < n)%nat /\ (p <= l' < n + r')%nat /\ span_at k n x l /\ span_at k' (n + r') x l' /\
     kn k l < kn k (S l) /\ kn k' l' < kn k' (S l') /\
     forall c j, (l' - p <= j <= l')%nat ->
       pole P' c j = blo (kn k) l (pole P c) (kargs (kn k') j p).
Proof.
  intros Hk HP Hu Hsp Hr. pose proof Hk as (Hl & Hpn & Hsort & Hlast).
  destruct (insert_knots_ok eps k u n p r P Hk HP Hu Hsp Hr)
    as (m & s & r' & k' & P' & Es & Eub & Hpos & Er & E & Lk & LP & Gk & GP).
  change (upper_bound k u - lower_bound k u)%nat with (multiplicity u k) in Es.
  rewrite <- Es in *.
  pose proof Hpos as (Hm & Hsm & H1 & H2 & H3 & H4).
  assert (Gk' : forall x, (x < n + r' + p + 1)%nat -> kn k' x = ins_kn k u m r' x).
  { intros x Hx. specialize (Gk x Hx). rewrite get_kn in Gk by lia. congruence. }
  assert (Hk' : knots_ok k' (n + r') p) by (apply (ins_knots_ok k k' u n p m s r'); auto; lia).
  exists (Z.of_nat (m + r' - p)), k', P', r'.
  split; [auto|]. split; [exact E|]. split; [exact Hk'|]. split; [exact LP|].
  split.
  { exists (firstn (S m) k), (skipn (S m) k). split; [symmetry; apply firstn_skipn|].
    apply list_ext_get.
    { rewrite !app_length, firstn_length, skipn_length, repeat_length. lia. }
    intros x Hx.
    rewrite Gk by lia. unfold ins_kn, get.
    assert (LF : length (firstn (S m) k) = S m) by (rewrite firstn_length; lia).
    destruct (Nat.leb_spec x m).
    - rewrite nth_error_app1 by lia. rewrite nth_error_firstn_lt' by lia.
      fold (get k x). rewrite <- get_kn by lia. reflexivity.
    - rewrite nth_error_app2 by lia. rewrite LF.
      destruct (Nat.leb_spec x (m + r')).
      + rewrite nth_error_app1 by (rewrite repeat_length; lia).
        rewrite nth_error_repeat by lia. reflexivity.
      + rewrite nth_error_app2 by (rewrite repeat_length; lia). rewrite repeat_length.
        rewrite nth_error_skipn'. replace (S m + (x - S m - r'))%nat with (x - r')%nat by lia.
        fold (get k (x - r')). rewrite <- get_kn by lia. reflexivity. }
  split. { rewrite Gk' by lia. unfold ins_kn. destruct (Nat.leb_spec p m); [auto|lia]. }
  split. { rewrite Gk' by lia. unfold ins_kn. destruct (Nat.leb_spec (n + r') m); [lia|].
           destruct (Nat.leb_spec (n + r') (m + r')); [lia|]. f_equal; lia. }
  split. { exists m. auto. }
  intros x Hx.
  assert (Hx' : kn k' p <= x <= kn k' (n + r')).
  { rewrite !Gk' by lia. unfold ins_kn. destruct (Nat.leb_spec p m); [|lia].
    destruct (Nat.leb_spec (n + r') m); [lia|]. destruct (Nat.leb_spec (n + r') (m + r')); [lia|].
    replace (n + r' - r')%nat with n by lia. auto. }
  destruct (span_at_ex eps (n + r') p x k' Hk' Hx') as (l' & Hl' & Sx' & Hs').
  assert (Hcase : (l' < m \/ (l' = m /\ s = 0%nat) \/ m + r' <= l')%nat).
  { destruct (Nat.lt_ge_cases l' m); [lia|]. destruct (Nat.le_gt_cases (m + r') l'); [lia|].
    destruct (Nat.eq_dec l' m) as [->|Hne].
    - destruct (Nat.eq_dec s 0); [lia|]. exfalso. rewrite !Gk' in Hs' by lia. unfold ins_kn in Hs'.
      destruct (Nat.leb_spec m m); [|lia]. destruct (Nat.leb_spec (S m) m); [lia|].
      destruct (Nat.leb_spec (S m) (m + r')); [|lia]. rewrite (H3 m) in Hs' by lia. lra.
    - exfalso. rewrite !Gk' in Hs' by lia. unfold ins_kn in Hs'.
      destruct (Nat.leb_spec l' m); [lia|]. destruct (Nat.leb_spec (S l') m); [lia|].
      destruct (Nat.leb_spec l' (m + r')); [|lia]. destruct (Nat.leb_spec (S l') (m + r')); [|lia]. lra. }
  set (l := if (l' <=? m)%nat then l' else (l' - r')%nat).
  assert (Hll : (l' = l /\ (l' <= m)%nat /\ (l' = m -> s = 0%nat)) \/ ((l' = l + r')%nat /\ (m + r' <= l')%nat)).
  { unfold l. destruct (Nat.leb_spec l' m); [left|right]; lia. }
  assert (Hlr : (p <= l < n)%nat) by lia.
  assert (Hs : kn k l < kn k (S l)).
  { rewrite !Gk' in Hs' by lia. unfold ins_kn in Hs'. destruct Hll as [(E1 & E2 & E3)|(E1 & E2)].
    - rewrite <- E1. destruct (Nat.leb_spec l' m); [|lia]. destruct (Nat.leb_spec (S l') m); [lra|].
      destruct (Nat.leb_spec (S l') (m + r')); [|lia]. replace l' with m in * by lia. lra.
    - destruct (Nat.leb_spec l' m); [lia|]. destruct (Nat.leb_spec (S l') m); [lia|].
      destruct (Nat.leb_spec (S l') (m + r')); [lia|].
      replace (S l' - r')%nat with (S l) in * by lia.
      destruct (Nat.leb_spec l' (m + r')).
      + replace l with m in * by lia. lra.
      + replace (l' - r')%nat with l in * by lia. lra. }
  assert (Sx : span_at k n x l).
  { destruct Sx' as [(S1 & S2)|(S1 & S2)].
    - left. rewrite !Gk' in S1, S2 by lia. unfold ins_kn in S1, S2.
      destruct Hll as [(E1 & E2 & E3)|(E1 & E2)].
      + rewrite <- E1. destruct (Nat.leb_spec l' m); [|lia]. destruct (Nat.leb_spec (S l') m); [lra|].
        destruct (Nat.leb_spec (S l') (m + r')); [|lia]. replace l' with m in * by lia. lra.
      + destruct (Nat.leb_spec l' m); [lia|]. destruct (Nat.leb_spec (S l') m); [lia|].
        destruct (Nat.leb_spec (S l') (m + r')); [lia|].
        replace (S l' - r')%nat with (S l) in * by lia.
        destruct (Nat.leb_spec l' (m + r')).
        * replace l with m in * by lia. lra.
        * replace (l' - r')%nat with l in * by lia. lra.
    - right. rewrite Gk' in S1 by lia. unfold ins_kn in S1.
      destruct (Nat.leb_spec (n + r') m); [lia|]. destruct (Nat.leb_spec (n + r') (m + r')); [lia|].
      replace (n + r' - r')%nat with n in S1 by lia. split; [auto|]. lia. }
  exists l, l'. repeat (split; auto).
  intros c j Hj. rewrite <- (insE_blo k k' u n p m s r' P l l' c); auto; try lia.
  specialize (GP j ltac:(lia)). unfold pole.
  rewrite (get_ok_nth P' j _ _ GP). reflexivity.
Qed.

End Boehm.
