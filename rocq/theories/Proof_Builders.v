(** Knot vector builders, ordered insertion, ranges and parametrisations: C25, C26, C38, C67. *)
From Coq Require Import List Arith ZArith QArith Reals Lia Lra Bool Permutation.
From Verif Require Import Model_Base Model_Basis Model_Knots Model_Math
  Spec_Base Spec_Basis Spec_Knots Proof_Base Proof_Blossom Proof_Basis Proof_Ders Proof_Eval
  Proof_Insert Proof_Boehm Proof_Trim Proof_Ctor Proof_Invariant Proof_Knots.
Import ListNotations.
Local Open Scope R_scope.

Lemma nondec_app (a b : list R) : nondecreasing a -> nondecreasing b ->
  (forall x y, In x a -> In y b -> x <= y) -> nondecreasing (a ++ b).
Proof.
  intros Ha Hb Hab i j Hij Hj. rewrite app_length in Hj. unfold kn.
  destruct (Nat.lt_ge_cases j (length a)).
  - rewrite !app_nth1 by lia. apply Ha; lia.
  - rewrite (app_nth2 a b 0 (n := j)) by lia. destruct (Nat.lt_ge_cases i (length a)).
    + rewrite app_nth1 by lia. apply Hab; apply nth_In; lia.
    + rewrite app_nth2 by lia. apply (Hb (i - length a)%nat (j - length a)%nat); lia.
Qed.
Lemma nondec_repeat (a : R) n : nondecreasing (repeat a n).
Proof. intros i j Hij Hj. rewrite repeat_length in Hj. unfold kn. rewrite !nth_repeat_lt by lia. lra. Qed.

Lemma clamped_of a b (mid : list R) p : a < b -> nondecreasing mid -> (forall x, In x mid -> a < x < b) ->
  clamped_vector (repeat a (p + 1) ++ mid ++ repeat b (p + 1)) (p + 1 + length mid) p a b.
Proof.
  intros Hab Hm Hin. split; [rewrite !app_length, !repeat_length; lia|]. split; [|split; [|split]].
  - apply nondec_app; [apply nondec_repeat| |].
    + apply nondec_app; [auto|apply nondec_repeat|]. intros x y Hx Hy. apply Hin in Hx. apply repeat_spec in Hy. lra.
    + intros x y Hx Hy. apply repeat_spec in Hx. apply in_app_or in Hy as [Hy|Hy].
      * apply Hin in Hy. lra. * apply repeat_spec in Hy. lra.
  - intros i Hi. unfold kn. rewrite app_nth1 by (rewrite repeat_length; lia). apply nth_repeat_lt; lia.
  - intros i Hi. unfold kn. rewrite app_nth2 by (rewrite repeat_length; lia). rewrite repeat_length.
    rewrite app_nth2 by lia. apply nth_repeat_lt; lia.
  - intros i Hi. unfold kn. rewrite app_nth2 by (rewrite repeat_length; lia). rewrite repeat_length.
    rewrite app_nth1 by lia. apply Hin, nth_In; lia.
Qed.

Lemma repeat_each_In ks ms x : In x (repeat_each ks ms) -> In x ks.
Proof.
  revert ms; induction ks as [|k ks IH]; intros [|m ms]; cbn [repeat_each]; [intros []..|]. intros H.
  apply in_app_or in H as [H|H]; [apply repeat_spec in H; left; auto|right; eauto].
Qed.
Lemma si_cons k ks : strictly_increasing (k :: ks) -> strictly_increasing ks /\ forall x, In x ks -> k < x.
Proof.
  intros H. split.
  - intros i j Hij Hj. apply (H (S i) (S j)); simpl; lia.
  - intros x Hx. apply (In_nth _ _ 0) in Hx as (i & Hi & <-). apply (H 0%nat (S i)); simpl; lia.
Qed.
Lemma repeat_each_nondec ks ms : strictly_increasing ks -> nondecreasing (repeat_each ks ms).
Proof.
  revert ms; induction ks as [|k ks IH]; intros [|m ms] H; simpl; try (intros i j _ Hj; simpl in Hj; lia).
  destruct (si_cons k ks H) as (H1 & H2). apply nondec_app; [apply nondec_repeat|auto|].
  intros x y Hx Hy. apply repeat_spec in Hx. apply repeat_each_In in Hy. apply H2 in Hy. lra.
Qed.
Lemma repeat_each_app ks1 ms1 ks2 ms2 : length ks1 = length ms1 ->
  repeat_each (ks1 ++ ks2) (ms1 ++ ms2) = repeat_each ks1 ms1 ++ repeat_each ks2 ms2.
Proof.
  revert ms1; induction ks1 as [|k ks IH]; intros [|m ms] L; try discriminate; [reflexivity|].
  simpl. rewrite IH by (simpl in L; lia). rewrite app_assoc. reflexivity.
Qed.
Lemma repeat_each_const_len ks m : length (repeat_each ks (repeat m (length ks))) = (m * length ks)%nat.
Proof. induction ks as [|k ks IH]; simpl; [lia|]. rewrite app_length, repeat_length, IH. lia. Qed.
Lemma repeat_each_count ks m x : strictly_increasing ks -> In x ks ->
  cnt (repeat_each ks (repeat m (length ks))) x = m.
Proof.
  induction ks as [|k ks IH]; intros H Hx; [destruct Hx|]. destruct (si_cons k ks H) as (H1 & H2).
  cbn [length repeat repeat_each]. rewrite count_occ_app. destruct Hx as [->|Hx].
  - rewrite count_occ_repeat_eq by auto. rewrite cnt_zero; [lia|]. intros y Hy. apply repeat_each_In, H2 in Hy. lra.
  - rewrite count_occ_repeat_neq; [rewrite IH; auto|]. specialize (H2 x Hx). lra.
Qed.

Section AtR.
Variable eps : R.
Local Hint Extern 0 (Num R) => exact (NumR eps) : typeclass_instances.

Lemma build_mult_spec (k : list R) p mult : (2 <= length k)%nat -> strictly_increasing k ->
  exists f, build_mult_flat_knots k p mult = Ok f /\
    clamped_vector f (p + 1 + mult * (length k - 2)) p (kn k 0) (kn k (length k - 1)) /\
    forall i, (0 < i < length k - 1)%nat -> cnt f (kn k i) = mult.
Proof.
  intros L H. unfold build_mult_flat_knots. destruct (length k) as [|[|n]] eqn:En; try lia.
  assert (Hk : exists a mid b, k = a :: mid ++ [b] /\ length mid = n).
  { destruct k as [|a t]; [discriminate|]. destruct (exists_last (l := t)) as (mid & b & ->).
    { intros ->. discriminate. }
    exists a, mid, b. split; auto. simpl in En. rewrite app_length in En. simpl in En. lia. }
  destruct Hk as (a & mid & b & -> & Ln).
  eexists. split; [apply (proj1 (flat_spec _ _)); cbn [length]; rewrite !app_length, repeat_length; cbn [length]; lia|].
  assert (E : repeat_each (a :: mid ++ [b]) ((p + 1)%nat :: repeat mult n ++ [(p + 1)%nat]) =
    repeat a (p + 1) ++ repeat_each mid (repeat mult (length mid)) ++ repeat b (p + 1)).
  { cbn [repeat_each]. rewrite repeat_each_app by (rewrite repeat_length; auto). rewrite Ln.
    cbn [repeat_each]. rewrite app_nil_r. reflexivity. }
  rewrite E.
  assert (Hb : kn (a :: mid ++ [b]) (S (S n) - 1) = b).
  { unfold kn. replace (S (S n) - 1)%nat with (S n) by lia. cbn [nth]. rewrite app_nth2 by lia. rewrite Ln, Nat.sub_diag. reflexivity. }
  rewrite Hb. change (kn (a :: mid ++ [b]) 0) with a.
  pose proof H as H'. apply si_cons in H' as (H1 & H2).
  assert (Hmid : forall x, In x mid -> a < x < b).
  { intros x Hx. split; [apply H2, in_or_app; auto|]. apply (In_nth _ _ 0) in Hx as (i & Hi & <-).
    specialize (H1 i (length mid) ltac:(lia) ltac:(rewrite app_length; simpl; lia)). unfold kn in H1.
    rewrite app_nth1 in H1 by lia. rewrite app_nth2 in H1 by lia. rewrite Nat.sub_diag in H1. exact H1. }
  assert (Hs : strictly_increasing mid).
  { intros i j Hij Hj. specialize (H1 i j Hij ltac:(rewrite app_length; lia)). unfold kn in *.
    rewrite !app_nth1 in H1 by lia. exact H1. }
  assert (Hab : a < b) by (apply H2, in_or_app; simpl; auto).
  split.
  - pose proof (clamped_of a b (repeat_each mid (repeat mult (length mid))) p Hab (repeat_each_nondec _ _ Hs)
      (fun x Hx => Hmid x (repeat_each_In _ _ _ Hx))) as C.
    rewrite repeat_each_const_len, Ln in C. replace (S (S n) - 2)%nat with n by lia. rewrite Ln. exact C.
  - intros i Hi. destruct i as [|i]; [lia|]. unfold kn. cbn [nth]. rewrite app_nth1 by lia.
    assert (Hin : In (nth i mid 0) mid) by (apply nth_In; lia). pose proof (Hmid _ Hin).
    rewrite !count_occ_app. rewrite !count_occ_repeat_neq by lra. rewrite repeat_each_count; auto. lia.
Qed.

Lemma upd_upd {A} (l : list A) i a b : upd (upd l i a) i b = upd l i b.
Proof. revert i; induction l as [|x l IH]; intros [|i]; simpl; auto. rewrite IH; auto. Qed.

Lemma avg_loop (u : list R) p c : (1 <= p)%nat -> forall m j (v : list R) x, (c < length v)%nat -> (j + m <= length u)%nat ->
  for_ j m (fun i k => let* x := get k c in let* ui := get u i in
        let* q := divc ui (nofnat p) in set k c (nadd x q)) (upd v c x)
  = Ok (upd v c (x + sumn m (fun i => kn u (j + i) / INR p))).
Proof.
  intros Hp. induction m as [|m IH]; intros j v x Hc Hj.
  - cbn [for_ sumn]. rewrite Rplus_0_r. reflexivity.
  - cbn [for_]. rewrite get_upd_same by auto. cbn [bind]. rewrite get_kn by lia. cbn [bind].
    assert (Hq : divc (kn u j) (nofnat p) = Ok (kn u j / INR p))
      by (rewrite nofnat_R; apply divc_ok, not_0_INR; lia).
    rewrite Hq. cbn [bind]. rewrite set_ok by (rewrite upd_length; auto). cbn [bind]. rewrite upd_upd. rewrite IH by (auto; lia). nsimp.
    rewrite sumn_shift, Nat.add_0_r. f_equal. f_equal.
    rewrite Rplus_assoc. f_equal. f_equal. apply sumn_ext. intros i Hi. f_equal. f_equal. lia.
Qed.

Definition avg (u : list R) (p j : nat) : R := sumn p (fun i => kn u (j + i)) / INR p.

Lemma build_simple_vals (u : list R) p : (1 <= p)%nat -> (p + 1 <= length u)%nat ->
  exists k, build_simple_mult_flat_knots u p = Ok k /\ length k = (length u + p + 1)%nat /\
    (forall i, (i <= p)%nat -> kn k i = kn u 0) /\
    (forall i, (length u <= i <= length u + p)%nat -> kn k i = kn u (length u - 1)) /\
    (forall i, (p < i < length u)%nat -> kn k i = avg u p (i - p)).
Proof.
  intros Hp Hn. unfold build_simple_mult_flat_knots.
  assert (Hf : front u = Ok (kn u 0)) by (destruct u; [simpl in Hn; lia|reflexivity]).
  rewrite Hf, back_kn by lia. cbn [bind].
  destruct (set_loop (fun _ => kn u 0) (fun i k => set k i (kn u 0)) 0 0 (p + 1) 0 (filled (length u + p + 1) 0)) as (k1 & E1 & L1 & H1).
  { intros; rewrite Nat.add_0_r; auto. } { rewrite filled_length; lia. }
  nsimp. rewrite E1. cbn [bind]. rewrite filled_length in L1.
  destruct (set_loop (fun _ => kn u (length u - 1)) (fun i k => set k i (kn u (length u - 1))) 0 0 (p + 1) (length u) k1) as (k2 & E2 & L2 & H2).
  { intros; rewrite Nat.add_0_r; auto. } { lia. }
  replace (length u + p + 1 - p - 1)%nat with (length u) by lia. rewrite E2. cbn [bind].
  assert (H3 : exists k, (if (2 <? length u)%nat then let* np := subi (length u) p in
      for_ 1 (np - 1) (fun j k => let* k := set k (j + p) 0 in
       for_ j p (fun i k => let* x := get k (j + p) in let* ui := get u i in
        let* q := divc ui (nofnat p) in set k (j + p) (x + q)) k) k2 else Ok k2) = Ok k /\
     length k = (length u + p + 1)%nat /\
     forall j, nth j k 0 = if ((p + 1 <=? j) && (j <? length u))%nat then avg u p (j - p) else nth j k2 0).
  { destruct (Nat.ltb_spec 2 (length u)) as [H2n|H2n].
    - rewrite subi_ok by lia. cbn [bind].
      destruct (set_loop (fun j => avg u p j) (fun j k => let* k := set k (j + p) 0 in
       for_ j p (fun i k => let* x := get k (j + p) in let* ui := get u i in
        let* q := divc ui (nofnat p) in set k (j + p) (x + q)) k) p 0 (length u - p - 1) 1 k2) as (k3 & E3 & L3 & H3).
      { intros j v Hj. unfold set at 1 3. destruct (Nat.ltb_spec (j + p) (length v)); cbn [bind]; [|reflexivity].
        rewrite (avg_loop u p (j + p)) by lia. rewrite Rplus_0_l. unfold avg. f_equal. f_equal.
        unfold Rdiv. rewrite Rmult_comm, <- sumn_scal. apply sumn_ext. intros; ring. }
      { lia. }
      exists k3. split; [exact E3|]. split; [lia|]. intros j. rewrite H3.
      replace (1 + p)%nat with (p + 1)%nat by lia. replace (1 + (length u - p - 1) + p)%nat with (length u) by lia. reflexivity.
    - exists k2. split; [reflexivity|]. split; [lia|]. intros j.
      destruct (Nat.leb_spec (p + 1) j), (Nat.ltb_spec j (length u)); cbn [andb]; auto; lia. }
  destruct H3 as (k & E & L & H). exists k. split; [exact E|].
  assert (K0 : forall i, (i <= p)%nat -> kn k i = kn u 0).
  { intros i Hi. unfold kn. rewrite H. destruct (Nat.leb_spec (p + 1) i); [lia|]. cbn [andb]. rewrite H2.
    destruct (Nat.leb_spec (length u + 0) i); [lia|]. cbn [andb]. rewrite H1.
    destruct (Nat.leb_spec (0 + 0) i), (Nat.ltb_spec i (0 + (p + 1) + 0)); try lia. reflexivity. }
  assert (K1 : forall i, (length u <= i <= length u + p)%nat -> kn k i = kn u (length u - 1)).
  { intros i Hi. unfold kn at 1. rewrite H. destruct (Nat.leb_spec (p + 1) i), (Nat.ltb_spec i (length u)); try lia. cbn [andb].
    rewrite H2. destruct (Nat.leb_spec (length u + 0) i), (Nat.ltb_spec i (length u + (p + 1) + 0)); try lia. reflexivity. }
  assert (K2 : forall i, (p < i < length u)%nat -> kn k i = avg u p (i - p)).
  { intros i Hi. unfold kn. rewrite H. destruct (Nat.leb_spec (p + 1) i), (Nat.ltb_spec i (length u)); try lia. reflexivity. }
  auto.
Qed.

Lemma build_simple_spec (u : list R) p : (1 <= p)%nat -> (p + 1 <= length u)%nat -> strictly_increasing u ->
  exists k, build_simple_mult_flat_knots u p = Ok k /\
    clamped_vector k (length u) p (kn u 0) (kn u (length u - 1)) /\
    (forall j, (1 <= j < length u - p)%nat -> kn k (j + p) = avg u p j) /\
    (forall i, (p <= i < length u)%nat -> kn k i < kn k (S i)).
Proof.
  intros Hp Hn Hs. destruct (build_simple_vals u p Hp Hn) as (k & E & L & K0 & K1 & K2).
  exists k. split; [exact E|].
  assert (Pp : 0 < INR p) by (apply lt_0_INR; lia).
  assert (Hcst : forall c, c = sumn p (fun _ => c) / INR p) by (intros c; rewrite sumn_const; field; lra).
  assert (Hlt : forall f g, (forall i, (i < p)%nat -> f i < g i) -> sumn p f / INR p < sumn p g / INR p).
  { intros f g Hfg. apply Rmult_lt_compat_r; [apply Rinv_0_lt_compat; auto|].
    clear - Hfg Hp. induction p as [|q IH]; [lia|]. cbn [sumn]. destruct q as [|q].
    - cbn [sumn]. specialize (Hfg 0%nat ltac:(lia)). lra.
    - specialize (IH ltac:(lia) ltac:(intros; apply Hfg; lia)). specialize (Hfg (S q) ltac:(lia)). lra. }
  assert (Kin : forall i, (p < i < length u)%nat -> kn u 0 < kn k i < kn u (length u - 1)).
  { intros i Hi. rewrite K2 by auto. unfold avg. split.
    - rewrite (Hcst (kn u 0)) at 1. apply Hlt. intros j Hj. apply Hs; lia.
    - rewrite (Hcst (kn u (length u - 1))). apply Hlt. intros j Hj. apply Hs; lia. }
  assert (K3 : forall i, (p <= i < length u)%nat -> kn k i < kn k (S i)).
  { intros i Hi. destruct (Nat.eq_dec i p) as [->|Hip].
    - rewrite (K0 p) by lia. destruct (Nat.eq_dec (S p) (length u)) as [Hl|Hl].
      + rewrite K1 by lia. apply Hs; lia.
      + apply Kin; lia.
    - destruct (Nat.eq_dec (S i) (length u)) as [Hl|Hl].
      + rewrite (K1 (S i)) by lia. apply Kin; lia.
      + rewrite !K2 by lia. apply Hlt. intros j Hj. apply Hs; lia. }
  split; [split; [exact L|split; [|split; [|split]]]|split]; auto.
  - apply succ_nondecreasing. intros i Hi. destruct (Nat.lt_ge_cases i p).
    + rewrite !K0 by lia. lra.
    + destruct (Nat.lt_ge_cases i (length u)); [apply Rlt_le, K3; lia|]. rewrite !K1 by lia. lra.
  - intros j Hj. rewrite K2 by lia. f_equal. lia.
Qed.

Lemma build_range_spec a b n p : (p < n)%nat -> a < b ->
  exists k, build_simple_mult_flat_knots_range a b n p = Ok k /\ clamped_vector k n p a b /\
    (forall j, (0 <= j < n - p)%nat -> kn k (j + p) = a + (b - a) * INR j / INR (n - p + 1)).
Proof.
  intros Hn Hab. unfold build_simple_mult_flat_knots_range.
  destruct (set_loop (fun _ => a) (fun i k => set k i a) 0 0 (p + 1) 0 (filled (n + p + 1) 0)) as (k1 & E1 & L1 & H1).
  { intros; rewrite Nat.add_0_r; auto. } { rewrite filled_length; lia. }
  nsimp. rewrite E1. cbn [bind]. rewrite filled_length in L1.
  destruct (set_loop (fun _ => b) (fun i k => set k i b) 0 0 (p + 1) n k1) as (k2 & E2 & L2 & H2).
  { intros; rewrite Nat.add_0_r; auto. } { lia. }
  replace (n + p + 1 - p - 1)%nat with n by lia. rewrite E2. cbn [bind]. rewrite subi_ok by lia. cbn [bind].
  destruct (set_loop (fun j => a + (b - a) * INR j / INR (n - p + 1)) (fun j k =>
      let* q := divc ((b - a) * nofnat j) (nofnat (n - p + 1)) in set k (j + p) (a + q)) p 0 (n - p - 1) 1 k2) as (k & E & L & H).
  { intros j v Hj. rewrite !nofnat_R. rewrite divc_ok by (apply not_0_INR; lia). reflexivity. } { lia. }
  exists k. split; [exact E|].
  assert (K0 : forall i, (i <= p)%nat -> kn k i = a).
  { intros i Hi. unfold kn. rewrite H. destruct (Nat.leb_spec (1 + p) i); [lia|]. cbn [andb]. rewrite H2.
    destruct (Nat.leb_spec (n + 0) i); [lia|]. cbn [andb]. rewrite H1.
    destruct (Nat.leb_spec (0 + 0) i), (Nat.ltb_spec i (0 + (p + 1) + 0)); try lia. reflexivity. }
  assert (K1 : forall i, (n <= i <= n + p)%nat -> kn k i = b).
  { intros i Hi. unfold kn. rewrite H. destruct (Nat.leb_spec (1 + p) i), (Nat.ltb_spec i (1 + (n - p - 1) + p)); try lia. cbn [andb].
    rewrite H2. destruct (Nat.leb_spec (n + 0) i), (Nat.ltb_spec i (n + (p + 1) + 0)); try lia. reflexivity. }
  assert (K2 : forall i, (p < i < n)%nat -> kn k i = a + (b - a) * INR (i - p) / INR (n - p + 1)).
  { intros i Hi. unfold kn. rewrite H. destruct (Nat.leb_spec (1 + p) i), (Nat.ltb_spec i (1 + (n - p - 1) + p)); try lia. reflexivity. }
  assert (Pp : 0 < INR (n - p + 1)) by (apply lt_0_INR; lia).
  assert (Hg : forall x y, x < y -> a + (b - a) * x / INR (n - p + 1) < a + (b - a) * y / INR (n - p + 1)).
  { intros x y Hxy. apply Rplus_lt_compat_l. apply Rmult_lt_compat_r; [apply Rinv_0_lt_compat; auto|].
    apply Rmult_lt_compat_l; lra. }
  assert (Kin : forall i, (p < i < n)%nat -> a < kn k i < b).
  { intros i Hi. rewrite K2 by auto. split.
    - apply Rle_lt_trans with (a + (b - a) * 0 / INR (n - p + 1)); [apply Req_le; field; lra|]. apply Hg. apply lt_0_INR; lia.
    - apply Rlt_le_trans with (a + (b - a) * INR (n - p + 1) / INR (n - p + 1)); [apply Hg, lt_INR; lia|].
      apply Req_le; field; lra. }
  split; [split; [lia|split; [|split; [|split]]]|]; auto.
  - apply succ_nondecreasing. intros i Hi. destruct (Nat.lt_ge_cases i p); [rewrite !K0 by lia; lra|].
    destruct (Nat.lt_ge_cases i n); [|rewrite !K1 by lia; lra].
    destruct (Nat.eq_dec i p) as [->|Hip].
    + rewrite (K0 p) by lia. destruct (Nat.eq_dec (S p) n) as [Hl|Hl]; [rewrite K1 by lia; lra|].
      apply Rlt_le, Kin; lia.
    + destruct (Nat.eq_dec (S i) n) as [Hl|Hl]; [rewrite (K1 (S i)) by lia; apply Rlt_le, Kin; lia|].
      rewrite !K2 by lia. apply Rlt_le, Hg, lt_INR. lia.
  - intros j Hj. destruct j as [|j]; [rewrite K0 by lia; cbn [INR]; field; lra|].
    rewrite K2 by lia. do 4 f_equal. lia.
Qed.

(** ** C26 *)
Lemma insert_at_perm {A} (v : list A) i x : Permutation (insert_at v i x) (x :: v).
Proof. unfold insert_at. rewrite <- (firstn_skipn i v) at 3. symmetry. apply Permutation_middle. Qed.

Lemma insert_at_sorted (v : list R) x : nondecreasing v -> nondecreasing (insert_at v (lower_bound v x) x).
Proof.
  intros H. unfold insert_at. apply nondec_app; [apply nondec_firstn; auto| |].
  - apply nondec_cons_i; [apply nondec_skipn; auto|]. intros y Hy. rewrite lb_eps in Hy. apply In_skipn_ge in Hy; auto.
  - intros y z Hy Hz. rewrite lb_eps in *. apply In_firstn_lt in Hy. destruct Hz as [<-|Hz]; [lra|].
    apply In_skipn_ge in Hz; auto. lra.
Qed.

Lemma insert_ordered_spec (v : list R) x : nondecreasing v ->
  nondecreasing (insert_ordered v x) /\ Permutation (insert_ordered v x) (x :: v).
Proof. intros H. split; [apply insert_at_sorted; auto|apply insert_at_perm]. Qed.

Lemma insert_unique_spec (v : list R) x tol : nondecreasing v -> 0 <= tol ->
  nondecreasing (insert_unique_ordered v x tol) /\
  (((exists y, In y v /\ x <= y <= x + tol) /\ insert_unique_ordered v x tol = v) \/
   ((forall y, In y v -> x <= y -> x + tol < y) /\ Permutation (insert_unique_ordered v x tol) (x :: v))).
Proof.
  intros H Ht. unfold insert_unique_ordered. cbv zeta. destruct (nth_error v (lower_bound v x)) as [y|] eqn:E.
  - assert (Hl : (lower_bound v x < length v)%nat) by (apply nth_error_Some; congruence).
    pose proof (lb_at eps v x Hl) as Hy. unfold kn in Hy. rewrite (nth_error_nth _ _ 0 E) in Hy.
    assert (Iy : In y v) by (eapply nth_error_In; eauto).
    nsimp. rewrite nabs_R. rewrite Rabs_left1 by lra. destruct (Rltb_spec tol (- (x - y))) as [Hd|Hd].
    + split; [apply insert_at_sorted; auto|]. right. split; [|apply insert_at_perm].
      intros z Hz Hxz. apply (In_nth _ _ 0) in Hz as (i & Hi & <-). fold (kn v i).
      destruct (Nat.lt_ge_cases i (lower_bound v x)) as [Hlt|Hge].
      * pose proof (lb_below eps v x i Hlt). unfold kn in *. lra.
      * assert (kn v (lower_bound v x) <= kn v i) by (apply H; lia). unfold kn at 1 in H0. rewrite (nth_error_nth _ _ 0 E) in H0. lra.
    + split; auto. left. split; auto. exists y. split; auto. lra.
  - split; [apply insert_at_sorted; auto|]. right. split; [|apply insert_at_perm].
    intros z Hz Hxz. apply (In_nth _ _ 0) in Hz as (i & Hi & <-). apply nth_error_None in E.
    pose proof (lb_below eps v x i ltac:(lia)). unfold kn in *. lra.
Qed.

(** ** C38 *)
Lemma range_spec a b n :
  ((n < 2)%nat -> make_range a b n = Throw LengthError) /\
  ((2 <= n)%nat -> exists v, make_range a b n = Ok v /\ length v = n /\
     kn v 0 = a /\ kn v (n - 1) = b /\
     (forall i, (i < n)%nat -> kn v i = a + INR i * ((b - a) / INR (n - 1))) /\
     (a < b -> strictly_increasing v)).
Proof.
  unfold make_range. split; intros Hn.
  - apply Nat.ltb_lt in Hn. rewrite Hn. reflexivity.
  - destruct (Nat.ltb_spec n 2); [lia|].
    assert (Pn : 0 < INR (n - 1)) by (apply lt_0_INR; lia).
    rewrite nofnat_R. rewrite divc_ok by lra. cbn [bind]. nsimp.
    rewrite set_ok by (rewrite filled_length; lia). cbn [bind].
    set (h := (b - a) / INR (n - 1)).
    assert (G : exists v, (if (2 <? n)%nat then
        let* (v, _) := for_ 1 (n - 1) (fun i (st : list R * R) => let (v, x) := st in
          let* v := set v i (x + h) in Ok (v, x + h)) (upd (filled n 0) 0 a, a) in Ok v
        else Ok (upd (filled n 0) 0 a)) = Ok v /\ length v = n /\
        forall i, (i < n - 1)%nat -> kn v i = a + INR i * h).
    { destruct (Nat.ltb_spec 2 n).
      - destruct (for_inv (fun m (st : list R * R) => let (v, x) := st in
           length v = n /\ x = a + INR (m - 1) * h /\ forall i, (i < m)%nat -> kn v i = a + INR i * h)
          (fun i (st : list R * R) => let (v, x) := st in
          let* v := set v i (x + h) in Ok (v, x + h)) 1 (n - 1) (upd (filled n 0) 0 a, a)) as ((v & x) & E & L & _ & V).
        + cbv beta iota. rewrite upd_length, filled_length. split; [auto|]. split; [cbn [Nat.sub INR]; ring|].
          intros i Hi. replace i with 0%nat by lia. unfold kn. rewrite nth_upd, filled_length.
          destruct (Nat.ltb_spec 0 n); [|lia]. cbn. ring.
        + intros i (v & x) Hi (L & X & V). rewrite set_ok by lia. cbn [bind]. eexists. split; [reflexivity|].
          cbv beta iota. rewrite upd_length. split; [auto|]. rewrite X. replace (S i - 1)%nat with (S (i - 1)) by lia. rewrite S_INR.
          split; [ring|]. intros j Hj. unfold kn. rewrite nth_upd. destruct (Nat.eqb_spec i j) as [->|Hne].
          * destruct (Nat.ltb_spec j (length v)); [|lia]. cbn [andb]. replace (INR j) with (INR (j - 1) + 1); [ring|].
            rewrite <- S_INR. f_equal. lia.
          * cbn [andb]. apply V. lia.
        + rewrite E. cbn [bind]. exists v. split; [reflexivity|]. split; [auto|]. intros i Hi. apply V. lia.
      - exists (upd (filled n 0) 0 a). split; [reflexivity|]. rewrite upd_length, filled_length. split; [auto|].
        intros i Hi. replace i with 0%nat by lia. unfold kn. rewrite nth_upd, filled_length.
        destruct (Nat.ltb_spec 0 n); [|lia]. cbn. ring. }
    destruct G as (v & E & L & V). rewrite E. cbn [bind]. rewrite set_ok by lia.
    exists (upd v (n - 1) b). split; [reflexivity|]. rewrite upd_length. split; [auto|].
    assert (W : forall i, (i < n)%nat -> kn (upd v (n - 1) b) i = a + INR i * h).
    { intros i Hi. unfold kn. rewrite nth_upd. destruct (Nat.eqb_spec (n - 1) i) as [<-|Hne].
      - destruct (Nat.ltb_spec (n - 1) (length v)); [|lia]. cbn [andb]. unfold h. field. lra.
      - cbn [andb]. apply V. lia. }
    split; [rewrite W by lia; cbn [INR]; ring|]. split; [|split].
    + rewrite W by lia. unfold h. field. lra.
    + exact W.
    + intros Hab i j Hij Hj. rewrite upd_length, L in Hj. rewrite !W by lia. apply Rplus_lt_compat_l.
      apply Rmult_lt_compat_r; [|apply lt_INR; auto]. unfold h. apply Rdiv_lt_0_compat; lra.
Qed.

Definition gcoord (a b : R) (n i : nat) : R := a + (b - a) * INR i / INR (n - 1).
Lemma grid_ok a b n i : (2 <= n)%nat -> grid_coord a b n i = Ok (gcoord a b n i).
Proof. intros H. unfold grid_coord. rewrite !nofnat_R. rewrite divc_ok by (apply not_0_INR; lia). reflexivity. Qed.

(** Loop over rows of nv consecutive cells. *)
Lemma grid_loop {A} (f : nat -> nat -> A) d nv body row : (forall i j v, (j < nv)%nat -> row i j v = set v (j + nv * i) (f i j)) ->
  (forall i v, body i v = for_ 0 nv (row i) v) -> forall nu v, length v = (nu * nv)%nat ->
  exists v', for_ 0 nu body v = Ok v' /\ length v' = (nu * nv)%nat /\
    forall i j, (i < nu)%nat -> (j < nv)%nat -> nth (j + nv * i) v' d = f i j.
Proof.
  intros Hr Hb nu v L.
  destruct (for_inv (fun m v => length v = (nu * nv)%nat /\ forall i j, (i < m)%nat -> (j < nv)%nat -> nth (j + nv * i) v d = f i j)
     body 0 nu v) as (v' & E & L' & V).
  - split; auto. intros; lia.
  - intros i w Hi (Lw & Vw). rewrite Hb.
    destruct (set_loop (f i) (row i) (nv * i) d nv 0 w) as (w' & Ew & Lw' & Hw).
    { intros j x Hj. apply Hr. lia. } { rewrite Lw. nia. }
    exists w'. split; [exact Ew|]. split; [lia|]. intros i' j Hi' Hj. rewrite Hw.
    destruct (Nat.eq_dec i' i) as [->|Hne].
    + destruct (Nat.leb_spec (0 + nv * i) (j + nv * i)), (Nat.ltb_spec (j + nv * i) (0 + nv + nv * i)); try lia.
      cbn [andb]. f_equal. lia.
    + destruct (Nat.leb_spec (0 + nv * i) (j + nv * i')) as [Hc|Hc]; cbn [andb]; [nia|]. apply Vw; lia.
  - exists v'. split; [exact E|]. split; [exact L'|]. intros i j Hi Hj. apply V; auto.
Qed.

Lemma range2_spec u1 u2 v1 v2 nu nv :
  ((nu < 2 \/ nv < 2)%nat -> make_range2 u1 u2 v1 v2 nu nv = Throw LengthError) /\
  ((2 <= nu)%nat -> (2 <= nv)%nat -> exists v, make_range2 u1 u2 v1 v2 nu nv = Ok v /\ length v = (nu * nv)%nat /\
     forall i j, (i < nu)%nat -> (j < nv)%nat -> nth (j + nv * i) v (0, 0) = (gcoord u1 u2 nu i, gcoord v1 v2 nv j)).
Proof.
  unfold make_range2. split.
  - intros H. destruct (Nat.ltb_spec nu 2), (Nat.ltb_spec nv 2); cbn [orb]; auto; lia.
  - intros H1 H2. destruct (Nat.ltb_spec nu 2), (Nat.ltb_spec nv 2); cbn [orb]; try lia.
    eapply (grid_loop (fun i j => (gcoord u1 u2 nu i, gcoord v1 v2 nv j)) (0, 0) nv); [|intros; reflexivity|].
    + intros i j v Hj. cbv beta. rewrite !grid_ok by auto. reflexivity.
    + apply filled_length.
Qed.
End AtR.
