(** The class invariant over histories of member calls. *)
From Coq Require Import List Arith ZArith Reals Lia Lra Bool Permutation.
From Verif Require Import Model_Base Model_Basis Model_Knots Model_Removal Model_Rational Model_Curve
  Spec_Base Spec_Basis Spec_Eval Spec_Class Proof_Base Proof_Blossom Proof_Basis Proof_Ders Proof_Eval
  Proof_Refine Proof_Insert Proof_Boehm Proof_PropInsert Proof_Continuity Proof_Trim Proof_Unique Proof_PropRemove2
  Proof_Total Proof_Ctor Proof_Affine Proof_Curve.
Import ListNotations.
Local Open Scope R_scope.

Notation cnt := (count_occ Req_EM_T).

Definition kv (k : list R) (p : nat) (lo hi : R) : Prop :=
  nondecreasing k /\ (1 <= p)%nat /\ lo < hi /\ (forall x, In x k -> lo <= x <= hi) /\
  cnt k lo = (p + 1)%nat /\ cnt k hi = (p + 1)%nat /\ forall x, lo < x < hi -> (cnt k x <= p)%nat.

Lemma cnt_In k x : (0 < cnt k x)%nat -> In x k.
Proof. intros H. apply (count_occ_In Req_EM_T). lia. Qed.
Lemma kn_In k i : (i < length k)%nat -> In (kn k i) k.
Proof. intros H. apply nth_In. exact H. Qed.

Lemma sorted_first k lo : nondecreasing k -> In lo k -> (forall x, In x k -> lo <= x) -> kn k 0 = lo.
Proof.
  intros Hs Hi Hl. apply (In_nth _ _ 0) in Hi as (i & Hi & Ei).
  assert (kn k 0 <= kn k i) by (apply Hs; lia). unfold kn in H at 2. rewrite Ei in H.
  specialize (Hl (kn k 0) (kn_In k 0 ltac:(lia))). lra.
Qed.
Lemma sorted_last k hi : nondecreasing k -> In hi k -> (forall x, In x k -> x <= hi) -> kn k (length k - 1) = hi.
Proof.
  intros Hs Hi Hl. apply (In_nth _ _ 0) in Hi as (i & Hi & Ei).
  assert (kn k i <= kn k (length k - 1)) by (apply Hs; lia). unfold kn in H at 1. rewrite Ei in H.
  specialize (Hl (kn k (length k - 1)) (kn_In k (length k - 1) ltac:(lia))). lra.
Qed.

Lemma two_counts k (x y : R) : x <> y -> (cnt k x + cnt k y <= length k)%nat.
Proof.
  intros H. induction k as [|z k IH]; [simpl; lia|]. simpl.
  destruct (Req_EM_T z x); destruct (Req_EM_T z y); try lia. congruence.
Qed.

Lemma kv_ends k p lo hi : kv k p lo hi -> kn k 0 = lo /\ kn k (length k - 1) = hi /\ (2 * p + 2 <= length k)%nat.
Proof.
  intros (Hs & Hp & Hlt & Hin & C1 & C2 & C3). split; [|split].
  - apply sorted_first; auto; [apply cnt_In; lia|]. intros x Hx; apply Hin; auto.
  - apply sorted_last; auto; [apply cnt_In; lia|]. intros x Hx; apply Hin; auto.
  - pose proof (two_counts k lo hi ltac:(lra)). lia.
Qed.

Lemma kv_index k p lo hi n : kv k p lo hi -> length k = (n + p + 1)%nat ->
  (forall i, (i <= p)%nat -> kn k i = lo) /\ lo < kn k (S p) /\
  (forall i, (n <= i <= n + p)%nat -> kn k i = hi) /\ kn k (n - 1) < hi /\ (p < n)%nat.
Proof.
  intros H L. pose proof (kv_ends k p lo hi H) as (E0 & E1 & E2).
  destruct H as (Hs & Hp & Hlt & Hin & C1 & C2 & C3).
  pose proof (count_range 0 k lo Hs) as R1. pose proof (count_range 0 k hi Hs) as R2.
  pose proof (ub_le 0 k lo). pose proof (ub_le 0 k hi) as Uh.
  assert (L0 : @lower_bound R (NumR 0) k lo = 0%nat).
  { destruct (@lower_bound R (NumR 0) k lo) eqn:El; auto.
    pose proof (lb_below 0 k lo 0 ltac:(lia)). lra. }
  assert (U1 : @upper_bound R (NumR 0) k hi = length k).
  { destruct (Nat.lt_ge_cases (@upper_bound R (NumR 0) k hi) (length k)) as [Hb|Hb]; [|lia].
    pose proof (ub_at 0 k hi Hb). pose proof (Hin _ (kn_In k _ Hb)). lra. }
  split; [|split; [|split; [|split]]].
  - intros i Hi. apply (eqrange 0); auto. lia.
  - assert (Hb : (@upper_bound R (NumR 0) k lo < length k)%nat) by lia.
    pose proof (ub_at 0 k lo Hb) as Hu. rewrite R1, L0, C1 in Hu. replace (S p) with (0 + (p + 1))%nat by lia. exact Hu.
  - intros i Hi. apply (eqrange 0); auto. lia.
  - apply (lb_below 0). lia.
  - lia.
Qed.

Lemma standard_kv c : standard c <->
  (length (c_knots c) = (c_n c + c_deg c + 1)%nat /\
   exists lo hi, kv (c_knots c) (c_deg c) lo hi).
Proof.
  unfold standard, shape_ok. split.
  - intros ((A & B & C) & D & E & F & G & H). split; [exact A|].
    exists (kn (c_knots c) 0), (kn (c_knots c) (c_n c + c_deg c)).
    split; [exact C|]. split; [exact D|]. split; [exact E|]. split; [|auto].
    intros x Hx. apply (In_nth _ _ 0) in Hx as (i & Hi & <-). fold (kn (c_knots c) i).
    split; apply C; lia.
  - intros (A & lo & hi & H). pose proof (kv_ends _ _ _ _ H) as (E0 & E1 & E2).
    pose proof (kv_index _ _ _ _ _ H A) as (I1 & I2 & I3 & I4 & I5).
    destruct H as (Hs & Hp & Hlt & Hin & C1 & C2 & C3).
    replace (c_n c + c_deg c)%nat with (length (c_knots c) - 1)%nat by lia. rewrite E0, E1.
    repeat split; auto. lia.
Qed.

Lemma standard_wf c : standard c -> well_formed c /\ clamped_curve c.
Proof.
  intros H. pose proof H as (A & _). apply standard_kv in H. destruct H as (L & lo & hi & H).
  pose proof (kv_index _ _ _ _ _ H L) as (I1 & I2 & I3 & I4 & I5).
  split.
  - split; [exact A|]. rewrite (I1 (c_deg c)) by lia. rewrite (I3 (c_n c)) by lia. auto.
  - split; intros i Hi; [rewrite (I1 i), (I1 0%nat) by lia; auto|].
    rewrite (I3 i), (I3 (c_n c)) by lia; auto.
Qed.

(** Counting around lower_bound. *)
Lemma cnt_zero k x : (forall y, In y k -> y <> x) -> cnt k x = 0%nat.
Proof. intros H. apply (proj1 (count_occ_not_In Req_EM_T _ _)). intros Hi. exact (H x Hi eq_refl). Qed.

Lemma In_firstn_lt (k : list R) u x : In x (firstn (@lower_bound R (NumR 0) k u) k) -> x < u.
Proof.
  intros Hi. apply (In_nth _ _ 0) in Hi as (i & Hi & Ei). rewrite firstn_length in Hi.
  fold (kn (firstn (@lower_bound R (NumR 0) k u) k) i) in Ei. rewrite kn_firstn in Ei by lia.
  pose proof (lb_below 0 k u i ltac:(lia)). lra.
Qed.
Lemma In_skipn_ge (k : list R) u x : nondecreasing k -> In x (skipn (@lower_bound R (NumR 0) k u) k) -> u <= x.
Proof.
  intros Hs Hi. apply (In_nth _ _ 0) in Hi as (i & Hi & Ei). rewrite skipn_length in Hi.
  fold (kn (skipn (@lower_bound R (NumR 0) k u) k) i) in Ei. rewrite kn_skipn in Ei.
  assert (Hb : (@lower_bound R (NumR 0) k u < length k)%nat) by lia.
  pose proof (lb_at 0 k u Hb). rewrite <- Ei. apply Rle_trans with (1 := H). apply Hs; lia.
Qed.

Lemma cnt_skip_ge k u x : nondecreasing k -> u <= x -> cnt (skipn (@lower_bound R (NumR 0) k u) k) x = cnt k x.
Proof.
  intros Hs Hx. rewrite <- (firstn_skipn (@lower_bound R (NumR 0) k u) k) at 3. rewrite count_occ_app.
  rewrite (cnt_zero (firstn _ k)); [reflexivity|]. intros y Hy. apply In_firstn_lt in Hy. lra.
Qed.
Lemma cnt_first_lt k u x : nondecreasing k -> x < u -> cnt (firstn (@lower_bound R (NumR 0) k u) k) x = cnt k x.
Proof.
  intros Hs Hx. rewrite <- (firstn_skipn (@lower_bound R (NumR 0) k u) k) at 3. rewrite count_occ_app.
  rewrite (cnt_zero (skipn _ k)); [lia|]. intros y Hy. apply In_skipn_ge in Hy; auto. lra.
Qed.

Lemma lb_eps eps (k : list R) u : @lower_bound R (NumR eps) k u = @lower_bound R (NumR 0) k u.
Proof. induction k as [|x k IH]; [reflexivity|]. simpl. destruct (Rltb x u); auto. Qed.

Lemma nondec_tail_le a k : nondecreasing (a ++ k) -> nondecreasing k.
Proof. intros H i j Hij Hj. specialize (H (length a + i)%nat (length a + j)%nat).
  unfold kn in *. rewrite !app_nth2_plus in H. apply H; [lia|rewrite app_length; lia].
Qed.
Lemma nondec_firstn k m : nondecreasing k -> nondecreasing (firstn m k).
Proof.
  intros H i j Hij Hj. rewrite firstn_length in Hj. rewrite !kn_firstn by lia. apply H; lia.
Qed.
Lemma nondec_skipn k m : nondecreasing k -> nondecreasing (skipn m k).
Proof.
  intros H i j Hij Hj. rewrite skipn_length in Hj. rewrite !kn_skipn. apply H; lia.
Qed.
Lemma nondec_cons_i u k : nondecreasing k -> (forall x, In x k -> u <= x) -> nondecreasing (u :: k).
Proof.
  intros H Hu i j Hij Hj. destruct j as [|j]; [replace i with 0%nat by lia; lra|].
  destruct i as [|i]; [apply (Hu (kn k j)), kn_In; simpl in Hj; lia|]. apply (H i j); simpl in Hj; lia.
Qed.
Lemma nondec_snoc k u : nondecreasing k -> (forall x, In x k -> x <= u) -> nondecreasing (k ++ [u]).
Proof.
  intros H Hu i j Hij Hj. rewrite app_length in Hj. simpl in Hj. unfold kn.
  destruct (Nat.lt_ge_cases j (length k)).
  - rewrite !app_nth1 by lia. apply H; lia.
  - replace j with (length k) by lia. rewrite (app_nth2 k [u] 0 (n := length k)) by lia. rewrite Nat.sub_diag. simpl.
    destruct (Nat.lt_ge_cases i (length k)).
    + rewrite app_nth1 by lia. apply Hu, nth_In; lia.
    + replace i with (length k) by lia. rewrite app_nth2 by lia. rewrite Nat.sub_diag. simpl. lra.
Qed.

Lemma nth_repeat_lt {A} (a d : A) n i : (i < n)%nat -> nth i (repeat a n) d = a.
Proof. revert i. induction n as [|n IH]; intros i Hi; [lia|]. destruct i; simpl; auto. apply IH; lia. Qed.

Section AtR.
Variable eps : R.
Hypothesis Heps : 0 < eps.
Local Hint Extern 0 (Num R) => exact (NumR eps) : typeclass_instances.

(** ** Insertion *)
Lemma kv_insert (k : list R) p lo hi n u r (P : list (pt R)) :
  kv k p lo hi -> length k = (n + p + 1)%nat -> length P = n -> lo <= u < hi -> (1 <= r)%nat ->
  exists idx k1 P1 n1, insert_knots u p r k P = Ok (idx, k1, P1) /\ kv k1 p lo hi /\
    length k1 = (n1 + p + 1)%nat /\ length P1 = n1 /\
    cnt k1 u = max (cnt k u) (min p (cnt k u + r)) /\ (forall x, x <> u -> cnt k1 x = cnt k x).
Proof.
  intros H L LP Hu Hr. pose proof (kv_index k p lo hi n H L) as (I1 & I2 & I3 & I4 & I5).
  assert (Hk : knots_ok k n p) by (repeat split; auto; [apply H|rewrite (I3 n) by lia; auto]).
  destruct (insert_any eps k n p u r P Hk LP ltac:(rewrite (I1 p), (I3 n) by lia; lra) Hr)
    as (idx & k1 & P1 & n1 & E & Hk1 & LP1 & Hnn & _ & _ & _ & _ & C1 & C2 & _).
  exists idx, k1, P1, n1. split; [exact E|].
  assert (Hkv : kv k1 p lo hi).
  { destruct H as (Hs & Hp & Hlt & Hin & D1 & D2 & D3).
    split; [apply Hk1|]. split; [exact Hp|]. split; [exact Hlt|]. split; [|split; [|split]].
    - intros x Hx. destruct (Req_dec x u) as [->|Hne]; [lra|]. apply Hin. apply cnt_In.
      rewrite <- C2 by auto. apply (count_occ_In Req_EM_T). exact Hx.
    - destruct (Req_dec lo u) as [<-|Hne]; [|rewrite C2 by auto; auto]. rewrite C1. lia.
    - rewrite C2 by lra. auto.
    - intros x Hx. destruct (Req_dec x u) as [->|Hne].
      + rewrite C1. specialize (D3 u Hx). lia.
      + rewrite C2 by auto. auto. }
  split; [exact Hkv|]. split; [apply Hk1|]. split; [exact LP1|]. split; auto.
Qed.

Lemma std_insert c u m c' : standard c -> u <= kn (c_knots c) (c_n c + c_deg c) -> (1 <= m)%nat ->
  insertKnot c u m = Ok c' -> standard c' /\ c_deg c' = c_deg c /\
    kn (c_knots c') (c_n c' + c_deg c') = kn (c_knots c) (c_n c + c_deg c).
Proof.
  intros Hc Hu Hm E. pose proof Hc as ((_ & Hn & _) & _). apply standard_kv in Hc. destruct Hc as (L & lo & hi & H).
  pose proof (kv_ends _ _ _ _ H) as (E0 & E1 & _).
  replace (length (c_knots c) - 1)%nat with (c_n c + c_deg c)%nat in E1 by lia. rewrite E1 in *.
  unfold insertKnot in E. destruct (Rlt_le_dec u lo) as [Hl|Hl].
  - rewrite insert_below in E; [discriminate|apply H| | |].
    + unfold c_n in Hn. destruct (c_poles c); [simpl in Hn; lia|congruence].
    + rewrite E0; auto.
    + intros Hk. rewrite Hk in L. simpl in L. lia.
  - destruct (Req_dec u hi) as [->|Hne].
    + destruct (insert_saturated eps (c_knots c) (c_deg c) hi m (c_poles c)) as (idx & Es).
      { apply H. } { unfold c_n in Hn. destruct (c_poles c); [simpl in Hn; lia|congruence]. }
      { destruct H as (_ & _ & _ & _ & _ & H2 & _). rewrite H2. lia. }
      rewrite Es in E. cbn [bind] in E. injection E as <-. cbn [c_deg c_knots c_poles]. split; [|split; auto].
      apply standard_kv. cbn [c_deg c_knots c_poles]. unfold c_n in *. cbn [c_poles]. split; [exact L|exists lo, hi; exact H].
    + destruct (kv_insert (c_knots c) (c_deg c) lo hi (c_n c) u m (c_poles c) H L eq_refl ltac:(lra) Hm)
        as (idx & k1 & P1 & n1 & Es & H1 & L1 & LP & _).
      rewrite Es in E. cbn [bind] in E. injection E as <-.
      pose proof (kv_ends _ _ _ _ H1) as (F0 & F1 & _).
      cbn [c_deg c_knots c_poles]. split; [|split; auto].
      * apply standard_kv. unfold c_n. cbn [c_deg c_knots c_poles]. split; [rewrite LP; exact L1|exists lo, hi; exact H1].
      * unfold c_n. cbn [c_poles c_knots c_deg]. rewrite LP. replace (n1 + c_deg c)%nat with (length k1 - 1)%nat by lia. exact F1.
Qed.

Lemma std_inserts l : forall c c', standard c -> (forall um, In um l -> fst um <= kn (c_knots c) (c_n c + c_deg c)) ->
  insertKnots c l = Ok c' -> standard c'.
Proof.
  unfold insertKnots. induction l as [|[u m] l IH]; intros c c' Hc Hl E; cbn [foldM] in E.
  - injection E as <-. exact Hc.
  - apply bind_inv in E as (c1 & E1 & E2). cbn [fst snd] in E1.
    destruct (Nat.ltb_spec (multiplicity_eps (c_knots c) u) m).
    + destruct (std_insert c u (m - multiplicity_eps (c_knots c) u) c1 Hc (Hl (u, m) ltac:(simpl; auto)) ltac:(lia) E1) as (A & B & C).
      apply (IH c1 c' A); auto. intros um Hin. rewrite C. apply Hl. simpl; auto.
    + injection E1 as <-. apply (IH c c' Hc); auto. intros um Hin. apply Hl. simpl; auto.
Qed.

(** ** Removal *)
Lemma std_remove dist c u tol m c' : standard c -> (m <= cnt (c_knots c) u)%nat ->
  removeKnot dist c u tol m = Ok c' -> standard c'.
Proof.
  intros Hc Hm E. destruct (standard_wf c Hc) as (Hw & Hcl). pose proof (wf_knots c Hw) as Hk.
  pose proof Hc as ((_ & Hn & _) & _). apply standard_kv in Hc. destruct Hc as (L & lo & hi & H).
  pose proof (kv_index _ _ _ _ _ H L) as (I1 & I2 & I3 & I4 & I5).
  unfold removeKnot in E. apply bind_inv in E as (((t & U') & P') & E1 & E2). injection E2 as <-.
  destruct (remove_reported eps dist u (c_deg c) m (c_knots c) (c_poles c) tol t U' P') as (j & -> & Hj & LP & a & b & Ea & ->).
  { apply H. } { exact Hm. } { exact E1. }
  assert (Hkv : kv (a ++ b) (c_deg c) lo hi).
  { assert (Hs : nondecreasing (a ++ b)) by (apply (nondec_app_mid a (repeat u j) b); rewrite <- Ea; apply H).
    assert (Hc0 : forall x, cnt (c_knots c) x = (cnt (a ++ b) x + if Req_EM_T x u then j else 0)%nat).
    { intros x. rewrite Ea at 1. rewrite !count_occ_app, count_repeat. lia. }
    destruct (Nat.eq_dec j 0) as [->|Hj0].
    { simpl in Ea. rewrite <- Ea. exact H. }
    assert (Hul : u <> lo).
    { intros ->. rewrite (remove_first eps (c_knots c) (c_n c) (c_deg c) lo m) in E1; auto; try discriminate; try lra.
      - apply Hw. - lia. - apply H. - rewrite I1 by lia; auto. }
    assert (Huh : u <> hi).
    { intros ->. rewrite (remove_last eps (c_knots c) (c_n c) (c_deg c) hi m) in E1; auto; try discriminate; try lra.
      - lia. - rewrite I3 by lia; auto. }
    destruct H as (_ & Hp & Hlt & Hin & D1 & D2 & D3).
    split; [exact Hs|]. split; [exact Hp|]. split; [exact Hlt|]. split; [|split; [|split]].
    - intros x Hx. apply Hin. apply cnt_In. rewrite Hc0. apply (count_occ_In Req_EM_T) in Hx. lia.
    - specialize (Hc0 lo). destruct (Req_EM_T lo u); [congruence|]. lia.
    - specialize (Hc0 hi). destruct (Req_EM_T hi u); [congruence|]. lia.
    - intros x Hx. specialize (Hc0 x). specialize (D3 x Hx). destruct (Req_EM_T x u); lia. }
  apply standard_kv. unfold c_n in *. cbn [c_deg c_knots c_poles]. split; [|exists lo, hi; exact Hkv].
  rewrite Ea in L. rewrite !app_length, repeat_length in L. rewrite app_length. lia.
Qed.

(** ** Reversal *)
Lemma cnt_map (f : R -> R) k x : (forall a b, f a = f b -> a = b) -> cnt (map f k) (f x) = cnt k x.
Proof.
  intros Hf. induction k as [|y k IH]; [reflexivity|]. simpl.
  destruct (Req_EM_T (f y) (f x)) as [E|E]; destruct (Req_EM_T y x) as [E'|E']; rewrite IH; auto.
  - exfalso. apply E', Hf, E.
  - exfalso. apply E. rewrite E'. reflexivity.
Qed.
Lemma cnt_rev k x : cnt (rev k) x = cnt k x.
Proof.
  assert (H : Permutation (rev k) k) by (apply Permutation_sym, Permutation_rev).
  exact (proj1 (Permutation_count_occ Req_EM_T _ _) H x).
Qed.

Lemma kv_krev k p lo hi : kv k p lo hi -> kv (krev k) p lo hi.
Proof.
  intros H. pose proof (kv_ends k p lo hi H) as (E0 & E1 & E2).
  destruct H as (Hs & Hp & Hlt & Hin & C1 & C2 & C3).
  assert (Hc : forall x, cnt (krev k) x = cnt k (lo + hi - x)).
  { intros x. unfold krev. rewrite E0, E1.
    rewrite <- (cnt_rev k (lo + hi - x)). rewrite <- (cnt_map (fun y => lo + hi - y) (rev k)) by (intros; lra).
    f_equal. ring. }
  assert (Hi : forall x, In x (krev k) <-> In (lo + hi - x) k).
  { intros x. rewrite !(count_occ_In Req_EM_T), Hc. tauto. }
  split; [|split; [exact Hp|split; [exact Hlt|split; [|split; [|split]]]]].
  - intros i j Hij Hj. rewrite krev_length in Hj. rewrite !krev_kn by lia.
    assert (kn k (length k - 1 - j) <= kn k (length k - 1 - i)) by (apply Hs; lia). lra.
  - intros x Hx. apply Hi, Hin in Hx. lra.
  - rewrite Hc. replace (lo + hi - lo) with hi by ring. auto.
  - rewrite Hc. replace (lo + hi - hi) with lo by ring. auto.
  - intros x Hx. rewrite Hc. apply C3. lra.
Qed.

Lemma std_reverse c c' : standard c -> reverse c = Ok c' -> standard c'.
Proof.
  intros Hc E. apply standard_kv in Hc. destruct Hc as (L & lo & hi & H).
  rewrite reverse_eq in E by (intros Hk; rewrite Hk in L; simpl in L; lia). injection E as <-.
  apply standard_kv. unfold rev_curve, c_n in *. cbn [c_deg c_knots c_poles].
  rewrite rev_length, krev_length. split; [exact L|]. exists lo, hi. apply kv_krev; auto.
Qed.

(** ** Change of bounds *)
Lemma std_change c a b c' : standard c -> a < b -> changeBounds c a b = Ok c' -> standard c'.
Proof.
  intros Hc Hab E. apply standard_kv in Hc. destruct Hc as (L & lo & hi & H).
  pose proof (kv_ends _ _ _ _ H) as (E0 & E1 & E2).
  unfold changeBounds in E. rewrite change_bounds_eq in E.
  2: { intros Hk; rewrite Hk in L; simpl in L; lia. }
  2: { rewrite E0, E1. destruct H as (_ & _ & H & _). lra. }
  cbn [bind] in E. injection E as <-. rewrite E0, E1.
  set (f := fun x => a + (b - a) * (x - lo) / (hi - lo)).
  destruct H as (Hs & Hp & Hlt & Hin & C1 & C2 & C3).
  assert (Fs : forall x y, x < y -> f x < f y).
  { intros x y Hxy. unfold f. apply Rplus_lt_compat_l. unfold Rdiv. apply Rmult_lt_compat_r.
    - apply Rinv_0_lt_compat; lra.
    - apply Rmult_lt_compat_l; lra. }
  assert (Fi : forall x y, f x = f y -> x = y).
  { intros x y Hxy. destruct (Rtotal_order x y) as [Hl|[Hl|Hl]]; auto; apply Fs in Hl; lra. }
  assert (Fm : forall x y, x <= y -> f x <= f y).
  { intros x y [Hl|Hl]; [apply Rlt_le, Fs; auto|rewrite Hl; lra]. }
  assert (F0 : f lo = a) by (unfold f; field; lra). assert (F1 : f hi = b) by (unfold f; field; lra).
  assert (Fg : forall y, exists x, f x = y).
  { intros y. exists (lo + (y - a) * (hi - lo) / (b - a)). unfold f. field. split; lra. }
  apply standard_kv. unfold c_n in *. cbn [c_deg c_knots c_poles]. rewrite map_length.
  split; [exact L|]. exists a, b. split; [|split; [exact Hp|split; [exact Hab|split; [|split; [|split]]]]].
  - intros i j Hij Hj. rewrite map_length in Hj. unfold kn.
    rewrite !(nth_indep (map f (c_knots c)) 0 (f 0)) by (rewrite map_length; lia).
    rewrite !map_nth. apply Fm, Hs; auto.
  - intros x Hx. apply in_map_iff in Hx as (y & <- & Hy). apply Hin in Hy. rewrite <- F0, <- F1. split; apply Fm; lra.
  - rewrite <- F0. rewrite cnt_map by auto. auto.
  - rewrite <- F1. rewrite cnt_map by auto. auto.
  - intros y Hy. destruct (Fg y) as (x & <-). rewrite cnt_map by auto. apply C3.
    destruct (Rlt_le_dec lo x) as [G1|G1]; [|apply Fm in G1; lra].
    destruct (Rlt_le_dec x hi) as [G2|G2]; [|apply Fm in G2; lra]. lra.
Qed.

(** ** Trimming *)
Lemma kv_trim_begin (k : list R) p lo hi n u (P : list (pt R)) k' P' :
  kv k p lo hi -> length k = (n + p + 1)%nat -> length P = n -> lo <= u < hi ->
  trim_begin p k P u = Ok (k', P') ->
  exists lo' n', kv k' p lo' hi /\ length k' = (n' + p + 1)%nat /\ length P' = n' /\ lo' <= u.
Proof.
  intros H L LP Hu E. pose proof (kv_ends k p lo hi H) as (E0 & E1 & E2).
  unfold trim_begin in E. rewrite front_kn in E by (intros Hk; rewrite Hk in L; simpl in L; lia). cbn [bind] in E. nsimp.
  rewrite E0 in E. destruct (Rltb_spec (u - lo) eps) as [Hl|Hl].
  { injection E as <- <-. exists lo, n. split; [exact H|split; [exact L|split; [exact LP|lra]]]. }
  destruct (kv_insert k p lo hi n u p P H L LP ltac:(lra) ltac:(apply H)) as (idx & k1 & P1 & n1 & Ei & H1 & L1 & LP1 & C1 & C2).
  rewrite Ei in E. cbn [bind] in E. rewrite lb_eps in E.
  apply bind_inv in E as (f & Ef & E). apply bind_inv in E as (il & Es & E).
  unfold subi in Es. destruct (Nat.leb_spec 1 (@lower_bound R (NumR 0) k1 u)) as [Hlb|]; [|discriminate]. injection Es as <-.
  destruct (Nat.leb_spec (@lower_bound R (NumR 0) k1 u - 1) (length P1)); [|discriminate]. injection E as <- <-.
  pose proof (kv_ends k1 p lo hi H1) as (G0 & G1 & G2).
  destruct H1 as (Hs & Hp & Hlt & Hin & D1 & D2 & D3).
  assert (Hcu : cnt k1 u = p).
  { destruct H as (_ & _ & _ & _ & _ & _ & D3'). specialize (D3' u ltac:(lra)). rewrite C1. lia. }
  pose proof (count_range 0 k1 u Hs) as Hr. pose proof (ub_le 0 k1 u) as Hub.
  set (lb := @lower_bound R (NumR 0) k1 u) in *.
  assert (f = u).
  { rewrite front_kn in Ef.
    - rewrite kn_skipn, Nat.add_0_r in Ef. injection Ef as <-. apply (eqrange 0); auto. lia.
    - intros Hn. rewrite Hn in Ef. discriminate. }
  subst f. exists u, (n1 - (lb - 1))%nat.
  split; [|split; [|split; [|lra]]].
  - split; [|split; [exact Hp|split; [lra|split; [|split; [|split]]]]].
    + apply nondec_cons_i; [apply nondec_skipn; auto|]. intros x Hx. apply (In_skipn_ge k1); auto.
    + intros x [<-|Hx]; [lra|]. split; [apply (In_skipn_ge k1); auto|].
      apply Hin. rewrite <- (firstn_skipn lb k1). apply in_or_app; auto.
    + rewrite count_occ_cons_eq by auto. unfold lb. rewrite cnt_skip_ge by (auto; lra). lia.
    + rewrite count_occ_cons_neq by lra. unfold lb. rewrite cnt_skip_ge by (auto; lra). auto.
    + intros x Hx. rewrite count_occ_cons_neq by lra. unfold lb. rewrite cnt_skip_ge by (auto; lra). apply D3. lra.
  - simpl. rewrite skipn_length. assert (lb - 1 <= n1)%nat by (unfold pt in *; lia). lia.
  - rewrite skipn_length. unfold pt in *. lia.
Qed.

Lemma kv_trim_end (k : list R) p lo hi n u (P : list (pt R)) k' P' :
  kv k p lo hi -> length k = (n + p + 1)%nat -> length P = n -> lo < u <= hi ->
  trim_end p k P u = Ok (k', P') ->
  exists hi' n', kv k' p lo hi' /\ length k' = (n' + p + 1)%nat /\ length P' = n'.
Proof.
  intros H L LP Hu E. pose proof (kv_ends k p lo hi H) as (E0 & E1 & E2).
  unfold trim_end in E. rewrite back_kn in E by lia. cbn [bind] in E. nsimp.
  rewrite E1 in E. destruct (Rltb_spec (hi - u) eps) as [Hl|Hl].
  { injection E as <- <-. exists hi, n. split; [exact H|split; [exact L|exact LP]]. }
  destruct (kv_insert k p lo hi n u p P H L LP ltac:(lra) ltac:(apply H)) as (idx & k1 & P1 & n1 & Ei & H1 & L1 & LP1 & C1 & C2).
  rewrite Ei in E. cbn [bind] in E. rewrite lb_eps in E.
  pose proof (kv_ends k1 p lo hi H1) as (G0 & G1 & G2).
  destruct H1 as (Hs & Hp & Hlt & Hin & D1 & D2 & D3).
  assert (Hcu : cnt k1 u = p).
  { destruct H as (_ & _ & _ & _ & _ & _ & D3'). specialize (D3' u ltac:(lra)). rewrite C1. lia. }
  pose proof (count_range 0 k1 u Hs) as Hr. pose proof (ub_le 0 k1 u) as Hub.
  set (lb := @lower_bound R (NumR 0) k1 u) in *.
  destruct (Nat.leb_spec (lb + p) (length k1)) as [Hle|]; [|discriminate].
  apply bind_inv in E as (b & Eb & E).
  destruct (Nat.leb_spec lb (length P1)) as [HlP|]; [|discriminate]. injection E as <- <-.
  assert (LF : length (firstn (lb + p) k1) = (lb + p)%nat) by (rewrite firstn_length; lia).
  assert (b = u).
  { rewrite back_kn in Eb by lia. rewrite LF, kn_firstn in Eb by lia. injection Eb as <-. apply (eqrange 0); auto. unfold lb in *. lia. }
  subst b. exists u, lb.
  assert (Hle_u : forall x, In x (firstn (lb + p) k1) -> x <= u).
  { intros x Hx. apply (In_nth _ _ 0) in Hx as (i & Hi & <-). rewrite LF in Hi. fold (kn (firstn (lb + p) k1) i).
    rewrite kn_firstn by lia. apply (ub_below 0). lia. }
  assert (Hsplit : firstn (lb + p) k1 = firstn lb k1 ++ repeat u p).
  { apply (nth_ext _ _ 0 0).
    - rewrite LF, app_length, firstn_length, repeat_length. lia.
    - intros i Hi. rewrite LF in Hi. fold (kn (firstn (lb + p) k1) i). rewrite kn_firstn by lia.
      destruct (Nat.lt_ge_cases i lb).
      + rewrite app_nth1 by (rewrite firstn_length; lia). fold (kn (firstn lb k1) i). rewrite kn_firstn; auto.
      + rewrite app_nth2 by (rewrite firstn_length; lia). rewrite firstn_length.
        rewrite nth_repeat_lt by lia. apply (eqrange 0); auto. unfold lb in *. lia. }
  assert (Hcn : forall x, x <> u -> cnt (firstn (lb + p) k1 ++ [u]) x = cnt (firstn lb k1) x).
  { intros x Hx. rewrite Hsplit, !count_occ_app, count_repeat. simpl. destruct (Req_EM_T x u); [congruence|].
    destruct (Req_EM_T u x); [congruence|]. lia. }
  assert (Hcu' : cnt (firstn (lb + p) k1 ++ [u]) u = (p + 1)%nat).
  { rewrite Hsplit, !count_occ_app, count_repeat. simpl. destruct (Req_EM_T u u); [|congruence].
    rewrite (cnt_zero (firstn lb k1)); [lia|]. intros y Hy. apply In_firstn_lt in Hy. lra. }
  split; [|split].
  - split; [|split; [exact Hp|split; [lra|split; [|split; [|split]]]]].
    + apply nondec_snoc; [apply nondec_firstn; auto|auto].
    + intros x Hx. apply in_app_or in Hx as [Hx|[<-|[]]]; [|lra]. split; [|auto].
      apply Hin. rewrite <- (firstn_skipn (lb + p) k1). apply in_or_app; auto.
    + rewrite Hcn by lra. unfold lb. rewrite cnt_first_lt by (auto; lra). auto.
    + exact Hcu'.
    + intros x Hx. rewrite Hcn by lra. unfold lb. rewrite cnt_first_lt by (auto; lra). apply D3. lra.
  - rewrite app_length, LF. simpl. lia.
  - rewrite firstn_length. unfold pt in *. lia.
Qed.

Lemma std_trim c u1 u2 b c' : standard c ->
  (b = true -> kn (c_knots c) 0 <= Rmin u1 u2 /\ u1 <> u2 /\ Rmax u1 u2 <= kn (c_knots c) (c_n c + c_deg c)) ->
  trim_curve c u1 u2 b = Ok c' -> standard c'.
Proof.
  intros Hc Hb E. apply standard_kv in Hc. destruct Hc as (L & lo & hi & H).
  pose proof (kv_ends _ _ _ _ H) as (E0 & E1 & E2).
  replace (length (c_knots c) - 1)%nat with (c_n c + c_deg c)%nat in E1 by lia. rewrite E0, E1 in Hb.
  unfold trim_curve in E. destruct b.
  - destruct (Hb eq_refl) as (B1 & B2 & B3). apply bind_inv in E as ((k' & P') & Et & E). injection E as <-.
    unfold trim in Et. nsimp. apply bind_inv in Et as ((k1 & P1) & Eb & Ee).
    assert (Hm : (if Rltb u1 u2 then u1 else u2) = Rmin u1 u2 /\ (if Rltb u1 u2 then u2 else u1) = Rmax u1 u2 /\ Rmin u1 u2 < Rmax u1 u2).
    { unfold Rmin, Rmax. destruct (Rltb_spec u1 u2); destruct (Rle_dec u1 u2); repeat split; try lra. }
    destruct Hm as (M1 & M2 & M3). rewrite M1 in Eb. rewrite M2 in Ee.
    destruct (kv_trim_begin (c_knots c) (c_deg c) lo hi (c_n c) (Rmin u1 u2) (c_poles c) k1 P1 H L eq_refl ltac:(lra) Eb)
      as (lo' & n' & H1 & L1 & LP1 & Hlo).
    destruct (kv_trim_end k1 (c_deg c) lo' hi n' (Rmax u1 u2) P1 k' P' H1 L1 LP1 ltac:(lra) Ee) as (hi' & n2 & H2 & L2 & LP2).
    apply standard_kv. unfold c_n. cbn [c_deg c_knots c_poles]. rewrite LP2. split; [exact L2|]. exists lo', hi'. exact H2.
  - injection E as <-. apply standard_kv. unfold c_n in *. cbn [c_deg c_knots c_poles]. split; [exact L|]. exists lo, hi. exact H.
Qed.

Lemma history_standard c ops c' : standard c -> history eps c ops c' -> standard c'.
Proof.
  intros Hc. induction 1 as [|ops c1 o c2 Hh IH Hs Hr]; auto. specialize (IH).
  destruct o as [u m|l|dist u tol m| |u1 u2 b|a b|P]; cbn [run_op sensible] in *.
  - apply (std_insert c1 u m c2); tauto.
  - apply (std_inserts l c1); auto.
  - apply (std_remove dist c1 u tol m); auto.
  - apply (std_reverse c1); auto.
  - apply (std_trim c1 u1 u2 b); auto. intros ->. exact Hs.
  - apply (std_change c1 a b); auto.
  - unfold copyPoles in Hr. destruct (Nat.eqb_spec (length P) (length (c_poles c1))) as [El|]; [|discriminate].
    injection Hr as <-. apply standard_kv in IH. apply standard_kv. unfold c_n in *. cbn [c_deg c_knots c_poles].
    rewrite El. exact IH.
Qed.
End AtR.
