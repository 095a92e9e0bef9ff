(** find_span and basis_funcs compute the textbook objects. *)
From Coq Require Import List Arith ZArith Reals Lia Lra Bool Permutation.
From Verif Require Import Model_Base Model_Basis Spec_Base Spec_Basis Proof_Base Proof_Blossom.
Import ListNotations.
Local Open Scope R_scope.

Section AtR.
Variable eps : R.
Notation NR := (NumR eps).
Local Hint Extern 0 (Num R) => exact (NumR eps) : typeclass_instances.

(** ** find_span *)
Lemma find_span_loop_in fuel u k low high mid :
  (high < length k)%nat -> (low < high)%nat -> mid = ((low + high) / 2)%nat ->
  kn k low <= u -> u < kn k high -> (high - low < fuel)%nat ->
  exists i, find_span_loop fuel u k low high mid = Ok i /\
    (low <= i < high)%nat /\ kn k i <= u < kn k (S i).
Proof.
  revert low high mid; induction fuel as [|fuel IH]; intros low high mid Hh Hlh Hm Hlo Hhi Hf; [lia|].
  cbn [find_span_loop].
  assert (Hmr : (low <= mid < high)%nat).
  { subst mid. split; [apply Nat.div_le_lower_bound; lia | apply Nat.div_lt_upper_bound; lia]. }
  rewrite get_kn by lia. cbn [bind].
  change (nltb u (kn k mid)) with (Rltb u (kn k mid)).
  destruct (Rltb_spec u (kn k mid)) as [Hlt|Hge].
  - cbn [bind].
    assert (Hml : (low < mid)%nat).
    { destruct (Nat.eq_dec low mid) as [E|]; [rewrite <- E in Hlt; lra|lia]. }
    destruct (Nat.eqb_spec ((low + mid) / 2) mid) as [E|E].
    + assert ((low + mid) / 2 < mid)%nat by (apply Nat.div_lt_upper_bound; lia). lia.
    + destruct (IH low mid _ ltac:(lia) Hml eq_refl Hlo Hlt ltac:(lia)) as (i & Ei & Hi & Hk).
      exists i; split; [exact Ei|]. split; [lia|exact Hk].
  - rewrite get_kn by lia. cbn [bind].
    change (nleb (kn k (mid + 1)) u) with (Rleb (kn k (mid + 1)) u).
    destruct (Rleb_spec (kn k (mid + 1)) u) as [Hle|Hgt].
    + assert (Hm1 : (mid + 1 < high)%nat).
      { destruct (Nat.eq_dec (mid + 1) high) as [E|]; [rewrite E in Hle; lra|lia]. }
      assert (Hlm : (low < mid)%nat).
      { subst mid. apply Nat.lt_succ_r. 
        assert (low + 1 <= (low + high) / 2)%nat by (apply Nat.div_le_lower_bound; lia). lia. }
      destruct (Nat.eqb_spec ((mid + high) / 2) mid) as [E|E].
      * assert (mid + 1 <= (mid + high) / 2)%nat by (apply Nat.div_le_lower_bound; lia). lia.
      * destruct (IH mid high _ Hh ltac:(lia) eq_refl Hge Hhi ltac:(lia)) as (i & Ei & Hi & Hk).
        exists i; split; [exact Ei|]. split; [lia|exact Hk].
    + exists mid; split; [reflexivity|]. split; [lia|]. rewrite Nat.add_1_r in Hgt; lra.
Qed.

Lemma find_span_loop_below fuel u k p high mid :
  (high < length k)%nat -> (p < high)%nat -> mid = ((p + high) / 2)%nat ->
  (forall i, (p <= i < high)%nat -> u < kn k i) -> (high - p < fuel)%nat ->
  find_span_loop fuel u k p high mid = Ok p.
Proof.
  revert high mid; induction fuel as [|fuel IH]; intros high mid Hh Hlh Hm Hb Hf; [lia|].
  cbn [find_span_loop].
  assert (Hmr : (p <= mid < high)%nat).
  { subst mid. split; [apply Nat.div_le_lower_bound; lia | apply Nat.div_lt_upper_bound; lia]. }
  rewrite get_kn by lia. cbn [bind].
  change (nltb u (kn k mid)) with (Rltb u (kn k mid)).
  rewrite (proj2 (Rltb_true u (kn k mid))) by (apply Hb; lia). cbn [bind].
  destruct (Nat.eqb_spec ((p + mid) / 2) mid) as [E|E].
  - destruct (Nat.eq_dec p mid) as [->|]; auto.
    assert ((p + mid) / 2 < mid)%nat by (apply Nat.div_lt_upper_bound; lia). lia.
  - destruct (Nat.eq_dec p mid) as [E2|E2].
    + exfalso; apply E. rewrite <- E2. symmetry; apply (Nat.div_unique _ 2 p 0); lia.
    + apply IH; try lia. intros i Hi; apply Hb; lia.
Qed.

Lemma find_span_in n p u k :
  length k = (n + p + 1)%nat -> (p < n)%nat -> kn k p <= u -> u < kn k n ->
  exists i, find_span n p u k = Ok i /\ (p <= i < n)%nat /\ kn k i <= u < kn k (S i).
Proof.
  intros Hl Hp H1 H2. unfold find_span.
  destruct (Nat.ltb_spec 0 n); [|lia].
  replace (n - 1 + 1)%nat with n by lia. rewrite get_kn by lia. cbn [bind].
  change (nleb (kn k n) u) with (Rleb (kn k n) u).
  destruct (Rleb_spec (kn k n) u); [lra|].
  destruct (find_span_loop_in (S (length k)) u k p n _ ltac:(lia) Hp eq_refl H1 H2 ltac:(lia))
    as (i & E & Hi & Hk).
  exists i; auto.
Qed.

Lemma find_span_above n p u k :
  (n < length k)%nat -> (0 < n)%nat -> kn k n <= u -> find_span n p u k = Ok (n - 1)%nat.
Proof.
  intros Hl Hp H1. unfold find_span.
  destruct (Nat.ltb_spec 0 n); [|lia].
  replace (n - 1 + 1)%nat with n by lia. rewrite get_kn by lia. cbn [bind].
  change (nleb (kn k n) u) with (Rleb (kn k n) u).
  destruct (Rleb_spec (kn k n) u); [reflexivity|lra].
Qed.

Lemma find_span_below n p u k :
  length k = (n + p + 1)%nat -> (p < n)%nat -> nondecreasing k -> u < kn k p ->
  find_span n p u k = Ok p.
Proof.
  intros Hl Hp Hmon H1. unfold find_span.
  destruct (Nat.ltb_spec 0 n); [|lia].
  replace (n - 1 + 1)%nat with n by lia. rewrite get_kn by lia. cbn [bind].
  change (nleb (kn k n) u) with (Rleb (kn k n) u).
  assert (kn k p <= kn k n) by (apply Hmon; lia).
  destruct (Rleb_spec (kn k n) u); [lra|].
  apply find_span_loop_below; auto; try lia.
  intros i Hi. assert (kn k p <= kn k i) by (apply Hmon; lia). lra.
Qed.

(** ** basis_funcs *)
Lemma kn_mono k : nondecreasing k ->
  forall i j, (i <= j)%nat -> (j <= length k - 1)%nat -> (0 < length k)%nat -> kn k i <= kn k j.
Proof. intros H i j H1 H2 H3; apply H; lia. Qed.

Section Span.
Variable k : list R.
Variables (i p : nat) (u : R).
Hypothesis Hnd : nondecreasing k.
Hypothesis Hip : (p <= i)%nat.
Hypothesis Hlen : (i + p < length k)%nat.
Hypothesis Hspan : kn k i < kn k (S i).

Let mono : forall a b, (a <= b)%nat -> (b <= i + p)%nat -> kn k a <= kn k b.
Proof. intros a b H1 H2; apply Hnd; lia. Qed.

(** the polynomial piece, degree j *)
Definition NS (j m : nat) : R := NH (kn k) i (repeat (u, 1) j) m.

Lemma NS_S j m :
  NS (S j) m = (u - kn k m) / (kn k (m + S j) - kn k m) * NS j m
             + (kn k (m + S (S j)) - u) / (kn k (m + S (S j)) - kn k (S m)) * NS j (S m).
Proof. unfold NS; cbn [repeat NH]. rewrite repeat_length, !Rmult_1_l. reflexivity. Qed.

Lemma NS_out j m : (i < m \/ m + j < i)%nat -> NS j m = 0.
Proof. intros H; unfold NS; apply NH_out; rewrite repeat_length; exact H. Qed.

Lemma gap_pos j r : (1 <= j <= p)%nat -> (r < j)%nat ->
  kn k (i + 1 - (j - r)) < kn k (i + (r + 1)).
Proof.
  intros Hj Hr.
  assert (kn k (i + 1 - (j - r)) <= kn k i) by (apply mono; lia).
  assert (kn k (S i) <= kn k (i + (r + 1))) by (apply mono; lia). lra.
Qed.

(** the term carried by [saved] before iteration r of step j *)
Definition svd (j r : nat) : R :=
  (u - kn k (i - j + r)) / (kn k (i - j + r + j) - kn k (i - j + r)) * NS (j - 1) (i - j + r).

Lemma svd0 j : (1 <= j <= p)%nat -> svd j 0 = 0.
Proof. intros H; unfold svd. rewrite NS_out by lia. ring. Qed.

Lemma step_value j r tmp : (1 <= j <= p)%nat -> (r < j)%nat ->
  tmp = NS (j - 1) (i - (j - 1) + r) / ((kn k (i + (r + 1)) - u) + (u - kn k (i + 1 - (j - r)))) ->
  svd j r + (kn k (i + (r + 1)) - u) * tmp = NS j (i - j + r) /\
  (u - kn k (i + 1 - (j - r))) * tmp = svd j (S r).
Proof.
  intros Hj Hr ->. pose proof (gap_pos j r Hj Hr) as Hg.
  destruct j as [|j]; [lia|]. replace (S j - 1)%nat with j by lia.
  split.
  - rewrite NS_S. unfold svd. replace (S j - 1)%nat with j by lia. f_equal.
    replace (S (i - S j + r)) with (i - j + r)%nat by lia.
    replace (i - S j + r + S (S j))%nat with (i + (r + 1))%nat by lia.
    replace (i + 1 - (S j - r))%nat with (i - j + r)%nat in * by lia.
    field. lra.
  - unfold svd. replace (S j - 1)%nat with j by lia.
    replace (i - S j + S r)%nat with (i - j + r)%nat by lia.
    replace (i - j + r + S j)%nat with (i + (r + 1))%nat by lia.
    replace (i + 1 - (S j - r))%nat with (i - j + r)%nat in * by lia.
    field. lra.
Qed.

Lemma svd_last j : (1 <= j <= p)%nat -> svd j j = NS j i.
Proof.
  intros Hj. destruct j as [|j]; [lia|]. unfold svd.
  replace (i - S j + S j)%nat with i by lia. replace (S j - 1)%nat with j by lia.
  rewrite NS_S. rewrite (NS_out j (S i)) by lia. ring.
Qed.

Definition arr_ok (lft rgt : list (option R)) (j : nat) : Prop :=
  length lft = (stack_max + 1)%nat /\ length rgt = (stack_max + 1)%nat /\
  forall m, (1 <= m <= j)%nat ->
    geti lft m = Ok (u - kn k (i + 1 - m)) /\ geti rgt m = Ok (kn k (i + m) - u).

Lemma arr_ok_step lft rgt j : arr_ok lft rgt j -> (j < stack_max)%nat ->
  arr_ok (upd lft (S j) (Some (u - kn k (i + 1 - S j))))
         (upd rgt (S j) (Some (kn k (i + S j) - u))) (S j).
Proof.
  intros (H1 & H2 & H3) Hj. unfold arr_ok. rewrite !upd_length. repeat split; auto.
  - destruct (Nat.eq_dec m (S j)) as [->|]; [apply geti_upd_same; lia|].
    rewrite geti_upd_other by lia. apply H3; lia.
  - destruct (Nat.eq_dec m (S j)) as [->|]; [apply geti_upd_same; lia|].
    rewrite geti_upd_other by lia. apply H3; lia.
Qed.

Lemma inner_ok lft rgt N j : (1 <= j <= p)%nat -> (p <= stack_max)%nat ->
  arr_ok lft rgt j -> length N = (stack_max + 1)%nat ->
  (forall r, (r <= j - 1)%nat -> geti N r = Ok (NS (j - 1) (i - (j - 1) + r))) ->
  exists N', for_ 0 j (basis_funcs_inner lft rgt j) (N, 0) = Ok (N', svd j j) /\
    length N' = (stack_max + 1)%nat /\
    forall r, (r < j)%nat -> geti N' r = Ok (NS j (i - j + r)).
Proof.
  intros Hj Hs (HL1 & HL2 & HA) HN0 HN.
  set (P := fun (r : nat) (st : list (option R) * R) =>
    length (fst st) = (stack_max + 1)%nat /\ snd st = svd j r /\
    (forall m, (m < r)%nat -> geti (fst st) m = Ok (NS j (i - j + m))) /\
    (forall m, (r <= m < j)%nat -> geti (fst st) m = Ok (NS (j - 1) (i - (j - 1) + m)))).
  destruct (for_inv P (basis_funcs_inner lft rgt j) 0 j (N, 0)) as ([N' sv] & E & (P1 & P2 & P3 & _)).
  - unfold P; cbn [fst snd]. split; [exact HN0|]. split; [symmetry; apply svd0; exact Hj|].
    split; [intros; lia|]. intros m Hm; apply HN; lia.
  - intros r [N1 sv] Hr (P1 & P2 & P3 & P4). cbn [fst snd] in P1, P2, P3, P4.
    unfold basis_funcs_inner. rewrite (P4 r) by lia. cbn [bind].
    rewrite (proj2 (HA (r + 1)%nat ltac:(lia))). cbn [bind].
    rewrite (proj1 (HA (j - r)%nat ltac:(lia))). cbn [bind]. nsimp.
    pose proof (gap_pos j r Hj ltac:(lia)) as Hg.
    rewrite divc_ok by (nsimp; lra). cbn [bind].
    rewrite seti_ok by lia. cbn [bind]. eexists; split; [reflexivity|].
    destruct (step_value j r _ Hj ltac:(lia) eq_refl) as (S1 & S2).
    unfold P; cbn [fst snd]. rewrite upd_length. split; [exact P1|]. split.
    { nsimp. exact S2. }
    split.
    + intros m Hm. destruct (Nat.eq_dec m r) as [->|].
      * rewrite geti_upd_same by lia. f_equal. nsimp. rewrite P2. exact S1.
      * rewrite geti_upd_other by lia. apply P3; lia.
    + intros m Hm. rewrite geti_upd_other by lia. apply P4; lia.
  - cbn [fst snd] in P1, P2, P3. exists N'. rewrite E, P2. auto.
Qed.

Lemma basis_funcs_st_ok : (p <= stack_max)%nat ->
  exists N', basis_funcs_st i p u k = Ok N' /\ length N' = (stack_max + 1)%nat /\
    forall r, (r <= p)%nat -> geti N' r = Ok (NS p (i - p + r)).
Proof.
  intros Hs. unfold basis_funcs_st. rewrite seti_ok by (rewrite uninit_length; lia). cbn [bind].
  set (N0 := upd (uninit (stack_max + 1)) 0 (Some n1)).
  set (P := fun (j : nat) (st : list (option R) * list (option R) * list (option R)) =>
    let '(N, lft, rgt) := st in
    length N = (stack_max + 1)%nat /\ arr_ok lft rgt (j - 1) /\
    forall r, (r <= j - 1)%nat -> geti N r = Ok (NS (j - 1) (i - (j - 1) + r))).
  destruct (for_inv P (basis_funcs_outer i u k) 1 p (N0, uninit (stack_max + 1), uninit (stack_max + 1)))
    as ([[N' lft'] rgt'] & E & HP).
  - unfold P. unfold N0. rewrite upd_length, uninit_length. split; [reflexivity|]. split.
    + unfold arr_ok. rewrite !uninit_length. split; [reflexivity|]. split; [reflexivity|].
      intros m Hm; lia.
    + intros r Hr. replace r with 0%nat by lia. rewrite geti_upd_same by (rewrite uninit_length; lia).
      nsimp. unfold NS; simpl. replace (i - 0 + 0 =? i)%nat with true; [reflexivity|].
      symmetry; apply Nat.eqb_eq; lia.
  - intros j [[N1 lft] rgt] Hj (P1 & P2 & P3). unfold basis_funcs_outer.
    rewrite subi_ok by lia. cbn [bind]. rewrite get_kn by lia. cbn [bind].
    destruct P2 as (PL1 & PL2 & PA).
    rewrite seti_ok by lia. cbn [bind]. rewrite get_kn by lia. cbn [bind].
    rewrite seti_ok by lia. cbn [bind]. nsimp.
    destruct j as [|j]; [lia|]. replace (S j - 1)%nat with j in * by lia.
    pose proof (arr_ok_step lft rgt j (conj PL1 (conj PL2 PA)) ltac:(lia)) as HA.
    destruct (inner_ok _ _ N1 (S j) ltac:(lia) Hs HA P1) as (N2 & E2 & L2 & V2).
    { replace (S j - 1)%nat with j by lia. exact P3. }
    rewrite E2. cbn [bind]. rewrite seti_ok by lia. cbn [bind].
    eexists; split; [reflexivity|]. unfold P. rewrite upd_length. split; [exact L2|].
    replace (S (S j) - 1)%nat with (S j) by lia. split; [exact HA|].
    intros r Hr. destruct (Nat.eq_dec r (S j)) as [->|].
    + rewrite geti_upd_same by lia. rewrite svd_last by lia. do 2 f_equal. lia.
    + rewrite geti_upd_other by lia. apply V2; lia.
  - destruct HP as (P1 & _ & P3). rewrite E. cbn [bind]. exists N'. split; [reflexivity|].
    split; [exact P1|]. replace (1 + p - 1)%nat with p in P3 by lia. exact P3.
Qed.

Lemma basis_funcs_ok : (p <= stack_max)%nat ->
  basis_funcs i p u k = Ok (map (fun r => NS p (i - p + r)) (seq 0 (p + 1))).
Proof.
  intros Hs. destruct (basis_funcs_st_ok Hs) as (N' & E & _ & V).
  unfold basis_funcs. rewrite E. cbn [bind]. unfold read_cells.
  apply read_cells_ok. intros r Hr; apply V; lia.
Qed.
End Span.
End AtR.
