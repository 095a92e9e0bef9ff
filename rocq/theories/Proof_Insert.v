(** Knot insertion: what the loops compute, and that it is Boehm's algorithm. *)
From Coq Require Import List Arith ZArith Reals Lia Lra Permutation.
From Verif Require Import Model_Base Spec_Base Spec_Basis Spec_Eval Model_Basis Model_Knots
  Proof_Base Proof_Blossom Proof_Basis Proof_Ders Proof_Eval Proof_PropBasis Proof_Refine.
Import ListNotations.
Local Open Scope R_scope.

Section Bounds.
Variable eps : R.
Local Hint Extern 0 (Num R) => exact (NumR eps) : typeclass_instances.

Lemma ub_le (k : list R) (u : R) : (upper_bound k u <= length k)%nat.
Proof. induction k as [|x k IH]; simpl; [lia|]. destruct (Rltb u x); lia. Qed.
Lemma ub_below (k : list R) (u : R) i : (i < upper_bound k u)%nat -> kn k i <= u.
Proof.
  unfold kn. revert i; induction k as [|x k IH]; simpl; intros i Hi; [lia|].
  destruct (Rltb_spec u x); [lia|]. destruct i as [|i]; auto. apply IH; lia.
Qed.
Lemma ub_at (k : list R) (u : R) : (upper_bound k u < length k)%nat -> u < kn k (upper_bound k u).
Proof.
  unfold kn. induction k as [|x k IH]; simpl; intros Hi; [lia|].
  destruct (Rltb_spec u x); auto. apply IH; lia.
Qed.
Lemma lb_le (k : list R) (u : R) : (lower_bound k u <= length k)%nat.
Proof. induction k as [|x k IH]; simpl; [lia|]. destruct (Rltb x u); lia. Qed.
Lemma lb_below (k : list R) (u : R) i : (i < lower_bound k u)%nat -> kn k i < u.
Proof.
  unfold kn. revert i; induction k as [|x k IH]; simpl; intros i Hi; [lia|].
  destruct (Rltb_spec x u); [|lia]. destruct i as [|i]; auto. apply IH; lia.
Qed.
Lemma lb_at (k : list R) (u : R) : (lower_bound k u < length k)%nat -> u <= kn k (lower_bound k u).
Proof.
  unfold kn. induction k as [|x k IH]; simpl; intros Hi; [lia|].
  destruct (Rltb_spec x u); auto. apply IH; lia.
Qed.
Lemma ub_char (k : list R) (u : R) j : nondecreasing k -> (j <= length k)%nat ->
  (forall i, (i < j)%nat -> kn k i <= u) -> ((j < length k)%nat -> u < kn k j) -> upper_bound k u = j.
Proof.
  intros Hs Hj H1 H2. pose proof (ub_le k u). pose proof (ub_at k u). pose proof (ub_below k u).
  destruct (Nat.lt_trichotomy (upper_bound k u) j) as [L|[L|L]]; auto.
  - specialize (H1 _ L). specialize (H0 ltac:(lia)). lra.
  - specialize (H2 ltac:(lia)). specialize (H3 j L). lra.
Qed.
Lemma lb_char (k : list R) (u : R) j : nondecreasing k -> (j <= length k)%nat ->
  (forall i, (i < j)%nat -> kn k i < u) -> ((j < length k)%nat -> u <= kn k j) -> lower_bound k u = j.
Proof.
  intros Hs Hj H1 H2. pose proof (lb_le k u). pose proof (lb_at k u). pose proof (lb_below k u).
  destruct (Nat.lt_trichotomy (lower_bound k u) j) as [L|[L|L]]; auto.
  - specialize (H1 _ L). specialize (H0 ltac:(lia)). lra.
  - specialize (H2 ltac:(lia)). specialize (H3 j L). lra.
Qed.
Lemma lb_le_ub (k : list R) (u : R) : (lower_bound k u <= upper_bound k u)%nat.
Proof.
  induction k as [|x k IH]; simpl; [lia|].
  destruct (Rltb_spec x u), (Rltb_spec u x); try lia; try lra.
Qed.

(** The insertion position of [u] in a valid knot vector. *)
Definition ipos (k : list R) (u : R) (n p m s : nat) : Prop :=
  (p <= m < n)%nat /\ (s <= m)%nat /\ kn k m <= u /\ u < kn k (S m) /\
  (forall i, (m - s < i <= m)%nat -> kn k i = u) /\
  (forall i, (i <= m - s)%nat -> kn k i < u).

Lemma ipos_ex (k : list R) (u : R) n p : knots_ok k n p -> kn k p <= u < kn k n ->
  (upper_bound k u - lower_bound k u < p)%nat ->
  exists m, upper_bound k u = S m /\
    ipos k u n p m (upper_bound k u - lower_bound k u).
Proof.
  intros (Hl & Hpn & Hs & Hlast) Hu Hsp.
  pose proof (ub_le k u) as U0. pose proof (ub_at k u) as U1. pose proof (ub_below k u) as U2.
  pose proof (lb_le k u) as V0. pose proof (lb_at k u) as V1. pose proof (lb_below k u) as V2.
  pose proof (lb_le_ub k u) as W.
  assert (Hub1 : (p < upper_bound k u)%nat).
  { destruct (Nat.lt_ge_cases p (upper_bound k u)) as [|G]; auto.
    specialize (U1 ltac:(lia)).
    assert (kn k (upper_bound k u) <= kn k p) by (apply Hs; lia). lra. }
  assert (Hub2 : (upper_bound k u <= n)%nat).
  { destruct (Nat.le_gt_cases (upper_bound k u) n) as [|G]; auto.
    specialize (U2 n G). lra. }
  exists (upper_bound k u - 1)%nat. split; [lia|].
  set (ub := upper_bound k u) in *. set (lb := lower_bound k u) in *.
  unfold ipos. repeat split; try lia.
  - apply U2; lia.
  - replace (S (ub - 1)) with ub by lia. apply U1; lia.
  - intros i Hi. apply Rle_antisym; [apply U2; lia|].
    apply Rle_trans with (kn k lb); [apply V1; lia|]. apply Hs; lia.
  - intros i Hi. apply V2. lia.
Qed.

Lemma copy_loop_ok {A} lo n off (src dst : list A) :
  (lo + n <= length src)%nat -> (lo + n + off <= length dst)%nat ->
  exists d', copy_loop lo n off src dst = Ok d' /\ length d' = length dst /\
    (forall x, (lo <= x < lo + n)%nat -> get d' (x + off) = get src x) /\
    (forall x, ~ (lo + off <= x < lo + n + off)%nat -> get d' x = get dst x).
Proof.
  intros H1 H2. unfold copy_loop.
  destruct (for_inv (fun i d' => length d' = length dst /\
    (forall x, (lo <= x < i)%nat -> get d' (x + off) = get src x) /\
    (forall x, ~ (lo + off <= x < i + off)%nat -> get d' x = get dst x))
    (fun i d => let* x := get src i in set d (i + off) x) lo n dst) as (d' & E & L & A1 & A2).
  - repeat split; auto. intros; lia.
  - intros i d Hi (L & A1 & A2).
    destruct (nth_error src i) as [a|] eqn:Ea.
    2: { apply nth_error_None in Ea. lia. }
    assert (Eg : get src i = Ok a) by (unfold get; rewrite Ea; auto).
    rewrite Eg. cbn [bind]. rewrite set_ok by lia. eexists; split; [reflexivity|].
    rewrite upd_length. split; auto. split.
    + intros x Hx. destruct (Nat.eq_dec x i) as [->|Hne].
      * rewrite get_upd_same by lia. auto.
      * rewrite get_upd_other by lia. apply A1; lia.
    + intros x Hx. rewrite get_upd_other by lia. apply A2; lia.
  - exists d'. repeat split; auto.
Qed.

Lemma fill_loop_ok {A} lo n off (a : A) (dst : list A) :
  (lo + n + off <= length dst)%nat ->
  exists d', for_ lo n (fun i d => set d (i + off) a) dst = Ok d' /\ length d' = length dst /\
    (forall x, (lo + off <= x < lo + n + off)%nat -> get d' x = Ok a) /\
    (forall x, ~ (lo + off <= x < lo + n + off)%nat -> get d' x = get dst x).
Proof.
  intros H2.
  destruct (for_inv (fun i d' => length d' = length dst /\
    (forall x, (lo + off <= x < i + off)%nat -> get d' x = Ok a) /\
    (forall x, ~ (lo + off <= x < i + off)%nat -> get d' x = get dst x))
    (fun i d => set d (i + off) a) lo n dst) as (d' & E & L & A1 & A2).
  - repeat split; auto. intros; lia.
  - intros i d Hi (L & A1 & A2).
    rewrite set_ok by lia. eexists; split; [reflexivity|].
    rewrite upd_length. split; auto. split.
    + intros x Hx. destruct (Nat.eq_dec x (i + off)) as [->|Hne].
      * rewrite get_upd_same by lia. auto.
      * rewrite get_upd_other by lia. apply A1; lia.
    + intros x Hx. rewrite get_upd_other by lia. apply A2; lia.
  - exists d'. repeat split; auto.
Qed.

(** The new knot vector. *)
Definition ins_kn (k : list R) (u : R) (m r x : nat) : R :=
  if (x <=? m)%nat then kn k x else if (x <=? m + r)%nat then u else kn k (x - r).

Lemma UQ_ok (k : list R) (u : R) m r n p : length k = (n + p + 1)%nat -> (m < n)%nat -> (1 <= n)%nat ->
  exists k', insert_knots_UQ u m (n - 1 + p + 1) r k = Ok k' /\ length k' = (length k + r)%nat /\
    forall x, (x < length k + r)%nat -> get k' x = Ok (ins_kn k u m r x).
Proof.
  intros Hl Hm Hn. unfold insert_knots_UQ.
  destruct (copy_loop_ok 0 (m + 1) 0 k (filled (length k + r) n0)) as (d1 & E1 & L1 & A1 & B1);
    [lia|rewrite filled_length; lia|].
  rewrite E1; cbn [bind]. rewrite filled_length in L1.
  destruct (fill_loop_ok 1 r m u d1) as (d2 & E2 & L2 & A2 & B2); [lia|].
  rewrite E2; cbn [bind].
  destruct (copy_loop_ok (m + 1) (n - 1 + p + 1 + 1 - (m + 1)) r k d2) as (d3 & E3 & L3 & A3 & B3);
    [lia|lia|].
  exists d3. split; [exact E3|]. split; [lia|].
  intros x Hx. unfold ins_kn.
  destruct (Nat.leb_spec x m).
  - rewrite B3, B2 by lia. specialize (A1 x ltac:(lia)). rewrite Nat.add_0_r in A1. rewrite A1.
    apply get_kn; lia.
  - destruct (Nat.leb_spec x (m + r)).
    + rewrite B3 by lia. apply A2; lia.
    + specialize (A3 (x - r)%nat ltac:(lia)). replace (x - r + r)%nat with x in A3 by lia.
      rewrite A3. apply get_kn; lia.
Qed.

(** The triangular table: a rounds of insertion. *)
Section Tri.
  Variables (k : list R) (u : R) (m p : nat) (P : list (pt R)).
  Definition al (a i : nat) : R :=
    (u - kn k (m - p + a + i)) / (kn k (i + m + 1) - kn k (m - p + a + i)).
  Fixpoint tri (a i : nat) : pt R :=
    match a with
    | O => nth (m - p + i) P pzero
    | S b => padd (pscal (al a i) (tri b (i + 1))) (pscal (nsub n1 (al a i)) (tri b i))
    end.
  Definition insE (s r x : nat) : pt R :=
    if (x <=? m - p)%nat then nth x P pzero
    else if (x <=? m - p + r)%nat then tri (x - (m - p)) 0
    else if (x <? m - s)%nat then tri r (x - (m - p + r))
    else if (x <? m + r - s)%nat then tri (m + r - s - x) (p - s - (m + r - s - x))
    else nth (x - r) P pzero.
End Tri.

Lemma alpha_den (k : list R) (u : R) n p m s a i : knots_ok k n p -> ipos k u n p m s ->
  (1 <= a)%nat -> (a + i + s <= p)%nat ->
  kn k (m - p + a + i) < u < kn k (i + m + 1).
Proof.
  intros (Hl & Hpn & Hs & _) (Hm & Hsm & H1 & H2 & H3 & H4) Ha Hi. split.
  - apply H4. lia.
  - apply Rlt_le_trans with (kn k (S m)); auto. apply Hs; lia.
Qed.

Lemma alpha_step_ok k u n p m s P a i R0 : knots_ok k n p -> ipos k u n p m s ->
  (1 <= a)%nat -> (a + i + s <= p)%nat ->
  length R0 = (p + 1)%nat ->
  get R0 (i + 1) = Ok (tri k u m p P (a - 1) (i + 1)) -> get R0 i = Ok (tri k u m p P (a - 1) i) ->
  insert_knots_alpha u (m - p + a) m k i R0 = Ok (upd R0 i (tri k u m p P a i)).
Proof.
  intros Hk Hp Ha Hi HL G1 G2. pose proof Hk as (Hl & Hpn & Hs & _).
  pose proof Hp as (Hm & Hsm & _).
  pose proof (alpha_den k u n p m s a i Hk Hp Ha Hi) as (D1 & D2).
  unfold insert_knots_alpha.
  rewrite !get_kn by lia. cbn [bind]. rewrite divc_ok by (cbn [nsub NumR]; lra).
  cbn [bind]. rewrite G1, G2. cbn [bind]. rewrite set_ok by lia.
  do 2 f_equal. destruct a as [|b]; [lia|].
  cbn [tri]. replace (S b - 1)%nat with b by lia. reflexivity.
Qed.

Lemma alpha_loop_ok k u n p m s P a R0 : knots_ok k n p -> ipos k u n p m s ->
  (1 <= a)%nat -> (a + s <= p)%nat -> length R0 = (p + 1)%nat ->
  (forall i, (a - 1 + i + s <= p)%nat -> get R0 i = Ok (tri k u m p P (a - 1) i)) ->
  exists R1, for_ 0 (p - a - s + 1) (insert_knots_alpha u (m - p + a) m k) R0 = Ok R1 /\
    length R1 = (p + 1)%nat /\
    forall i, (a + i + s <= p)%nat -> get R1 i = Ok (tri k u m p P a i).
Proof.
  intros Hk Hp Ha Has HL G.
  destruct (for_inv (fun i R1 => length R1 = (p + 1)%nat /\
     (forall x, (x < i)%nat -> get R1 x = Ok (tri k u m p P a x)) /\
     (forall x, (i <= x)%nat -> (a - 1 + x + s <= p)%nat -> get R1 x = Ok (tri k u m p P (a - 1) x)))
     (insert_knots_alpha u (m - p + a) m k) 0 (p - a - s + 1) R0) as (R1 & E & L & A1 & A2).
  - repeat split; auto. intros; lia.
  - intros i R1 Hi (L & A1 & A2).
    rewrite (alpha_step_ok k u n p m s P a i R1); auto; try lia.
    2,3: apply A2; lia.
    eexists; split; [reflexivity|]. rewrite upd_length. split; auto. split.
    + intros x Hx. destruct (Nat.eq_dec x i) as [->|Hne].
      * rewrite get_upd_same by lia. auto.
      * rewrite get_upd_other by lia. apply A1; lia.
    + intros x Hx Hx'. rewrite get_upd_other by lia. apply A2; lia.
  - exists R1. repeat split; auto. intros i Hi. apply A1. lia.
Qed.

Lemma insert_knots_ok (k : list R) (u : R) n p r P :
  knots_ok k n p -> length P = n -> kn k p <= u < kn k n ->
  (upper_bound k u - lower_bound k u < p)%nat -> (1 <= r)%nat ->
  exists m s r' k' P',
    s = (upper_bound k u - lower_bound k u)%nat /\ upper_bound k u = S m /\
    ipos k u n p m s /\ r' = min r (p - s) /\
    insert_knots u p r k P = Ok (Z.of_nat (m + r' - p), k', P') /\
    length k' = (n + r' + p + 1)%nat /\ length P' = (n + r')%nat /\
    (forall x, (x < n + r' + p + 1)%nat -> get k' x = Ok (ins_kn k u m r' x)) /\
    (forall x, (x < n + r')%nat -> get P' x = Ok (insE k u m p P s r' x)).
Proof.
  intros Hk HP Hu Hsp Hr.
  destruct (ipos_ex k u n p Hk Hu Hsp) as (m & Em & Hp).
  pose proof Hk as (Hl & Hpn & Hs & _).
  set (s := (upper_bound k u - lower_bound k u)%nat) in *.
  pose proof Hp as (Hm & Hsm & _).
  set (r' := min r (p - s)).
  assert (Hr' : (1 <= r' /\ r' <= p - s)%nat) by (unfold r'; lia).
  unfold insert_knots. fold s. rewrite subi_ok by lia. cbn [bind].
  replace (p <=? s) with false by (symmetry; apply Nat.leb_gt; lia).
  rewrite Em, subi_ok by lia. cbn [bind]. replace (S m - 1)%nat with m by lia.
  fold r'. rewrite HP.
  destruct (UQ_ok k u m r' n p Hl ltac:(lia) ltac:(lia)) as (k' & Ek & Lk & Gk).
  rewrite Ek. cbn [bind]. rewrite subi_ok by lia. cbn [bind].
  destruct (copy_loop_ok 0 (m - p + 1) 0 P (filled (n + r') pzero)) as (Q1 & E1 & L1 & A1 & B1);
    [unfold pt in *; lia|rewrite filled_length; lia|].
  rewrite E1; cbn [bind]. rewrite filled_length in L1.
  rewrite subi_ok by lia. cbn [bind].
  destruct (copy_loop_ok (m - s) (n - 1 + 1 - (m - s)) r' P Q1) as (Q2 & E2 & L2 & A2 & B2);
    [unfold pt in *; lia|lia|].
  rewrite E2; cbn [bind].
  assert (HR : exists R0, for_ 0 (p - s + 1) (fun i R0 => let* x := get P (m - p + i) in set R0 i x)
              (filled (p + 1) pzero) = Ok R0 /\ length R0 = (p + 1)%nat /\
            forall i, (i + s <= p)%nat -> get R0 i = Ok (tri k u m p P 0 i)).
  { destruct (for_inv (fun i R0 => length R0 = (p + 1)%nat /\
       forall x, (x < i)%nat -> get R0 x = Ok (tri k u m p P 0 x))
       (fun i R0 => let* x := get P (m - p + i) in set R0 i x) 0 (p - s + 1) (filled (p + 1) pzero))
       as (R0 & E & L & A).
    - rewrite filled_length. split; auto. intros; lia.
    - intros i R0 Hi (L & A). rewrite (@get_nth (pt R) P (m - p + i) pzero) by (unfold pt in *; lia).
      cbn [bind]. rewrite set_ok by lia. eexists; split; [reflexivity|].
      rewrite upd_length. split; auto. intros x Hx. destruct (Nat.eq_dec x i) as [->|Hne].
      + rewrite get_upd_same by lia. reflexivity.
      + rewrite get_upd_other by lia. apply A; lia.
    - exists R0. repeat split; auto. intros i Hi. apply A. lia. }
  destruct HR as (R0 & ER & LR & GR). rewrite ER. cbn [bind].
  destruct (for_inv (fun j (st : list (pt R) * list (pt R)) => let (Q, R1) := st in
      length Q = (n + r')%nat /\ length R1 = (p + 1)%nat /\
      (forall i, (j - 1 + i + s <= p)%nat -> get R1 i = Ok (tri k u m p P (j - 1) i)) /\
      (forall x, (x <= m - p)%nat -> get Q x = Ok (nth x P pzero)) /\
      (forall x, (m - p < x < m - p + j)%nat -> get Q x = Ok (tri k u m p P (x - (m - p)) 0)) /\
      (forall x, (m + r' - s - j < x < m + r' - s)%nat ->
          get Q x = Ok (tri k u m p P (m + r' - s - x) (p - s - (m + r' - s - x)))) /\
      (forall x, (m + r' - s <= x < n + r')%nat -> get Q x = Ok (nth (x - r') P pzero)))
      (insert_knots_round u p s r' m k) 1 r' (Q2, R0)) as ((Q3, R3) & E3 & I3).
  { repeat split; auto; try lia.
    - intros x Hx. rewrite B2 by lia. specialize (A1 x ltac:(lia)). rewrite Nat.add_0_r in A1. rewrite A1.
      apply get_nth. unfold pt in *; lia.
    - intros x Hx. specialize (A2 (x - r')%nat ltac:(lia)). replace (x - r' + r')%nat with x in A2 by lia.
      rewrite A2. apply get_nth. unfold pt in *; lia. }
  { intros j (Q, R1) Hj (I1 & I2 & I3 & I4 & I5 & I6 & I7).
    unfold insert_knots_round.
    destruct (alpha_loop_ok k u n p m s P j R1) as (R2 & EA & LA & GA); auto; try lia.
    rewrite EA. cbn [bind]. rewrite GA by lia. cbn [bind]. rewrite set_ok by lia. cbn [bind].
    rewrite GA by lia. cbn [bind]. rewrite set_ok by (rewrite upd_length; lia). cbn [bind].
    eexists; split; [reflexivity|]. cbn beta iota.
    rewrite !upd_length. split; [lia|]. split; [lia|]. split; [|split; [|split; [|split]]].
    - intros i Hi. replace (S j - 1)%nat with j by lia. apply GA. lia.
    - intros x Hx. rewrite !get_upd_other by lia. auto.
    - intros x Hx. destruct (Nat.eq_dec x (m + r' - j - s)) as [Ex|Hne].
      + subst x. rewrite get_upd_same by (rewrite upd_length; lia). do 2 f_equal; lia.
      + rewrite get_upd_other by lia. destruct (Nat.eq_dec x (m - p + j)) as [->|Hne'].
        * rewrite get_upd_same by lia. do 2 f_equal; lia.
        * rewrite get_upd_other by lia. apply I5; lia.
    - intros x Hx. destruct (Nat.eq_dec x (m + r' - j - s)) as [Ex|Hne].
      + subst x. rewrite get_upd_same by (rewrite upd_length; lia). do 2 f_equal; lia.
      + rewrite !get_upd_other by lia. apply I6; lia.
    - intros x Hx. rewrite !get_upd_other by lia. auto. }
  rewrite E3. cbn [bind].
  replace (r' =? 0) with false by (symmetry; apply Nat.eqb_neq; lia).
  destruct I3 as (I1 & I2 & I3 & I4 & I5 & I6 & I7).
  set (L := (m - p + r')%nat).
  destruct (for_inv (fun i Q => length Q = (n + r')%nat /\
     (forall x, (L < x < i)%nat -> get Q x = Ok (tri k u m p P r' (x - L))) /\
     (forall x, ~ (L < x < i)%nat -> get Q x = get Q3 x))
     (fun i Q => let* x := get R3 (i - L) in set Q i x) (L + 1) (m - s - (L + 1)) Q3)
     as (Q4 & E4 & L4 & A4 & B4).
  { repeat split; auto. intros; lia. }
  { intros i Q Hi (J1 & J2 & J3). specialize (I3 (i - L)%nat ltac:(lia)).
    rewrite I3. cbn [bind]. rewrite set_ok by lia. eexists; split; [reflexivity|].
    rewrite upd_length. split; auto. split.
    - intros x Hx. destruct (Nat.eq_dec x i) as [->|Hne].
      + rewrite get_upd_same by lia. do 2 f_equal. lia.
      + rewrite get_upd_other by lia. apply J2; lia.
    - intros x Hx. rewrite get_upd_other by lia. apply J3; lia. }
  rewrite E4. cbn [bind].
  exists m, s, r', k', Q4. split; [reflexivity|]. split; [reflexivity|].
  split; [exact Hp|]. split; [reflexivity|].
  split. { repeat f_equal. lia. }
  split; [lia|]. split; [lia|]. split.
  - intros x Hx. apply Gk. lia.
  - intros x Hx. unfold insE. fold L.
    destruct (Nat.leb_spec x (m - p)); [rewrite B4 by lia; apply I4; lia|].
    destruct (Nat.leb_spec x L); [rewrite B4 by lia; apply I5; lia|].
    destruct (Nat.ltb_spec x (m - s)); [apply A4; lia|].
    destruct (Nat.ltb_spec x (m + r' - s)); rewrite B4 by lia; [apply I6; lia|apply I7; lia].
Qed.

End Bounds.
