(** Statements about knot removal. *)
From Coq Require Import List Arith ZArith Reals Lia Lra Permutation Bool.
From Verif Require Import Model_Base Spec_Base Spec_Basis Spec_Eval Spec_Curve Model_Basis Model_Knots Model_Removal
  Proof_Base Proof_Blossom Proof_Basis Proof_Ders Proof_Eval Proof_PropBasis Proof_Refine Proof_Insert
  Proof_Boehm Proof_PropInsert Proof_Continuity Proof_Trim Proof_Remove Proof_Remove2 Proof_Unique Proof_PropRemove.
Import ListNotations.
Local Open Scope R_scope.

(** ** Tools *)
Lemma CV_same_on eps p k n P k' n' P' (dom : R -> Prop) (ord : nat -> Prop) :
  knots_ok k n p -> length P = n -> evaluable eps k n p ->
  knots_ok k' n' p -> length P' = n' -> evaluable eps k' n' p ->
  (forall x, dom x -> kn k p <= x <= kn k n /\ kn k' p <= x <= kn k' n') ->
  (forall x d c, dom x -> ord d -> (d <= p)%nat -> CV k' n' p d (pole P' c) x = CV k n p d (pole P c) x) ->
  same_on eps p k P k' P' dom ord.
Proof.
  intros Hk HP He Hk' HP' He' Hdom E x d Hx Ho. destruct (Hdom x Hx) as (D1 & D2).
  destruct (Nat.le_gt_cases d p) as [Hd|Hd].
  - destruct (CV_eval eps k n p P x d Hk HP He D1 Hd) as (q & Eq & Vq).
    destruct (CV_eval eps k' n' p P' x d Hk' HP' He' D2 Hd) as (q' & Eq' & Vq').
    exists q, q'. split; auto. split; auto. intros c. rewrite Vq, Vq'. auto.
  - exists (fun _ => 0), (fun _ => 0). rewrite !eval_value_high by lia. auto.
Qed.

Lemma same_on_CV eps p k n P k' n' P' (dom : R -> Prop) (ord : nat -> Prop) :
  knots_ok k n p -> length P = n -> evaluable eps k n p ->
  knots_ok k' n' p -> length P' = n' -> evaluable eps k' n' p ->
  (forall x, dom x -> kn k p <= x <= kn k n /\ kn k' p <= x <= kn k' n') ->
  same_on eps p k P k' P' dom ord ->
  forall x d c, dom x -> ord d -> (d <= p)%nat -> CV k' n' p d (pole P' c) x = CV k n p d (pole P c) x.
Proof.
  intros Hk HP He Hk' HP' He' Hdom E x d c Hx Ho Hd. destruct (Hdom x Hx) as (D1 & D2).
  destruct (CV_eval eps k n p P x d Hk HP He D1 Hd) as (q & Eq & Vq).
  destruct (CV_eval eps k' n' p P' x d Hk' HP' He' D2 Hd) as (q' & Eq' & Vq').
  destruct (E x d Hx Ho) as (a & b & E1 & E2 & E3). rewrite Eq in E1. rewrite Eq' in E2.
  injection E1 as <-. injection E2 as <-. rewrite <- Vq, <- Vq'. auto.
Qed.

(** With a full support the curve determines every pole. *)
Lemma full_poles_unique k n p (P Q : list (pt R)) : knots_ok k n p -> full_support k n p ->
  (forall x c, kn k p <= x <= kn k n -> CV k n p 0 (pole P c) x = CV k n p 0 (pole Q c) x) ->
  forall i c, (i < n)%nat -> polec P c i = polec Q c i.
Proof.
  intros HK (F1 & F2) E i c Hi.
  change (polec P c i) with (pole P c i). change (polec Q c i) with (pole Q c i).
  assert (HS : exists l, (p <= l < n)%nat /\ kn k l < kn k (S l) /\ (l - p <= i <= l)%nat).
  { pose proof (knots_mono k n p HK) as mono. destruct HK as (LK & HKp & HKn & HKl).
    assert (J : forall m x, (x + m <= n)%nat -> kn k x < kn k (x + m) ->
       exists l, (x <= l < x + m)%nat /\ kn k l < kn k (S l)).
    { induction m as [|m IH]; intros x Hx Hlt; [rewrite Nat.add_0_r in Hlt; lra|].
      destruct (Rlt_le_dec (kn k x) (kn k (S x))) as [G1|G1].
      - exists x. split; [lia|auto].
      - destruct (IH (S x)) as (l & Hl & Hl2); [lia| |exists l; split; [lia|auto]].
        replace (S x + m)%nat with (x + S m)%nat by lia. apply Rle_lt_trans with (kn k x); auto. }
    set (lo := max i p). set (hi := min (i + p + 1) n).
    assert (Hlh : kn k lo < kn k hi).
    { unfold lo, hi. destruct (Nat.max_spec i p) as [(M1 & M2)|(M1 & M2)]; rewrite M2;
      destruct (Nat.min_spec (i + p + 1) n) as [(N1 & N2)|(N1 & N2)]; rewrite N2.
      - apply Rlt_le_trans with (kn k (S p)); auto. apply mono; lia.
      - apply Rlt_le_trans with (kn k (S p)); auto. apply mono; lia.
      - apply F2; auto.
      - apply Rle_lt_trans with (kn k (n - 1)); auto. apply mono; lia. }
    assert (Hle : (lo <= hi)%nat).
    { destruct (Nat.le_gt_cases lo hi); auto. exfalso.
      assert (kn k hi <= kn k lo) by (apply mono; unfold lo, hi in *; lia). lra. }
    destruct (J (hi - lo)%nat lo) as (l & Hl1 & Hl2).
    - unfold lo, hi in *. lia.
    - replace (lo + (hi - lo))%nat with hi by lia. auto.
    - exists l. unfold lo, hi in *. split; [lia|]. split; [auto|lia]. }
  destruct HS as (l & Hl1 & Hl2 & Hl3).
  apply (poles_unique k n p (pole P c) (pole Q c) HK) with (l := l); auto.
Qed.

Lemma count_repeat (u x : R) r : count_occ Req_EM_T (repeat u r) x = if Req_EM_T x u then r else 0%nat.
Proof.
  destruct (Req_EM_T x u) as [->|Hne]; [apply count_occ_repeat_eq; auto|apply count_occ_repeat_neq; auto].
Qed.

(** Sorted lists with the same elements are equal. *)
Lemma nondec_cons x l : nondecreasing (x :: l) -> nondecreasing l /\ forall y, In y l -> x <= y.
Proof.
  intros H. split.
  - intros i j Hij Hj. apply (H (S i) (S j)); simpl; lia.
  - intros y Hy. apply In_nth with (d := 0) in Hy. destruct Hy as (i & Hi & <-).
    apply (H 0%nat (S i)); simpl; lia.
Qed.
Lemma sorted_perm_eq l1 : forall l2, nondecreasing l1 -> nondecreasing l2 -> Permutation l1 l2 -> l1 = l2.
Proof.
  induction l1 as [|x l1 IH]; intros l2 H1 H2 HP.
  - apply Permutation_nil in HP. auto.
  - destruct l2 as [|y l2]; [symmetry in HP; apply Permutation_nil in HP; discriminate|].
    destruct (nondec_cons x l1 H1) as (A1 & A2). destruct (nondec_cons y l2 H2) as (B1 & B2).
    assert (x = y).
    { apply Rle_antisym.
      - assert (In y (x :: l1)) as [->|Hi] by (apply (Permutation_in y (Permutation_sym HP)); left; auto); [lra|auto].
      - assert (In x (y :: l2)) as [->|Hi] by (apply (Permutation_in x HP); left; auto); [lra|auto]. }
    subst y. f_equal. apply IH; auto. apply (Permutation_cons_inv HP).
Qed.
Lemma nondec_app_mid a m b : nondecreasing (a ++ m ++ b) -> nondecreasing (a ++ b).
Proof.
  intros H i j Hij Hj. rewrite app_length in Hj. unfold kn.
  set (f := fun i => if (i <? length a)%nat then i else (i + length m)%nat).
  assert (G : forall i, nth i (a ++ b) 0 = nth (f i) (a ++ m ++ b) 0).
  { intros z. unfold f. destruct (Nat.ltb_spec z (length a)).
    - rewrite !app_nth1 by lia. auto.
    - rewrite (app_nth2 a b) by lia. rewrite (app_nth2 a (m ++ b)) by lia. rewrite app_nth2 by lia. f_equal. lia. }
  rewrite !G. apply (H (f i) (f j)).
  - unfold f. destruct (Nat.ltb_spec i (length a)), (Nat.ltb_spec j (length a)); lia.
  - unfold f. rewrite !app_length. destruct (Nat.ltb_spec j (length a)); lia.
Qed.

Lemma skipn_add {A} (l : list A) x y : skipn x (skipn y l) = skipn (y + x) l.
Proof. revert l; induction y as [|y IH]; intros l; [reflexivity|]. destruct l; [destruct x; reflexivity|]. apply IH. Qed.

(** The block of copies of u ending at the upper bound. *)
Lemma cut_block eps (U : list R) u t : nondecreasing U -> (t <= count_occ Req_EM_T U u)%nat ->
  U = firstn (@upper_bound R (NumR eps) U u - t) U ++ repeat u t ++ skipn (@upper_bound R (NumR eps) U u) U.
Proof.
  intros Hs Ht. pose proof (count_range eps U u Hs) as Hr. pose proof (ub_le eps U u) as Hle.
  set (ub := @upper_bound R (NumR eps) U u) in *.
  rewrite <- (firstn_skipn (ub - t) U) at 1. f_equal.
  rewrite <- (firstn_skipn t (skipn (ub - t) U)). f_equal.
  - apply nth_ext with (d := 0) (d' := 0).
    + rewrite repeat_length, firstn_length, skipn_length. lia.
    + intros i Hi. rewrite firstn_length, skipn_length in Hi.
      fold (kn (firstn t (skipn (ub - t) U)) i). rewrite kn_firstn by lia. rewrite kn_skipn.
      rewrite (eqrange eps U u) by (auto; fold ub; lia).
      symmetry. apply (repeat_spec t). apply nth_In. rewrite repeat_length. lia.
  - rewrite skipn_add. f_equal. lia.
Qed.

Section Rem.
Variable eps : R.
Local Hint Extern 0 (Num R) => exact (NumR eps) : typeclass_instances.

(** ** What holds of every call *)
Lemma zset_len {A} (l : list A) z a l' : zset l z a = Ok l' -> length l' = length l.
Proof.
  unfold zset. destruct (z <? 0)%Z; [discriminate|]. intros H. apply set_inv in H. destruct H as (_ & ->). apply upd_length.
Qed.
Lemma rm_commit_len fuel : forall t off temp i j (P P' : list (pt R)), rm_commit fuel t off temp i j P = Ok P' -> length P' = length P.
Proof.
  induction fuel as [|fuel IH]; intros t off temp i j P P' H; cbn [rm_commit] in H;
    destruct (t <? j - i)%Z; try discriminate; try (injection H as <-; reflexivity).
  destruct (zget temp (i - off)) as [a| | |] eqn:E1; try discriminate. cbn [bind] in H.
  destruct (zset P i a) as [P1| | |] eqn:E2; try discriminate. cbn [bind] in H.
  destruct (zget temp (j - off)) as [b| | |] eqn:E3; try discriminate. cbn [bind] in H.
  destruct (zset P1 j b) as [P2| | |] eqn:E4; try discriminate. cbn [bind] in H.
  apply zset_len in E2. apply zset_len in E4. apply IH in H. congruence.
Qed.
Lemma zget_bound {A} (l : list A) z a : zget l z = Ok a -> (0 <= z < Z.of_nat (length l))%Z.
Proof.
  unfold zget. destruct (Z.ltb_spec z 0); [discriminate|]. intros H1. apply get_lt in H1. lia.
Qed.

Lemma rm_passes_inv test (u : R) p U m : forall t first last (P : list (pt R)) temp t' P',
  rm_passes m test u p U t first last P temp = Ok (t', P') ->
  (t <= t' <= t + Z.of_nat m)%Z /\ length P' = length P /\ (t' = t -> P' = P) /\
  (t < t' -> (t' - t <= first)%Z /\ (last + (t' - t) < Z.of_nat (length P))%Z)%Z.
Proof.
  induction m as [|m IH]; intros t first last P temp t' P' H; cbn [rm_passes] in H.
  - injection H as <- <-. repeat split; auto; lia.
  - destruct (rm_candidates u p t first last U P temp) as [st| | |] eqn:E1; try discriminate. cbn [bind] in H.
    destruct (test t P st) as [ok| | |] eqn:E2; try discriminate. cbn [bind] in H.
    destruct ok.
    + destruct st as ((((i & j) & ii) & jj) & temp').
      destruct (rm_commit (2 * p + 3) t (first - 1) temp' first last P) as [P1| | |] eqn:E3; try discriminate.
      cbn [bind] in H. apply rm_commit_len in E3.
      destruct (IH _ _ _ _ _ _ _ H) as (A1 & A2 & A3 & A4).
      assert (B : (0 <= first - 1)%Z /\ (last + 1 < Z.of_nat (length P))%Z).
      { unfold rm_candidates in E1.
        destruct (zget P (first - 1)) as [a| | |] eqn:F1; try discriminate. cbn [bind] in E1.
        destruct (zset temp 0 a) as [T1| | |] eqn:F2; try discriminate. cbn [bind] in E1.
        destruct (zget P (last + 1)) as [b| | |] eqn:F3; try discriminate.
        apply zget_bound in F1. apply zget_bound in F3. lia. }
      split; [lia|]. split; [congruence|]. split; [lia|]. intros _.
      destruct (Z.eq_dec t' (t + 1)) as [->|Hne]; [lia|].
      destruct (A4 ltac:(lia)) as (C1 & C2). rewrite E3 in C2. lia.
    + injection H as <- <-. repeat split; auto; lia.
Qed.

Lemma shift_down_len {A} n : forall lo dst (v v' : list A), shift_down n lo dst v = Ok v' -> length v' = length v.
Proof.
  induction n as [|n IH]; intros lo dst v v' H; cbn [shift_down] in H; [injection H as <-; auto|].
  destruct (zget v lo) as [x| | |]; try discriminate. cbn [bind] in H.
  destruct (zset v dst x) as [v1| | |] eqn:E; try discriminate. cbn [bind] in H.
  apply zset_len in E. apply IH in H. congruence.
Qed.

(** A call that returns: the reported number t of consecutive knots is gone, as many
    poles; nothing is touched when it reports 0. *)
Lemma remove_tol_inv dist (u : R) p num U (P : list (pt R)) tol t U' P' :
  remove_knot_tol dist u p num U P tol = Ok (t, U', P') ->
  (0 <= t <= Z.of_nat num)%Z /\ (t = 0%Z -> U' = U /\ P' = P) /\
  (length P' + Z.to_nat t)%nat = length P /\
  (Z.to_nat t <= upper_bound U u)%nat /\
  U' = firstn (upper_bound U u - Z.to_nat t) U ++ skipn (upper_bound U u) U.
Proof.
  unfold remove_knot_tol. intros H.
  assert (Z0 : (0%Z, U, P) = (t, U', P') -> (0 <= t <= Z.of_nat num)%Z /\ (t = 0%Z -> U' = U /\ P' = P) /\
      (length P' + Z.to_nat t)%nat = length P /\ (Z.to_nat t <= upper_bound U u)%nat /\
    U' = firstn (upper_bound U u - Z.to_nat t) U ++ skipn (upper_bound U u) U).
  { intros E. injection E as <- <- <-. split; [lia|]. split; [auto|]. split; [simpl; lia|].
    split; [simpl; lia|]. simpl. rewrite Nat.sub_0_r, firstn_skipn. auto. }
  destruct (rm_locate u U) as [[r|]| | |] eqn:EL; try discriminate; cbn [bind] in H;
    [|injection H; intros; apply Z0; congruence].
  destruct (Nat.ltb_spec num 1); [injection H; intros; apply Z0; congruence|].
  assert (Er : (r + 1 = Z.of_nat (upper_bound U u))%Z /\ (0 <= r)%Z).
  { unfold rm_locate in EL. destruct (zget U (Z.of_nat (upper_bound U u) - 1)) as [x| | |] eqn:F; try discriminate.
    apply zget_bound in F. cbn [bind] in EL.
    destruct (_ || _ || _) in EL; [discriminate|]. injection EL as <-. lia. }
  set (s := Z.of_nat (multiplicity u U)) in *.
  destruct (rm_passes num _ u p U 0 (r - Z.of_nat p) (r - s) P (filled (2 * p + 1) pzero)) as [[t1 P1]| | |] eqn:EP;
    try discriminate.
  cbn [bind] in H. apply rm_passes_inv in EP. destruct EP as (A1 & A2 & A3 & A4).
  destruct (Z.eqb_spec t1 0) as [->|Hne].
  { rewrite A3 in H by auto. injection H; intros; apply Z0; congruence. }
  specialize (A4 ltac:(lia)).
  destruct (rm_finish r _ t1 U P1) as [[U2 P2]| | |] eqn:EF; try discriminate. cbn [bind] in H.
  injection H as <- <- <-. unfold rm_finish in EF.
  set (tn := Z.to_nat t1) in *. set (ub := upper_bound U u) in *. pose proof (ub_le eps U u) as Hub. fold ub in Hub.
  assert (Htn : t1 = Z.of_nat tn) by (unfold tn; lia).
  replace (Z.to_nat (Z.of_nat (length U) - (r + 1))) with (length U - ub)%nat in EF by lia.
  replace (r + 1)%Z with (Z.of_nat ub) in EF by lia. replace (Z.of_nat ub - t1)%Z with (Z.of_nat (ub - tn)) in EF by lia.
  destruct (shift_down_ok (length U - ub) ub (ub - tn) U) as (U1 & E1 & L1 & G1); [lia|lia|].
  rewrite E1 in EF. cbn [bind] in EF.
  destruct (shift_down _ _ _ P1) as [P3| | |] eqn:E2 in EF; try discriminate. cbn [bind] in EF.
  apply shift_down_len in E2. injection EF as <- <-.
  assert (HS : (0 <= s)%Z) by (unfold s; lia).
  assert (Hsr : (s <= r + 1)%Z).
  { unfold s, multiplicity. fold ub. lia. }
  assert (Htp : (tn <= length P)%nat) by lia.
  split; [lia|]. split; [lia|].
  split. { rewrite firstn_length. unfold pt in *. lia. }
  split; [lia|].
  apply nth_ext with (d := 0) (d' := 0).
  { rewrite app_length, !firstn_length, skipn_length. lia. }
  intros x Hx. rewrite firstn_length in Hx.
  fold (kn (firstn (length U1 - tn) U1) x). rewrite kn_firstn by lia. unfold kn at 1. rewrite G1.
  destruct (Nat.leb_spec (ub - tn) x), (Nat.ltb_spec x (ub - tn + (length U - ub))); cbn [andb]; try lia.
  - rewrite app_nth2; rewrite firstn_length; [|lia].
    fold (kn (skipn ub U) (x - min (ub - tn) (length U))). rewrite kn_skipn. unfold kn. f_equal. lia.
  - rewrite app_nth1 by (rewrite firstn_length; lia).
    fold (kn (firstn (ub - tn) U) x). rewrite kn_firstn by lia. reflexivity.
Qed.

Lemma remove_zero dist (u : R) p num U (P : list (pt R)) tol U' P' :
  remove_knot_tol dist u p num U P tol = Ok (0%Z, U', P') -> U' = U /\ P' = P.
Proof. intros H. apply remove_tol_inv in H. apply H. auto. Qed.

Lemma remove_reported dist (u : R) p num U (P : list (pt R)) tol t U' P' :
  nondecreasing U -> (num <= count_occ Req_EM_T U u)%nat ->
  remove_knot_tol dist u p num U P tol = Ok (t, U', P') ->
  exists m, t = Z.of_nat m /\ (m <= num)%nat /\ (length P' + m)%nat = length P /\
    exists a b, U = a ++ repeat u m ++ b /\ U' = a ++ b.
Proof.
  intros Hs Hn H. apply remove_tol_inv in H. destruct H as (A1 & A2 & A4 & A5 & A6).
  exists (Z.to_nat t). split; [lia|]. split; [lia|]. split; [auto|].
  eexists _, _. split; [|exact A6]. apply (cut_block eps); auto. lia.
Qed.

(** ** End knots *)
Lemma remove_first U n p u num (P : list (pt R)) dist tol : 0 <= eps -> knots_ok U n p -> clamped U n p -> kn U p < kn U (S p) ->
  (1 <= num)%nat -> (1 <= p)%nat -> u = kn U 0 -> remove_knot_tol dist u p num U P tol = Undef BadIndex.
Proof.
  intros He Hk (C1 & C2) Hs Hn Hp ->. pose proof Hk as (L & Hpn & Hnd & _).
  assert (Eu : upper_bound U (kn U 0) = (p + 1)%nat).
  { apply (ub_char eps); auto; try lia.
    - intros i Hi. rewrite C1 by lia. lra.
    - intros _. rewrite Nat.add_1_r. rewrite (C1 p) in Hs by lia. auto. }
  assert (El : lower_bound U (kn U 0) = 0%nat).
  { apply (lb_char eps); auto; try lia; try (intros; lia); lra. }
  unfold remove_knot_tol, rm_locate. rewrite Eu.
  replace (Z.of_nat (p + 1) - 1)%Z with (Z.of_nat p) by lia. rewrite zget_nat, get_kn by lia. cbn [bind].
  rewrite nabs_R. cbn [nltb nsub neps NumR]. rewrite (C1 p) by lia. replace (kn U 0 - kn U 0) with 0 by lra.
  rewrite Rabs_R0. destruct (Rltb_spec eps 0); [lra|].
  destruct (Z.eqb_spec (Z.of_nat p) 0); [lia|]. destruct (Z.eqb_spec (Z.of_nat p) (Z.of_nat (length U))); [lia|].
  cbn [orb bind]. destruct (Nat.ltb_spec num 1); [lia|]. destruct num as [|num]; [lia|].
  cbn [rm_passes]. unfold rm_candidates, zget at 1.
  replace (Z.of_nat p - Z.of_nat p - 1 <? 0)%Z with true by (symmetry; apply Z.ltb_lt; lia). reflexivity.
Qed.

Lemma remove_last U n p u num (P : list (pt R)) dist tol : 0 <= eps -> knots_ok U n p -> clamped U n p -> length P = n ->
  (1 <= num)%nat -> u = kn U n -> remove_knot_tol dist u p num U P tol = Undef BadIndex.
Proof.
  intros He Hk (C1 & C2) LP Hn ->. pose proof Hk as (L & Hpn & Hnd & Hlast).
  assert (Eu : upper_bound U (kn U n) = (n + p + 1)%nat).
  { apply (ub_char eps); auto; try lia.
    intros i Hi. rewrite <- (C2 (n + p)%nat) by lia. apply Hnd; lia. }
  assert (El : lower_bound U (kn U n) = n).
  { apply (lb_char eps); auto; try lia.
    intros i Hi. apply Rle_lt_trans with (kn U (n - 1)); auto. apply Hnd; lia. }
  unfold remove_knot_tol, rm_locate, multiplicity. rewrite Eu, El.
  replace (Z.of_nat (n + p + 1) - 1)%Z with (Z.of_nat (n + p)) by lia. rewrite zget_nat, get_kn by lia. cbn [bind].
  rewrite nabs_R. cbn [nltb nsub neps NumR]. rewrite (C2 (n + p)%nat) by lia. replace (kn U n - kn U n) with 0 by lra.
  rewrite Rabs_R0. destruct (Rltb_spec eps 0); [lra|].
  destruct (Z.eqb_spec (Z.of_nat (n + p)) 0); [lia|]. destruct (Z.eqb_spec (Z.of_nat (n + p)) (Z.of_nat (length U))); [lia|].
  cbn [orb bind]. destruct (Nat.ltb_spec num 1); [lia|]. destruct num as [|num]; [lia|].
  cbn [rm_passes]. unfold rm_candidates.
  replace (Z.of_nat (n + p) - Z.of_nat p - 1)%Z with (Z.of_nat (n - 1)) by lia.
  destruct (pole_get P (n - 1)) as (a & Ea & _); [unfold pt in *; lia|].
  rewrite zget_nat, Ea. cbn [bind].
  replace (2 * p + 1)%nat with (S (2 * p)) by lia. unfold filled. cbn [repeat].
  change (@zset (pt R) (pzero :: repeat pzero (2 * p)) 0 a) with (Ok (a :: repeat (@pzero R (NumR eps)) (2 * p))). cbn [bind].
  replace (Z.of_nat (n + p) - Z.of_nat (n + p + 1 - n) + 1)%Z with (Z.of_nat n) by lia.
  rewrite zget_nat. unfold get. replace (nth_error P n) with (@None (pt R)); [reflexivity|].
  symmetry. apply nth_error_None. unfold pt in *. lia.
Qed.
End Rem.

(** ** Exactness *)
Lemma K_is eps U u num a b : nondecreasing U -> U = a ++ repeat u num ++ b ->
  firstn (@upper_bound R (NumR eps) U u - num) U ++ skipn (@upper_bound R (NumR eps) U u) U = a ++ b.
Proof.
  intros Hs E.
  assert (Hc : (num <= count_occ Req_EM_T U u)%nat).
  { rewrite E, !count_occ_app, count_repeat. destruct (Req_EM_T u u); [lia|congruence]. }
  pose proof (cut_block eps U u num Hs Hc) as Hcut.
  apply sorted_perm_eq.
  - apply (nondec_app_mid _ (repeat u num)). rewrite <- Hcut. auto.
  - apply (nondec_app_mid _ (repeat u num)). rewrite <- E. auto.
  - apply (Permutation_app_inv_l (repeat u num)).
    transitivity U.
    + etransitivity; [apply Permutation_app_swap_app|]. rewrite <- Hcut. reflexivity.
    + rewrite E. symmetry. apply Permutation_app_swap_app.
Qed.

Definition inU (U : list R) (p n : nat) (x : R) : Prop := kn U p <= x <= kn U n.

Lemma remove_exact_gen eps U n p u num a b P Q : 0 <= eps ->
  knots_ok U n p -> length P = n -> kn U p < u < kn U n -> (1 <= num)%nat ->
  U = a ++ repeat u num ++ b -> (count_occ Req_EM_T U u <= p)%nat -> length Q = (n - num)%nat ->
  (forall x c, kn U p <= x <= kn U n -> CV U n p 0 (pole P c) x = CV (a ++ b) (n - num) p 0 (pole Q c) x) ->
  knots_ok (a ++ b) (n - num) p /\ kn (a ++ b) p = kn U p /\ kn (a ++ b) (n - num) = kn U n /\
  (exists P', @remove_knot R (NumR eps) u num U P p = Ok (a ++ b, P') /\ length P' = (n - num)%nat /\
   (forall x d c, kn U p <= x <= kn U n -> (d <= p)%nat ->
     CV (a ++ b) (n - num) p d (pole P' c) x = CV (a ++ b) (n - num) p d (pole Q c) x)) /\
  forall dist tol, (forall A B : pt R, (forall c, A c = B c) -> dist A B <= tol) ->
  exists P', @remove_knot_tol R (NumR eps) dist u p num U P tol = Ok (Z.of_nat num, a ++ b, P') /\ length P' = (n - num)%nat /\
   (forall x d c, kn U p <= x <= kn U n -> (d <= p)%nat ->
     CV (a ++ b) (n - num) p d (pole P' c) x = CV (a ++ b) (n - num) p d (pole Q c) x).
Proof.
  intros He Hk HP Hu Hn E Hc HQ Hsame. pose proof Hk as (L & Hpn & Hnd & _).
  assert (Hc1 : (num <= count_occ Req_EM_T U u)%nat).
  { rewrite E, !count_occ_app, count_repeat. destruct (Req_EM_T u u); [lia|congruence]. }
  destruct (rpos_ex eps U n p u Hk Hu ltac:(lia)) as (r & s & Hpos).
  pose proof Hpos as (Es & E1 & E2 & _).
  pose proof (K_is eps U u num a b Hnd E) as EK. rewrite <- E2 in EK.
  rewrite <- EK in *.
  assert (Hns : (1 <= num <= s)%nat) by lia. assert (Hsp : (s <= p)%nat) by lia.
  split; [apply (K_ok eps U n p r s num u); auto|].
  destruct (K_dom eps U n p r s num u Hk Hpos Hns Hsp) as (D1 & D2 & _).
  split; [auto|]. split; [auto|]. split.
  - apply (remove_exact eps He U n p r s num u Hk Hpos Hns Hsp P Q HP HQ Hsame).
  - intros dist tol Hd. apply (remove_tol_exact eps He U n p r s num u Hk Hpos Hns Hsp P Q HP HQ Hsame dist tol Hd).
Qed.

Lemma remove_prop eps dist tol U n p u num a b P Q : 0 <= eps ->
  knots_ok U n p -> length P = n -> kn U p < u < kn U n -> (1 <= num)%nat ->
  U = a ++ repeat u num ++ b -> (count_occ Req_EM_T U u <= p)%nat -> length Q = (n - num)%nat ->
  evaluable eps U n p -> evaluable eps (a ++ b) (n - num) p ->
  same_on eps p U P (a ++ b) Q (fun x => kn U p <= x <= kn U n) (fun d => d = 0%nat) ->
  (forall A B : pt R, (forall c, A c = B c) -> dist A B <= tol) ->
  exists P', @remove_knot_tol R (NumR eps) dist u p num U P tol = Ok (Z.of_nat num, a ++ b, P') /\
    length P' = (n - num)%nat /\
    same_on eps p (a ++ b) Q (a ++ b) P' (fun x => kn U p <= x <= kn U n) any /\
    (full_support (a ++ b) (n - num) p -> forall i c, (i < n - num)%nat -> polec P' c i = polec Q c i).
Proof.
  intros He Hk HP Hu Hn E Hc HQ Ev Ev' Hsame Hd.
  pose proof Hk as (L & Hpn & Hnd & _).
  assert (Hc1 : (num <= count_occ Req_EM_T U u)%nat).
  { rewrite E, !count_occ_app, count_repeat. destruct (Req_EM_T u u); [lia|congruence]. }
  destruct (rpos_ex eps U n p u Hk Hu ltac:(lia)) as (r & s & Hpos).
  pose proof Hpos as (Es & E1 & E2 & _).
  pose proof (K_is eps U u num a b Hnd E) as EK. rewrite <- E2 in EK.
  assert (Hns : (1 <= num <= s)%nat) by lia. assert (Hsp : (s <= p)%nat) by lia.
  assert (HK : knots_ok (a ++ b) (n - num) p) by (rewrite <- EK; apply (K_ok eps U n p r s num u); auto).
  destruct (K_dom eps U n p r s num u Hk Hpos Hns Hsp) as (D1 & D2 & _). rewrite EK in D1, D2.
  assert (HCV : forall x c, kn U p <= x <= kn U n -> CV U n p 0 (pole P c) x = CV (a ++ b) (n - num) p 0 (pole Q c) x).
  { intros x c Hx. symmetry.
    apply (same_on_CV eps p U n P (a ++ b) (n - num) Q (fun x => kn U p <= x <= kn U n) (fun d => d = 0%nat)); auto; try lia.
    intros y Hy. lra. }
  destruct (remove_exact_gen eps U n p u num a b P Q He Hk HP Hu Hn E Hc HQ HCV) as (_ & _ & _ & _ & G).
  destruct (G dist tol Hd) as (P' & EP & LP & V).
  exists P'. split; auto. split; auto. split.
  - apply (CV_same_on eps p (a ++ b) (n - num) Q (a ++ b) (n - num) P'); auto. intros x Hx. lra.
  - intros (F1 & F2) i c Hi.
    apply (full_poles_unique (a ++ b) (n - num) p); auto; [split; auto|].
    intros x c' Hx. apply V; [lra|lia].
Qed.

(** ** Insertion then removal *)
Lemma insert_then_remove eps dist tol k n p u r num P :
  0 <= eps -> knots_ok k n p -> length P = n -> kn k p < u < kn k n ->
  (1 <= num <= r)%nat -> (count_occ Req_EM_T k u + r <= p)%nat ->
  (forall A B : pt R, (forall c, A c = B c) -> dist A B <= tol) ->
  exists idx k1 P1 k2 P2, @insert_knots R (NumR eps) u p r k P = Ok (idx, k1, P1) /\
    @remove_knot_tol R (NumR eps) dist u p num k1 P1 tol = Ok (Z.of_nat num, k2, P2) /\
    length P2 = (n + r - num)%nat /\
    (exists a b, k = a ++ b /\ k2 = a ++ repeat u (r - num) ++ b) /\
    (evaluable eps k n p -> evaluable eps k2 (n + r - num) p ->
     same_on eps p k P k2 P2 (fun x => kn k p <= x <= kn k n) any) /\
    (num = r -> k2 = k /\ (full_support k n p -> forall i c, (i < n)%nat -> polec P2 c i = polec P c i)).
Proof.
  intros He Hk HP Hu Hnum Hc Hd. pose proof Hk as (L & Hpn & Hnd & _).
  assert (Hc' : (@multiplicity R (NumR eps) u k < p)%nat) by (rewrite (mult_count eps) by auto; lia).
  destruct (insert_knots_same eps k u n p r P Hk HP ltac:(lra) Hc' ltac:(lia))
    as (idx & k1 & P1 & r' & Er & E & Hk1 & LP1 & (a & b & Ek & Ek1) & E1 & E2 & _ & Hsp).
  rewrite (mult_count eps) in Er by auto.
  assert (Er' : r' = r) by lia. clear Er. subst r'.
  assert (Hcu : count_occ Req_EM_T k1 u = (count_occ Req_EM_T k u + r)%nat).
  { rewrite Ek1, Ek, !count_occ_app, count_repeat. destruct (Req_EM_T u u); [lia|congruence]. }
  assert (V1 : forall x d c, kn k p <= x <= kn k n -> (d <= p)%nat ->
       CV k1 (n + r) p d (pole P1 c) x = CV k n p d (pole P c) x).
  { intros x d c Hx Hdp. destruct (Hsp x Hx) as (l & l' & A1 & A2 & A3 & A4 & A5 & A6 & A7).
    apply (CV_transfer k n k1 (n + r) p l l'); auto. }
  (* a curve with r - num copies *)
  assert (HQ : exists Q, length Q = (n + r - num)%nat /\
    (forall x c, kn k1 p <= x <= kn k1 (n + r) ->
      CV k1 (n + r) p 0 (pole P1 c) x = CV (a ++ repeat u (r - num) ++ b) (n + r - num) p 0 (pole Q c) x) /\
    (forall x d c, kn k p <= x <= kn k n -> (d <= p)%nat ->
      CV (a ++ repeat u (r - num) ++ b) (n + r - num) p d (pole Q c) x = CV k n p d (pole P c) x) /\
    (num = r -> Q = P)).
  { destruct (Nat.eq_dec num r) as [->|Hne].
    - exists P. rewrite Nat.sub_diag. cbn [repeat app]. rewrite <- Ek.
      replace (n + r - r)%nat with n by lia. split; [auto|]. split; [|auto].
      intros x c Hx. apply V1; [lra|lia].
    - destruct (insert_knots_same eps k u n p (r - num) P Hk HP ltac:(lra) Hc' ltac:(lia))
        as (idx2 & k3 & P3 & r3 & Er & E3 & Hk3 & LP3 & (a3 & b3 & Ek3 & Ek3') & E13 & E23 & _ & Hsp3).
      rewrite (mult_count eps) in Er by auto. assert (Er' : r3 = (r - num)%nat) by lia. clear Er. subst r3.
      assert (EE : k3 = a ++ repeat u (r - num) ++ b).
      { apply sorted_perm_eq; [apply Hk3| |].
        - apply (nondec_app_mid _ (repeat u num)).
          replace (a ++ repeat u num ++ repeat u (r - num) ++ b) with k1; [apply Hk1|].
          rewrite Ek1. f_equal. rewrite app_assoc, <- repeat_app. do 2 f_equal. lia.
        - rewrite Ek3'. transitivity (repeat u (r - num) ++ k).
          + rewrite Ek3. apply Permutation_app_swap_app.
          + rewrite Ek. apply Permutation_app_swap_app. }
      assert (V3 : forall x d c, kn k p <= x <= kn k n -> (d <= p)%nat ->
         CV k3 (n + (r - num)) p d (pole P3 c) x = CV k n p d (pole P c) x).
      { intros x d c Hx Hdp. destruct (Hsp3 x Hx) as (l & l' & A1 & A2 & A3 & A4 & A5 & A6 & A7).
        apply (CV_transfer k n k3 (n + (r - num)) p l l'); auto. }
      exists P3. rewrite <- EE. replace (n + r - num)%nat with (n + (r - num))%nat by lia.
      split; [auto|]. split; [|split; [auto|lia]].
      intros x c Hx. rewrite V1, V3 by (try lra; lia). auto. }
  destruct HQ as (Q & LQ & HQ1 & HQ2 & HQ3).
  assert (Ek1' : k1 = a ++ repeat u num ++ repeat u (r - num) ++ b).
  { rewrite Ek1. f_equal. rewrite app_assoc, <- repeat_app. do 2 f_equal. lia. }
  destruct (remove_exact_gen eps k1 (n + r) p u num a (repeat u (r - num) ++ b) P1 Q He Hk1 LP1
     ltac:(lra) ltac:(lia) Ek1' ltac:(lia) LQ HQ1) as (HK & D1 & D2 & _ & G).
  destruct (G dist tol Hd) as (P2 & EP & LP2 & V2).
  exists idx, k1, P1, (a ++ repeat u (r - num) ++ b), P2.
  split; auto. split; auto. split; auto. split; [exists a, b; auto|]. split.
  - intros Ev1 Ev2. apply (CV_same_on eps p k n P _ (n + r - num) P2); auto.
    + intros x Hx. lra.
    + intros x d c Hx _ Hdp. rewrite V2, HQ2 by (auto; lra). auto.
  - intros ->. rewrite Nat.sub_diag in *. cbn [repeat app] in *. split; [auto|].
    intros HF i c Hi. rewrite <- Ek in *. replace (n + r - r)%nat with n in * by lia.
    rewrite HQ3 in * by auto. apply (full_poles_unique k n p); auto.
    intros x c' Hx. apply V2; [lra|lia].
Qed.

(** ** Trimming, in terms of evaluation *)
Lemma trim_prop eps k n p u1 u2 P :
  0 < eps -> knots_ok k n p -> length P = n -> (1 <= p)%nat -> clamped k n p ->
  kn k p <= u1 -> u1 < u2 -> u2 <= kn k n ->
  exists k' P' n', @trim R (NumR eps) p k P u1 u2 = Ok (k', P') /\
    @trim R (NumR eps) p k P u2 u1 = Ok (k', P') /\
    knots_ok k' n' p /\ length P' = n' /\ clamped k' n' p /\
    u1 - eps < kn k' p <= u1 /\ u2 <= kn k' n' < u2 + eps /\
    (eps <= u1 - kn k p -> kn k' p = u1) /\ (eps <= kn k n - u2 -> kn k' n' = u2) /\
    (evaluable eps k n p -> evaluable eps k' n' p ->
       same_on eps p k P k' P' (fun x => u1 <= x < u2) any /\
       ((count_occ Req_EM_T k u2 <= p)%nat \/ kn k n - u2 < eps ->
          same_on eps p k P k' P' (fun x => x = u2) (fun d => d = 0%nat))).
Proof.
  intros He Hk HP Hp (C1 & C2) H1 H12 H2.
  destruct (trim_ok eps He k n p u1 u2 P Hk HP Hp) as (k' & P' & n' & A1 & A2 & A3 & A4 & A5 & A6 & A7 & A8 & A9 & A10 & A11 & A12); auto.
  { symmetry. apply C1. lia. } { apply C2. lia. }
  exists k', P', n'. split; auto. split; auto. split; auto. split; auto. split.
  { pose proof A3 as (L & Hpn & Hnd & _). split.
    - intros i Hi. apply Rle_antisym.
      + rewrite A5. apply Hnd; lia.
      + apply Hnd; lia.
    - intros i Hi. apply Rle_antisym.
      + rewrite <- A6. apply Hnd; lia.
      + apply Hnd; lia. }
  split; auto. split; auto. split; auto. split; auto.
  intros E1 E2. split.
  - apply (CV_same_on eps p k n P k' n' P'); auto. intros x Hx. lra.
  - intros Hc. apply (CV_same_on eps p k n P k' n' P'); auto.
    + intros x ->. lra.
    + intros x d c -> -> _. apply A12; auto.
Qed.

Lemma adj_knots_ok k n p : length k = (n + p + 1)%nat -> (p < n)%nat ->
  (forall i, (S i < n + p + 1)%nat -> kn k i <= kn k (S i)) -> kn k (n - 1) < kn k n -> knots_ok k n p.
Proof. intros L H1 H2 H3. split; auto. split; auto. split; auto. apply succ_nondecreasing. intros i Hi. apply H2. lia. Qed.

Ltac knots_lit := apply adj_knots_ok; [reflexivity|lia|
  intros i Hi; repeat (destruct i as [|i]; [unfold kn; simpl; lra|]); simpl in Hi; lia|unfold kn; simpl; lra].

Lemma ex_remove : let k := [0;0;0;0;1;2;3;3;3;3] in
  knots_ok k 6 3 /\ kn k 3 < 2 < kn k 6 /\ (count_occ Req_EM_T k 2%R + 2 <= 3)%nat /\ full_support k 6 3 /\
  evaluable (1/1000) k 6 3 /\
  (forall A B : pt R, (forall c, A c = B c) -> Rabs (A 0%nat - B 0%nat) <= 0).
Proof.
  split; [knots_lit|]. split; [unfold kn; simpl; lra|].
  split. { cbn [count_occ]. repeat (destruct (Req_EM_T _ _); try (exfalso; lra)). lia. }
  split. { split; [unfold kn; simpl; lra|]. intros i Hi.
    repeat (destruct i as [|i]; [unfold kn; simpl; lra|]). lia. }
  split; [left; lia|]. intros A B H. rewrite H. replace (B 0%nat - B 0%nat) with 0 by ring. rewrite Rabs_R0. lra.
Qed.

Lemma ex_trim : let k := [0;0;0;1;2;2;2] in
  0 < 1/1000 /\ knots_ok k 4 2 /\ clamped k 4 2 /\ kn k 2 <= 1/2 /\ 1/2 < 3/2 /\ 3/2 <= kn k 4 /\
  (count_occ Req_EM_T k (3/2)%R <= 2)%nat /\ evaluable (1/1000) k 4 2.
Proof.
  split; [lra|]. split; [knots_lit|]. split.
  { split; intros i Hi.
    - repeat (destruct i as [|i]; [unfold kn; simpl; lra|]). lia.
    - do 4 (destruct i as [|i]; [lia|]). repeat (destruct i as [|i]; [unfold kn; simpl; lra|]). lia. }
  split; [unfold kn; simpl; lra|]. split; [lra|]. split; [unfold kn; simpl; lra|].
  split. { cbn [count_occ]. repeat (destruct (Req_EM_T _ _); try (exfalso; lra)). lia. }
  left; lia.
Qed.

(** ** Refutation by running the model in exact rational arithmetic *)
Require Import QArith.
Lemma remove_too_many :
  let k := [0;0;0;0;1;2;3;4;4;4;4]%Q in
  let P := repeat (fun _ => 1%Q) 7 : list (pt Q) in
  exists k' P', @remove_knot_tol Q NumQ (fun a b => (a 0%nat - b 0%nat) * (a 0%nat - b 0%nat))%Q 2%Q 3 2 k P 0%Q = Ok (2%Z, k', P') /\
    k' = [0;0;0;0;3;4;4;4;4]%Q.
Proof. cbv zeta. eexists _, _. split; [vm_compute; reflexivity|reflexivity]. Qed.
