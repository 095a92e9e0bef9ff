(** Trimming. *)
From Coq Require Import List Arith ZArith Reals Lia Lra Permutation.
From Verif Require Import Model_Base Spec_Base Spec_Basis Spec_Eval Model_Basis Model_Knots
  Proof_Base Proof_Blossom Proof_Basis Proof_Ders Proof_Eval Proof_PropBasis Proof_Refine Proof_Insert
  Proof_Boehm Proof_PropInsert Proof_Continuity.
Import ListNotations.
Local Open Scope R_scope.

(** The span of a parameter and the d-th derivative of the curve there. *)
Definition sp (k : list R) (n p : nat) (x : R) : nat :=
  match @find_span R (NumR 0) n p x k with Ok l => l | _ => 0%nat end.
Definition CV (k : list R) (n p d : nat) (P : nat -> R) (x : R) : R := PS k p (sp k n p x) d P x.

Lemma sp_at k n p x l : knots_ok k n p -> (p <= l < n)%nat -> span_at k n x l -> sp k n p x = l.
Proof.
  intros (Hl & Hpn & Hs & _) Hr Sx. unfold sp. rewrite (span_at_find 0 n p x k l); auto.
Qed.
Lemma CV_at k n p d P x l : knots_ok k n p -> (p <= l < n)%nat -> span_at k n x l ->
  CV k n p d P x = PS k p l d P x.
Proof. intros. unfold CV. rewrite (sp_at k n p x l); auto. Qed.

Lemma CV_eval eps k n p P x d : knots_ok k n p -> length P = n -> evaluable eps k n p ->
  kn k p <= x <= kn k n -> (d <= p)%nat ->
  exists q, @eval_value R (NumR eps) x k P p d = Ok q /\ forall c, q c = CV k n p d (pole P c) x.
Proof.
  intros Hk HP He Hx Hd. destruct (span_at_ex eps n p x k Hk Hx) as (l & Hl & Sx & Hs).
  destruct (eval_value_span eps k n p P x d l Hk HP Hl Sx Hd He) as (q & E & V).
  exists q. split; auto. intros c. rewrite V. symmetry. apply CV_at; auto.
Qed.

(** Transfer at the level of [CV]. *)
Lemma CV_transfer k n k' n' p l l' P P' d x :
  knots_ok k n p -> knots_ok k' n' p -> (p <= l < n)%nat -> (p <= l' < n')%nat ->
  span_at k n x l -> span_at k' n' x l' ->
  kn k l < kn k (S l) -> kn k' l' < kn k' (S l') -> (d <= p)%nat ->
  (forall j, (l' - p <= j <= l')%nat -> P' j = blo (kn k) l P (kargs (kn k') j p)) ->
  CV k' n' p d P' x = CV k n p d P x.
Proof.
  intros. rewrite (CV_at k n p d P x l), (CV_at k' n' p d P' x l'); auto.
  apply (PS_transfer k n k' n'); auto.
Qed.

Lemma eqrange eps (k : list R) u i : nondecreasing k ->
  (@lower_bound R (NumR eps) k u <= i < @upper_bound R (NumR eps) k u)%nat -> kn k i = u.
Proof.
  intros Hs (H1 & H2). apply Rle_antisym; [apply (ub_below eps); auto|].
  pose proof (ub_le eps k u).
  apply Rle_trans with (kn k (@lower_bound R (NumR eps) k u)); [apply (lb_at eps); lia|]. apply Hs; lia.
Qed.

(** Insertion of any number of copies, saturated or not. *)
Lemma insert_any eps k n p u r P :
  knots_ok k n p -> length P = n -> kn k p <= u < kn k n -> (1 <= r)%nat ->
  exists idx k1 P1 n1, @insert_knots R (NumR eps) u p r k P = Ok (idx, k1, P1) /\
    knots_ok k1 n1 p /\ length P1 = n1 /\ (n <= n1)%nat /\
    kn k1 p = kn k p /\ kn k1 n1 = kn k n /\ kn k1 0 = kn k 0 /\ kn k1 (n1 + p) = kn k (n + p) /\
    count_occ Req_EM_T k1 u = max (count_occ Req_EM_T k u) (min p (count_occ Req_EM_T k u + r)) /\
    (forall x, x <> u -> count_occ Req_EM_T k1 x = count_occ Req_EM_T k x) /\
    (forall x d c, kn k p <= x <= kn k n -> (d <= p)%nat ->
       CV k1 n1 p d (pole P1 c) x = CV k n p d (pole P c) x) /\
    n1 = (n + (count_occ Req_EM_T k1 u - count_occ Req_EM_T k u))%nat.
Proof.
  intros Hk HP Hu Hr.
  destruct (Nat.lt_ge_cases (count_occ Req_EM_T k u) p) as [Hc|Hc].
  - pose proof Hc as Hc'. rewrite <- (mult_count eps) in Hc' by apply Hk.
    destruct (insert_knots_same eps k u n p r P Hk HP Hu Hc' Hr)
      as (idx & k' & P' & r' & Er & E & Hk' & LP & Hins & E1 & E2 & (m & _ & Hpos & _ & G) & Hsp).
    rewrite (mult_count eps) in * by apply Hk.
    exists idx, k', P', (n + r')%nat. repeat (split; [auto; lia|]).
    destruct Hpos as (Hm & _).
    split. { rewrite G by lia. unfold ins_kn. reflexivity. }
    split. { rewrite G by lia. unfold ins_kn. destruct (Nat.leb_spec (n + r' + p) m); [lia|].
             destruct (Nat.leb_spec (n + r' + p) (m + r')); [lia|]. f_equal; lia. }
    assert (Ecu : count_occ Req_EM_T k' u = (count_occ Req_EM_T k u + r')%nat).
    { rewrite (knot_inserted_count k u r' k' u Hins). destruct (Req_EM_T u u); [lia|congruence]. }
    split; [lia|]. split.
    { intros x Hx. rewrite (knot_inserted_count k u r' k' x Hins).
      destruct (Req_EM_T x u); [congruence|]. lia. }
    split; [|lia].
    intros x d c Hx Hd. destruct (Hsp x Hx) as (l & l' & A1 & A2 & A3 & A4 & A5 & A6 & A7).
    apply (CV_transfer k n k' (n + r') p l l'); auto.
  - destruct (insert_saturated eps k p u r P) as (idx & E); auto; [apply Hk|destruct Hk as (? & ? & _); destruct P; simpl in *; [lia|congruence]|].
    exists idx, k, P, n. repeat (split; [auto; lia|]). lia.
Qed.

Lemma knots_gt_last k n p x : knots_ok k n p -> x < kn k n -> forall i, (i <= n + p)%nat -> kn k i <= x -> (i < n)%nat.
Proof.
  intros Hk Hx i Hi Hle. destruct (Nat.lt_ge_cases i n); auto.
  pose proof (knots_mono k n p Hk n i ltac:(lia) ltac:(lia)). lra.
Qed.

Lemma kn_skipn k a i : kn (skipn a k) i = kn k (a + i).
Proof.
  unfold kn. revert k; induction a as [|a IH]; intros k; [reflexivity|].
  destruct k; simpl; [destruct i; auto|apply IH].
Qed.
Lemma kn_firstn k a i : (i < a)%nat -> kn (firstn a k) i = kn k i.
Proof.
  unfold kn. revert k i; induction a as [|a IH]; intros k i Hi; [lia|].
  destruct k; simpl; [destruct i; auto|]. destruct i; auto. apply IH; lia.
Qed.
Lemma pole_skipn (P : list (pt R)) a c j : pole (skipn a P) c j = pole P c (a + j).
Proof.
  unfold pole. revert P; induction a as [|a IH]; intros P; [reflexivity|].
  destruct P; [simpl; destruct j; auto|apply IH].
Qed.
Lemma pole_firstn (P : list (pt R)) a c j : (j < a)%nat -> pole (firstn a P) c j = pole P c j.
Proof.
  unfold pole. intros H. revert P j H; induction a as [|a IH]; intros P j Hi; [lia|].
  destruct P; simpl; [destruct j; auto|]. destruct j; auto. apply IH; lia.
Qed.

(** Dropping the head of a curve at a knot of multiplicity at least p. *)
Lemma cut_head k n p u lb P :
  knots_ok k n p -> length P = n -> (1 <= p)%nat -> (1 <= lb)%nat ->
  (forall i, (lb <= i < lb + p)%nat -> kn k i = u) -> (lb + p <= n)%nat ->
  let k' := u :: skipn lb k in let P' := skipn (lb - 1) P in let n' := (n - (lb - 1))%nat in
  knots_ok k' n' p /\ length P' = n' /\ kn k' p = u /\ kn k' 0 = u /\ kn k' n' = kn k n /\
  kn k' (n' + p) = kn k (n + p) /\
  forall x d c, u <= x <= kn k n -> (d <= p)%nat -> CV k' n' p d (pole P' c) x = CV k n p d (pole P c) x.
Proof.
  intros Hk HP Hp Hlb Hu Hn k' P' n'. pose proof Hk as (Hl & Hpn & Hs & Hlast).
  assert (G : forall x, (1 <= x)%nat -> kn k' x = kn k (x + (lb - 1))).
  { intros [|x] Hx; [lia|]. unfold k'. rewrite kn_cons, kn_skipn. f_equal; lia. }
  assert (G0 : kn k' 0 = u) by reflexivity.
  assert (Lk' : length k' = (n' + p + 1)%nat).
  { unfold k'. simpl. rewrite skipn_length. unfold n'. lia. }
  assert (Hk' : knots_ok k' n' p).
  { split; [exact Lk'|]. split; [unfold n'; lia|]. split.
    - apply succ_nondecreasing. intros [|i] Hi.
      + rewrite G0, G by lia. rewrite Hu by lia. lra.
      + rewrite !G by lia. apply Hs; lia.
    - rewrite !G by (unfold n'; lia). replace (n' - 1 + (lb - 1))%nat with (n - 1)%nat by (unfold n'; lia).
      replace (n' + (lb - 1))%nat with n by (unfold n'; lia). auto. }
  split; [exact Hk'|]. split; [unfold P'; rewrite skipn_length; unfold n', pt in *; lia|].
  split; [rewrite G by lia; apply Hu; lia|]. split; [exact G0|].
  split; [rewrite G by (unfold n'; lia); f_equal; unfold n'; lia|].
  split; [rewrite G by (unfold n'; lia); f_equal; unfold n'; lia|].
  intros x d c Hx Hd.
  assert (Hx' : kn k' p <= x <= kn k' n').
  { rewrite !G by (unfold n'; lia). rewrite Hu by lia.
    replace (n' + (lb - 1))%nat with n by (unfold n'; lia). auto. }
  destruct (span_at_ex 0 n' p x k' Hk' Hx') as (l' & Hl' & Sx' & Hs').
  set (l := (l' + (lb - 1))%nat).
  assert (Hlr : (p <= l < n)%nat) by (unfold l, n' in *; lia).
  assert (Hsl : kn k l < kn k (S l)).
  { rewrite !G in Hs' by lia. exact Hs'. }
  apply (CV_transfer k n k' n' p l l'); auto.
  - destruct Sx' as [(A & B)|(A & B)].
    + left. rewrite !G in * by lia. auto.
    + right. rewrite G in A by (unfold n'; lia).
      replace (n' + (lb - 1))%nat with n in A by (unfold n'; lia). split; auto. unfold l, n' in *. lia.
  - intros j Hj. unfold P'. rewrite pole_skipn.
    rewrite (kargs_shift (kn k') (kn k) j (lb - 1 + j) p).
    2: { intros y Hy. rewrite G by lia. f_equal; lia. }
    rewrite (blo_dual k n p l) by (auto; unfold l; lia). reflexivity.
Qed.

(** Dropping the tail of a curve at a knot of multiplicity at least p. *)
Lemma cut_tail k n p u lb P :
  knots_ok k n p -> length P = n -> (1 <= p)%nat -> (p < lb)%nat -> kn k (lb - 1) < u ->
  (forall i, (lb <= i < lb + p)%nat -> kn k i = u) -> (lb + p <= n)%nat ->
  let k' := firstn (lb + p) k ++ [u] in let P' := firstn lb P in
  knots_ok k' lb p /\ length P' = lb /\ kn k' p = kn k p /\ kn k' 0 = kn k 0 /\ kn k' lb = u /\
  kn k' (lb + p) = u /\
  (forall x d c, kn k p <= x < u -> (d <= p)%nat -> CV k' lb p d (pole P' c) x = CV k n p d (pole P c) x) /\
  (kn k (lb + p) <> u -> forall c, CV k' lb p 0 (pole P' c) u = CV k n p 0 (pole P c) u).
Proof.
  intros Hk HP Hp Hlb Hbe Hu Hn k' P'. pose proof Hk as (Hl & Hpn & Hs & Hlast).
  assert (LF : length (firstn (lb + p) k) = (lb + p)%nat) by (rewrite firstn_length; lia).
  assert (G : forall x, (x < lb + p)%nat -> kn k' x = kn k x).
  { intros x Hx. unfold k', kn. rewrite app_nth1 by lia. apply kn_firstn; lia. }
  assert (G1 : kn k' (lb + p) = u).
  { unfold k', kn. rewrite app_nth2 by lia. rewrite LF, Nat.sub_diag. reflexivity. }
  assert (Hk' : knots_ok k' lb p).
  { split; [unfold k'; rewrite app_length, LF; simpl; lia|]. split; [lia|]. split.
    - apply succ_nondecreasing. unfold k' at 1. rewrite app_length, LF. simpl. intros i Hi.
      destruct (Nat.eq_dec (S i) (lb + p)) as [E|E].
      + rewrite E, G1, G by lia. rewrite Hu by lia. lra.
      + rewrite !G by lia. apply Hs; lia.
    - rewrite !G by lia. rewrite (Hu lb) by lia. auto. }
  split; [exact Hk'|]. split; [unfold P'; rewrite firstn_length; unfold pt in *; lia|].
  split; [apply G; lia|]. split; [apply G; lia|]. split; [rewrite G by lia; apply Hu; lia|].
  split; [exact G1|]. split.
  - intros x d c Hx Hd.
    assert (Hx' : kn k' p <= x <= kn k' lb) by (rewrite !G by lia; rewrite (Hu lb) by lia; lra).
    destruct (span_at_ex 0 lb p x k' Hk' Hx') as (l & Hl' & Sx' & Hs').
    apply (CV_transfer k n k' lb p l l); auto; try lia.
    + destruct Sx' as [(A & B)|(A & B)].
      * left. rewrite !G in * by lia. auto.
      * rewrite G, Hu in A by lia. lra.
    + rewrite !G in Hs' by lia. auto.
    + intros j Hj. unfold P'. rewrite pole_firstn by lia.
      rewrite (kargs_shift (kn k') (kn k) j j p).
      2: { intros y Hy. destruct (Nat.eq_dec (j + y) (lb + p)) as [E|E]; [|apply G; lia].
           lia. }
      rewrite !G in Hs' by lia. rewrite (blo_dual k n p l) by (auto; lia). reflexivity.
  - intros Hne c.
    assert (Hsr : kn k (lb + p - 1) < kn k (S (lb + p - 1))).
    { replace (S (lb + p - 1)) with (lb + p)%nat by lia. rewrite Hu by lia.
      assert (kn k (lb + p - 1) <= kn k (lb + p)) by (apply Hs; lia). rewrite Hu in H by lia. lra. }
    assert (Hsl : kn k' (lb - 1) < kn k' (S (lb - 1))).
    { replace (S (lb - 1)) with lb by lia. rewrite !G by lia. rewrite (Hu lb) by lia. auto. }
    rewrite (CV_at k n p 0 _ u (lb + p - 1)); auto; try lia.
    2: { left. rewrite Hu in * by lia. lra. }
    rewrite (CV_at k' lb p 0 _ u (lb - 1)); auto; try lia.
    2: { right. rewrite G by lia. rewrite Hu by lia. auto. }
    rewrite !PS0_blo.
    replace (repeat (u, 1) p) with (kargs (kn k) (lb - 1) p) at 2.
    2: { apply kargs_const. intros x Hx. apply Hu. lia. }
    replace (repeat (u, 1) p) with (kargs (kn k') (lb - 1) p).
    2: { apply kargs_const. intros x Hx. rewrite G by lia. apply Hu. lia. }
    rewrite (blo_dual k' lb p) by (auto; lia). rewrite (blo_dual k n p) by (auto; lia).
    unfold P'. apply pole_firstn. lia.
Qed.

Section TrimCode.
Variable eps : R.
Hypothesis Heps : 0 < eps.
Local Hint Extern 0 (Num R) => exact (NumR eps) : typeclass_instances.

Lemma front_kn (k : list R) : k <> [] -> front k = Ok (kn k 0).
Proof. destruct k; [congruence|reflexivity]. Qed.

Lemma count_range (k : list R) u : nondecreasing k ->
  (upper_bound k u = lower_bound k u + count_occ Req_EM_T k u)%nat.
Proof.
  intros Hs. pose proof (mult_count eps k u Hs) as E. unfold multiplicity in E.
  pose proof (lb_le_ub eps k u). lia.
Qed.

Lemma trim_begin_ok (k : list R) n p u P :
  knots_ok k n p -> length P = n -> (1 <= p)%nat -> kn k p <= u < kn k n ->
  eps <= u - kn k 0 ->
  exists k' P' n', trim_begin p k P u = Ok (k', P') /\
    knots_ok k' n' p /\ length P' = n' /\ kn k' p = u /\ kn k' 0 = u /\ kn k' n' = kn k n /\
    kn k' (n' + p) = kn k (n + p) /\
    (forall x, u < x -> count_occ Req_EM_T k' x = count_occ Req_EM_T k x) /\
    forall x d c, u <= x <= kn k n -> (d <= p)%nat -> CV k' n' p d (pole P' c) x = CV k n p d (pole P c) x.
Proof.
  intros Hk HP Hp Hu Hf. unfold trim_begin.
  rewrite front_kn by (destruct Hk as (L & _); destruct k; simpl in *; [lia|congruence]).
  cbn [bind nltb nsub neps NumR]. destruct (Rltb_spec (u - kn k 0) eps); [lra|].
  destruct (insert_any eps k n p u p P Hk HP Hu Hp)
    as (idx & k1 & P1 & n1 & E & Hk1 & LP1 & Hnn & E1 & E2 & E3 & E4 & C1 & C2 & V & _).
  rewrite E. cbn [bind].
  assert (Hs1 : nondecreasing k1) by apply Hk1.
  set (lb := lower_bound k1 u).
  assert (Hcnt : (p <= count_occ Req_EM_T k1 u)%nat) by lia.
  pose proof (count_range k1 u Hs1) as Hr. fold lb in Hr.
  assert (Heq : forall i, (lb <= i < lb + p)%nat -> kn k1 i = u).
  { intros i Hi. apply (eqrange eps); auto. fold lb. rewrite Hr. lia. }
  assert (Hlb1 : (1 <= lb)%nat).
  { destruct (Nat.eq_dec lb 0) as [E0|]; [|lia]. specialize (Heq 0%nat ltac:(lia)). lra. }
  pose proof Hk1 as (L1 & Hpn1 & _ & Hlast1).
  pose proof (ub_le eps k1 u) as Hub.
  assert (Hlbn : (lb + p <= n1)%nat).
  { assert (lb + p - 1 < n1)%nat; [|lia].
    apply (knots_gt_last k1 n1 p u Hk1); [lra| |].
    - lia.
    - rewrite Heq by lia. lra. }
  destruct (cut_head k1 n1 p u lb P1 Hk1 LP1 Hp Hlb1 Heq Hlbn) as (A1 & A2 & A3 & A4 & A5 & A6 & A7).
  assert (Hf1 : front (skipn lb k1) = Ok u).
  { rewrite front_kn.
    - rewrite kn_skipn, Nat.add_0_r. rewrite Heq by lia. auto.
    - intros Hn. apply (f_equal (@length R)) in Hn. rewrite skipn_length in Hn. simpl in Hn. lia. }
  rewrite Hf1. cbn [bind]. rewrite subi_ok by lia. cbn [bind].
  replace (lb - 1 <=? length P1)%nat with true by (symmetry; apply Nat.leb_le; unfold pt in *; lia).
  exists (u :: skipn lb k1), (skipn (lb - 1) P1), (n1 - (lb - 1))%nat.
  split; [reflexivity|]. split; [auto|]. split; [auto|]. split; [auto|]. split; [auto|].
  split; [lra|]. split; [lra|]. split.
  - intros x Hx. cbn [count_occ]. destruct (Req_EM_T u x); [lra|].
    rewrite <- (C2 x) by lra. rewrite <- (firstn_skipn lb k1) at 2. rewrite count_occ_app.
    assert (count_occ Req_EM_T (firstn lb k1) x = 0)%nat; [|lia].
    apply (proj1 (count_occ_not_In Req_EM_T _ _)). intros Hin.
    apply (In_nth _ _ 0) in Hin as (i & Hi & Ei). rewrite firstn_length in Hi.
    fold (kn (firstn lb k1) i) in Ei. rewrite kn_firstn in Ei by lia.
    pose proof (lb_below eps k1 u i ltac:(fold lb; lia)). lra.
  - intros x d c Hx Hd. rewrite (A7 x d c) by (auto; lra). apply V; auto. lra.
Qed.

Lemma trim_end_ok (k : list R) n p u P :
  knots_ok k n p -> length P = n -> (1 <= p)%nat -> kn k p < u -> u < kn k n ->
  eps <= kn k (n + p) - u ->
  exists k' P' n', trim_end p k P u = Ok (k', P') /\
    knots_ok k' n' p /\ length P' = n' /\ kn k' p = kn k p /\ kn k' 0 = kn k 0 /\ kn k' n' = u /\
    kn k' (n' + p) = u /\
    (forall x d c, kn k p <= x < u -> (d <= p)%nat -> CV k' n' p d (pole P' c) x = CV k n p d (pole P c) x) /\
    ((count_occ Req_EM_T k u <= p)%nat -> forall c, CV k' n' p 0 (pole P' c) u = CV k n p 0 (pole P c) u).
Proof.
  intros Hk HP Hp Hu Hu2 Hf. unfold trim_end.
  assert (Hbk : back k = Ok (kn k (n + p))).
  { destruct Hk as (L & _). rewrite (back_kn k); [do 2 f_equal; lia|]. lia. }
  rewrite Hbk. cbn [bind nltb nsub neps NumR]. destruct (Rltb_spec (kn k (n + p) - u) eps); [lra|].
  destruct (insert_any eps k n p u p P Hk HP ltac:(lra) Hp)
    as (idx & k1 & P1 & n1 & E & Hk1 & LP1 & Hnn & E1 & E2 & E3 & E4 & C1 & C2 & V & _).
  rewrite E. cbn [bind].
  assert (Hs1 : nondecreasing k1) by apply Hk1.
  set (lb := lower_bound k1 u).
  assert (Hcnt : (p <= count_occ Req_EM_T k1 u)%nat) by lia.
  pose proof (count_range k1 u Hs1) as Hr. fold lb in Hr.
  assert (Heq : forall i, (lb <= i < lb + p)%nat -> kn k1 i = u).
  { intros i Hi. apply (eqrange eps); auto. fold lb. rewrite Hr. lia. }
  pose proof Hk1 as (L1 & Hpn1 & _ & Hlast1).
  pose proof (ub_le eps k1 u) as Hub.
  assert (Hlb1 : (p < lb)%nat).
  { destruct (Nat.lt_ge_cases p lb) as [|HH]; auto. exfalso.
    pose proof (lb_at eps k1 u ltac:(fold lb; lia)) as Hla. fold lb in Hla.
    assert (kn k1 lb <= kn k1 p) by (apply Hs1; lia). lra. }
  assert (Hlbn : (lb + p <= n1)%nat).
  { assert (lb + p - 1 < n1)%nat; [|lia].
    apply (knots_gt_last k1 n1 p u Hk1); [lra| |].
    - lia.
    - rewrite Heq by lia. lra. }
  assert (Hbe : kn k1 (lb - 1) < u) by (apply (lb_below eps); fold lb; lia).
  destruct (cut_tail k1 n1 p u lb P1 Hk1 LP1 Hp Hlb1 Hbe Heq Hlbn) as (A1 & A2 & A3 & A4 & A5 & A6 & A7 & A8).
  replace (lb + p <=? length k1)%nat with true by (symmetry; apply Nat.leb_le; lia).
  assert (Hb1 : back (firstn (lb + p) k1) = Ok u).
  { rewrite back_kn; rewrite firstn_length; [|lia].
    rewrite kn_firstn by lia. rewrite Heq by lia. auto. }
  rewrite Hb1. cbn [bind].
  replace (lb <=? length P1)%nat with true by (symmetry; apply Nat.leb_le; unfold pt in *; lia).
  exists (firstn (lb + p) k1 ++ [u]), (firstn lb P1), lb.
  split; [reflexivity|]. split; [auto|]. split; [auto|]. split; [lra|]. split; [lra|].
  split; [auto|]. split; [auto|]. split.
  - intros x d c Hx Hd. rewrite (A7 x d c) by (auto; lra). apply V; auto. lra.
  - intros Hc c. rewrite A8.
    + apply V; [lra|lia].
    + pose proof (ub_at eps k1 u ltac:(lia)) as Hua. rewrite Hr in Hua.
      replace (count_occ Req_EM_T k1 u) with p in Hua by lia. lra.
Qed.

Lemma trim_ok (k : list R) n p u1 u2 P :
  knots_ok k n p -> length P = n -> (1 <= p)%nat -> kn k 0 = kn k p -> kn k (n + p) = kn k n ->
  kn k p <= u1 -> u1 < u2 -> u2 <= kn k n ->
  exists k' P' n', trim p k P u1 u2 = Ok (k', P') /\
    trim p k P u2 u1 = Ok (k', P') /\
    knots_ok k' n' p /\ length P' = n' /\
    kn k' 0 = kn k' p /\ kn k' (n' + p) = kn k' n' /\
    u1 - eps < kn k' p <= u1 /\ u2 <= kn k' n' < u2 + eps /\
    (eps <= u1 - kn k p -> kn k' p = u1) /\ (eps <= kn k n - u2 -> kn k' n' = u2) /\
    (forall x d c, u1 <= x < u2 -> (d <= p)%nat -> CV k' n' p d (pole P' c) x = CV k n p d (pole P c) x) /\
    ((count_occ Req_EM_T k u2 <= p)%nat \/ kn k n - u2 < eps ->
       forall c, CV k' n' p 0 (pole P' c) u2 = CV k n p 0 (pole P c) u2).
Proof.
  intros Hk HP Hp Hc1 Hc2 H1 H12 H2. unfold trim. cbn [nltb NumR].
  destruct (Rltb_spec u1 u2); [|lra]. destruct (Rltb_spec u2 u1); [lra|].
  assert (Hb : exists k1 P1 n1, trim_begin p k P u1 = Ok (k1, P1) /\
    knots_ok k1 n1 p /\ length P1 = n1 /\ kn k1 0 = kn k1 p /\ u1 - eps < kn k1 p <= u1 /\
    (eps <= u1 - kn k p -> kn k1 p = u1) /\ kn k1 n1 = kn k n /\
    kn k1 (n1 + p) = kn k (n + p) /\
    (forall x, u1 < x -> count_occ Req_EM_T k1 x = count_occ Req_EM_T k x) /\
    forall x d c, u1 <= x <= kn k n -> (d <= p)%nat -> CV k1 n1 p d (pole P1 c) x = CV k n p d (pole P c) x).
  { destruct (Rlt_le_dec (u1 - kn k 0) eps) as [G|G].
    - exists k, P, n. split.
      + unfold trim_begin.
        rewrite front_kn by (destruct Hk as (L & _); destruct k; simpl in *; [lia|congruence]).
        cbn [bind nltb nsub neps NumR]. destruct (Rltb_spec (u1 - kn k 0) eps); [auto|lra].
      + repeat (split; [auto; lra|]). auto.
    - destruct (trim_begin_ok k n p u1 P Hk HP Hp ltac:(lra) G)
        as (k1 & P1 & n1 & E & A1 & A2 & A3 & A4 & A5 & A6 & A7 & A8).
      exists k1, P1, n1. repeat (split; [auto; lra|]). auto. }
  destruct Hb as (k1 & P1 & n1 & E & Hk1 & LP1 & B1 & B2 & B3 & B4 & B5 & B6 & B7).
  rewrite E. cbn [bind].
  destruct (Rlt_le_dec (kn k1 (n1 + p) - u2) eps) as [G|G].
  - exists k1, P1, n1.
    assert (ET : trim_end p k1 P1 u2 = Ok (k1, P1)).
    { unfold trim_end.
      assert (Hbk : back k1 = Ok (kn k1 (n1 + p))).
      { destruct Hk1 as (L & _). rewrite (back_kn k1); [do 2 f_equal; lia|]. lia. }
      rewrite Hbk. cbn [bind nltb nsub neps NumR]. destruct (Rltb_spec (kn k1 (n1 + p) - u2) eps); [auto|lra]. }
    rewrite ET. repeat (split; [auto; lra|]). split.
    + intros x d c Hx Hd. apply B7; auto; lra.
    + intros _ c. apply B7; [lra|lia].
  - destruct (trim_end_ok k1 n1 p u2 P1 Hk1 LP1 Hp ltac:(lra) ltac:(lra) G)
      as (k2 & P2 & n2 & E2 & A1 & A2 & A3 & A4 & A5 & A6 & A7 & A8).
    exists k2, P2, n2. rewrite E2. repeat (split; [auto; lra|]). 
    split.
    + intros x d c Hx Hd. rewrite A7 by (auto; lra). apply B7; auto; lra.
    + intros [Hc|Hc] c; [|lra]. rewrite A8 by (rewrite B6 by lra; auto). apply B7; [lra|lia].
Qed.

End TrimCode.
