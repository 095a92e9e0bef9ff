(** Lemmas behind Prop_Insert. *)
From Coq Require Import List Arith ZArith Reals Lia Lra Permutation.
From Verif Require Import Model_Base Spec_Base Spec_Basis Spec_Eval Model_Basis Model_Knots
  Proof_Base Proof_Blossom Proof_Basis Proof_Ders Proof_Eval Proof_PropBasis Proof_Refine Proof_Insert Proof_Boehm.
Import ListNotations.
Local Open Scope R_scope.

Lemma kn_cons a k i : kn (a :: k) (S i) = kn k i.
Proof. reflexivity. Qed.
Lemma nondecreasing_tl a k : nondecreasing (a :: k) -> nondecreasing k.
Proof. intros H i j Hij Hj. apply (H (S i) (S j)); simpl; lia. Qed.
Lemma nondecreasing_hd a k x : nondecreasing (a :: k) -> In x k -> a <= x.
Proof.
  intros H Hx. apply (In_nth _ _ 0) in Hx as (i & Hi & <-).
  apply (H 0%nat (S i)); simpl; lia.
Qed.

Lemma mult_count eps k u : nondecreasing k ->
  @multiplicity R (NumR eps) u k = count_occ Req_EM_T k u.
Proof.
  unfold multiplicity. induction k as [|x k IH]; intros Hs; [reflexivity|].
  specialize (IH (nondecreasing_tl _ _ Hs)).
  assert (Hge : forall y, In y k -> x <= y) by (intros y; apply nondecreasing_hd; auto).
  pose proof (lb_le_ub eps k u).
  cbn [upper_bound lower_bound nltb NumR count_occ].
  destruct (Req_EM_T x u) as [->|Hne].
  - destruct (Rltb_spec u u); [lra|]. rewrite <- IH.
    assert (@lower_bound R (NumR eps) k u = 0%nat).
    { destruct k as [|y k']; [reflexivity|]. cbn. destruct (Rltb_spec y u); auto.
      specialize (Hge y (or_introl eq_refl)). lra. }
    lia.
  - destruct (Rltb_spec x u), (Rltb_spec u x); try lra.
    + rewrite <- IH. lia.
    + symmetry; cbn [Nat.sub]. apply (proj1 (count_occ_not_In Req_EM_T k u)). intros Hin. specialize (Hge u Hin). lra.
Qed.

Lemma knot_inserted_count k u r k' x : knot_inserted k u r k' ->
  count_occ Req_EM_T k' x = (count_occ Req_EM_T k x + (if Req_EM_T x u then r else 0))%nat.
Proof.
  intros (a & b & -> & ->). rewrite !count_occ_app.
  assert (E : count_occ Req_EM_T (repeat u r) x = if Req_EM_T x u then r else 0%nat).
  { destruct (Req_EM_T x u) as [->|Hne].
    - apply count_occ_repeat_eq; auto.
    - apply count_occ_repeat_neq; auto. }
  rewrite E. lia.
Qed.

Lemma insert_same_curve eps k n p u r P :
  knots_ok k n p -> length P = n -> kn k p <= u < kn k n -> (1 <= r)%nat ->
  (count_occ Req_EM_T k u < p)%nat ->
  exists idx k' P' r', r' = min r (p - count_occ Req_EM_T k u) /\
    @insert_knots R (NumR eps) u p r k P = Ok (idx, k', P') /\
    (exists a b, k = a ++ b /\ k' = a ++ repeat u r' ++ b) /\
    knots_ok k' (n + r') p /\ length P' = (n + r')%nat /\
    kn k' p = kn k p /\ kn k' (n + r') = kn k n /\
    (evaluable eps k n p -> evaluable eps k' (n + r') p ->
     forall x d, kn k p <= x <= kn k n ->
     exists q q', @eval_value R (NumR eps) x k P p d = Ok q /\
       @eval_value R (NumR eps) x k' P' p d = Ok q' /\ forall c, q' c = q c).
Proof.
  intros Hk HP Hu Hr Hc.
  rewrite <- (mult_count eps) in * by apply Hk.
  destruct (insert_knots_same eps k u n p r P Hk HP Hu Hc Hr)
    as (idx & k' & P' & r' & Er & E & Hk' & LP & Hins & E1 & E2 & _ & Hsp).
  exists idx, k', P', r'. repeat (split; auto).
  intros He He' x d Hx. apply (same_curve eps k n k' (n + r')); auto.
Qed.

Lemma insert_mult eps k n p u r P :
  knots_ok k n p -> length P = n -> kn k p <= u < kn k n -> (1 <= r)%nat ->
  exists idx k' P', @insert_knots R (NumR eps) u p r k P = Ok (idx, k', P') /\
    count_occ Req_EM_T k' u = max (count_occ Req_EM_T k u) (min p (count_occ Req_EM_T k u + r)) /\
    (forall x, x <> u -> count_occ Req_EM_T k' x = count_occ Req_EM_T k x) /\
    ((p <= count_occ Req_EM_T k u)%nat -> k' = k /\ P' = P).
Proof.
  intros Hk HP Hu Hr.
  destruct (Nat.lt_ge_cases (count_occ Req_EM_T k u) p) as [Hc|Hc].
  - destruct (insert_same_curve eps k n p u r P Hk HP Hu Hr Hc)
      as (idx & k' & P' & r' & Er & E & Hins & _).
    exists idx, k', P'. split; auto. split; [|split].
    + rewrite (knot_inserted_count k u r' k' u Hins).
      destruct (Req_EM_T u u); [|congruence]. lia.
    + intros x Hx. rewrite (knot_inserted_count k u r' k' x Hins).
      destruct (Req_EM_T x u); [congruence|]. lia.
    + intros; lia.
  - unfold insert_knots. rewrite subi_ok by (destruct Hk as (? & ? & _); lia). cbn [bind].
    change (@upper_bound R (NumR eps) k u - @lower_bound R (NumR eps) k u)%nat with (@multiplicity R (NumR eps) u k).
    rewrite mult_count by apply Hk.
    replace (p <=? count_occ Req_EM_T k u)%nat with true by (symmetry; apply Nat.leb_le; lia).
    eexists _, _, _. split; [reflexivity|]. split; [lia|]. auto.
Qed.

Lemma insert_saturated eps k p u r P : nondecreasing k -> P <> [] ->
  (p <= count_occ Req_EM_T k u)%nat ->
  exists idx, @insert_knots R (NumR eps) u p r k P = Ok (idx, k, P).
Proof.
  intros Hs HP Hc. unfold insert_knots.
  rewrite subi_ok by (destruct P; [congruence|simpl; lia]). cbn [bind].
  change (@upper_bound R (NumR eps) k u - @lower_bound R (NumR eps) k u)%nat with (@multiplicity R (NumR eps) u k).
  rewrite mult_count by auto.
  replace (p <=? count_occ Req_EM_T k u)%nat with true by (symmetry; apply Nat.leb_le; lia).
  eexists. reflexivity.
Qed.

(** Zero insertions are not a no-op. *)
Lemma insert_zero eps :
  exists k n p u P k' P' idx, knots_ok k n p /\ length P = n /\ kn k p <= u < kn k n /\
    @insert_knots R (NumR eps) u p 0 k P = Ok (idx, k', P') /\
    length P' = n /\ exists i c, (i < n)%nat /\ polec P' c i <> polec P c i.
Proof.
  set (k := [0;0;0;1;2;3;3;3] : list R).
  set (P := [(fun _ => 0); (fun _ => 1); (fun _ => 2); (fun _ => 3); (fun _ => 4)] : list (pt R)).
  assert (Hk : knots_ok k 5 2).
  { split; [reflexivity|]. split; [lia|]. split.
    - apply adjacent_nondecreasing. simpl. lra.
    - unfold kn; simpl; lra. }
  assert (U : @upper_bound R (NumR eps) k (3/2) = 4%nat).
  { apply (ub_char eps); [apply Hk|simpl; lia| |].
    - intros i Hi. do 4 (destruct i as [|i]; [unfold kn; simpl; lra|]). lia.
    - intros _. unfold kn; simpl; lra. }
  assert (L : @lower_bound R (NumR eps) k (3/2) = 4%nat).
  { apply (lb_char eps); [apply Hk|simpl; lia| |].
    - intros i Hi. do 4 (destruct i as [|i]; [unfold kn; simpl; lra|]). lia.
    - intros _. unfold kn; simpl; lra. }
  exists k, 5%nat, 2%nat, (3/2), P.
  unfold insert_knots. rewrite U, L.
  eexists _, _, _. split; [exact Hk|]. split; [reflexivity|].
  split; [unfold kn; simpl; lra|]. split; [vm_compute; reflexivity|].
  split; [reflexivity|]. exists 1%nat, 0%nat. split; [lia|]. unfold polec; simpl. lra.
Qed.

(** Insertion before the first knot. *)
Lemma insert_below eps k p u r P : (1 <= p)%nat -> P <> [] -> u < kn k 0 -> k <> [] ->
  @insert_knots R (NumR eps) u p r k P = Undef BadIndex.
Proof.
  intros Hp HP Hu Hk. destruct k as [|x k]; [congruence|]. unfold kn in Hu; simpl in Hu.
  unfold insert_knots. rewrite subi_ok by (destruct P; [congruence|simpl; lia]).
  cbn [bind upper_bound lower_bound nltb NumR].
  destruct (Rltb_spec u x); [|lra]. destruct (Rltb_spec x u); [lra|].
  cbn [Nat.sub]. replace (p <=? 0)%nat with false by (symmetry; apply Nat.leb_gt; lia).
  reflexivity.
Qed.

Lemma ex_insert : let k := [0;0;0;1;1;2;3;3;3] in
  knots_ok k 6 2 /\ kn k 2 <= 2 < kn k 6 /\ (count_occ Req_EM_T k 2%R < 2)%nat /\
  evaluable (1/1000) k 6 2 /\ evaluable (1/1000) [0;0;0;1;1;2;2;3;3;3] 7 2.
Proof.
  cbv zeta. split.
  { split; [reflexivity|]. split; [lia|]. split.
    - apply adjacent_nondecreasing. simpl. lra.
    - unfold kn; simpl; lra. }
  split; [unfold kn; simpl; lra|]. split.
  { cbn [count_occ].
    repeat match goal with |- context [if Req_EM_T ?a ?b then _ else _] => destruct (Req_EM_T a b); try lra end. lia. }
  split; left; lia.
Qed.
