(** Knot removal undoes knot refinement. *)
From Coq Require Import List Arith ZArith Reals Lia Lra Permutation Bool.
From Verif Require Import Model_Base Spec_Base Spec_Basis Spec_Eval Model_Basis Model_Knots Model_Removal
  Proof_Base Proof_Blossom Proof_Basis Proof_Ders Proof_Eval Proof_PropBasis Proof_Refine Proof_Insert
  Proof_Boehm Proof_PropInsert Proof_Continuity Proof_Trim.
Import ListNotations.
Local Open Scope R_scope.

Lemma zget_nat {A} (l : list A) i : zget l (Z.of_nat i) = get l i.
Proof. unfold zget. destruct (Z.ltb_spec (Z.of_nat i) 0); [lia|]. rewrite Nat2Z.id. reflexivity. Qed.
Lemma zset_nat {A} (l : list A) i a : zset l (Z.of_nat i) a = set l i a.
Proof. unfold zset. destruct (Z.ltb_spec (Z.of_nat i) 0); [lia|]. rewrite Nat2Z.id. reflexivity. Qed.
Lemma zget_eq {A} (l : list A) z i : z = Z.of_nat i -> zget l z = get l i.
Proof. intros ->. apply zget_nat. Qed.
Lemma zset_eq {A} (l : list A) z i a : z = Z.of_nat i -> zset l z a = set l i a.
Proof. intros ->. apply zset_nat. Qed.

Lemma pole_upd (P : list (pt R)) i x j c : (i < length P)%nat ->
  pole (upd P i x) c j = if (i =? j)%nat then x c else pole P c j.
Proof.
  intros H. unfold pole. rewrite nth_upd. apply Nat.ltb_lt in H. rewrite H.
  destruct (i =? j)%nat; reflexivity.
Qed.

Lemma get_ex {A} (l : list A) i : (i < length l)%nat -> exists a, get l i = Ok a.
Proof.
  intros H. unfold get. destruct (nth_error l i) eqn:E; eauto. apply nth_error_None in E. lia.
Qed.

Lemma shift_down_ok {A} n : forall lo dst (v : list A), (dst <= lo)%nat -> (lo + n <= length v)%nat ->
  exists v', shift_down n (Z.of_nat lo) (Z.of_nat dst) v = Ok v' /\ length v' = length v /\
    forall x d, nth x v' d = if ((dst <=? x) && (x <? dst + n))%nat then nth (lo + (x - dst))%nat v d else nth x v d.
Proof.
  induction n as [|n IH]; intros lo dst v H1 H2; cbn [shift_down].
  - exists v. split; auto. split; auto. intros x d.
    destruct (Nat.leb_spec dst x), (Nat.ltb_spec x (dst + 0)); simpl; auto; lia.
  - rewrite zget_nat. destruct (get_ex v lo ltac:(lia)) as (a & E). rewrite E.
    cbn [bind]. rewrite zset_nat, set_ok by lia. cbn [bind].
    replace (Z.of_nat lo + 1)%Z with (Z.of_nat (S lo)) by lia.
    replace (Z.of_nat dst + 1)%Z with (Z.of_nat (S dst)) by lia.
    destruct (IH (S lo) (S dst) (upd v dst a)) as (v' & E' & L & G); [lia|rewrite upd_length; lia|].
    exists v'. split; [exact E'|]. split; [rewrite L, upd_length; auto|].
    intros x d. rewrite G.
    assert (Ea : nth lo v d = a) by (apply (get_ok_nth _ _ _ d E)).
    destruct (Nat.leb_spec (S dst) x), (Nat.ltb_spec x (S dst + n)), (Nat.leb_spec dst x),
      (Nat.ltb_spec x (dst + S n)); simpl; try lia; rewrite nth_upd;
      repeat match goal with |- context [(?a =? ?b)%nat] => destruct (Nat.eqb_spec a b) end;
      repeat match goal with |- context [(?a <? ?b)%nat] => destruct (Nat.ltb_spec a b) end; simpl; try lia; auto.
    + f_equal. lia.
    + replace (lo + (x - dst))%nat with lo by lia. auto.
Qed.

Lemma pole_get (P : list (pt R)) i : (i < length P)%nat ->
  exists q, get P i = Ok q /\ forall c, q c = pole P c i.
Proof.
  intros H. exists (nth i P (fun _ => 0)). split; [apply get_pole; auto|reflexivity].
Qed.

Section RemoveCore.
Variable eps : R.
Local Hint Extern 0 (Num R) => exact (NumR eps) : typeclass_instances.

Lemma pdivc_ok (a : pt R) x : x <> 0 -> pdivc a x = Ok (fun c => a c / x).
Proof. intros H. unfold pdivc. cbn [n0 NumR]. rewrite (proj2 (neqb_R_false eps x 0) H). reflexivity. Qed.

Variables (U : list R) (n p r s d num : nat) (u : R) (f : nat -> list (R * R) -> R).
Hypothesis HU : knots_ok U n p.
Hypothesis Hs1 : (1 <= s)%nat.
Hypothesis Hsd : (s + d = p)%nat.
Hypothesis Hrp : (p + s <= r)%nat.
Hypothesis Hrn : (r < n)%nat.
Hypothesis Hnum : (1 <= num <= s)%nat.
Hypothesis Heq : forall x, (r - s < x <= r)%nat -> kn U x = u.
Hypothesis Hlt : kn U (r - s) < u.
Hypothesis Hgt : u < kn U (S r).
Hypothesis Hf : forall c, symml p (f c).

(** The knots after removing t copies. *)
Definition Ut (t m : nat) : R := if (m <=? r - t)%nat then kn U m else kn U (m + t).
Definition OP (c t j : nat) : R := f c (kargs (Ut t) j p).

Lemma below i : (i <= r - s)%nat -> kn U i < u.
Proof.
  intros H. apply Rle_lt_trans with (kn U (r - s)); auto. apply (knots_mono U n p HU); lia.
Qed.
Lemma above i : (r < i)%nat -> (i <= n + p)%nat -> u < kn U i.
Proof.
  intros H1 H2. apply Rlt_le_trans with (kn U (S r)); auto. apply (knots_mono U n p HU); lia.
Qed.

Definition alf (t i : nat) : R := (u - kn U i) / (kn U (i + p + 1 + t) - kn U i).

Lemma OP_step c t i : (t < num)%nat -> (r - p - t <= i <= r - s)%nat ->
  OP c t i = alf t i * OP c (S t) i + (1 - alf t i) * OP c (S t) (i - 1).
Proof.
  intros Ht Hi. unfold OP.
  set (q := (r - t - i - 1)%nat). set (q' := (p - (r - t - i))%nat).
  assert (E0 : kargs (Ut t) i p = kargs (Ut t) i q ++ (u, 1) :: kargs (Ut t) (r - t) q').
  { replace p with (q + (1 + q'))%nat at 1 by lia. rewrite kargs_app. f_equal.
    cbn [Nat.add]. rewrite kargs_S. replace (S (i + q)) with (r - t)%nat by lia. f_equal.
    f_equal. unfold Ut. rewrite Nat.leb_refl. apply Heq; lia. }
  assert (E1 : kargs (Ut (S t)) i p = (kargs (Ut t) i q ++ kargs (Ut t) (r - t) q') ++ [(kn U (i + p + 1 + t), 1)]).
  { replace p with (q + q' + 1)%nat at 1 by lia. rewrite kargs_app. f_equal.
    - rewrite kargs_app. f_equal; apply kargs_shift; intros x Hx; unfold Ut.
      + destruct (Nat.leb_spec (i + x) (r - S t)), (Nat.leb_spec (i + x) (r - t)); try lia. auto.
      + destruct (Nat.leb_spec (i + q + x) (r - S t)), (Nat.leb_spec (r - t + x) (r - t)); try lia.
        f_equal; lia.
    - cbn [kargs seq map]. unfold Ut. destruct (Nat.leb_spec (S (i + (q + q'))) (r - S t)); [lia|].
      do 3 f_equal. lia. }
  assert (E2 : kargs (Ut (S t)) (i - 1) p = (kn U i, 1) :: kargs (Ut t) i q ++ kargs (Ut t) (r - t) q').
  { replace p with (1 + (q + q'))%nat at 1 by lia. rewrite kargs_app. cbn [kargs seq map app].
    f_equal.
    - unfold Ut. replace (S (i - 1)) with i by lia.
      destruct (Nat.leb_spec i (r - S t)); [auto|lia].
    - replace (i - 1 + 1)%nat with i by lia. fold (kargs (Ut (S t)) i (q + q')).
      rewrite kargs_app. f_equal; apply kargs_shift; intros x Hx; unfold Ut.
      + destruct (Nat.leb_spec (i + x) (r - S t)), (Nat.leb_spec (i + x) (r - t)); try lia. auto.
      + destruct (Nat.leb_spec (i + q + x) (r - S t)), (Nat.leb_spec (r - t + x) (r - t)); try lia.
        f_equal; lia. }
  assert (HL : S (length (kargs (Ut t) i q ++ kargs (Ut t) (r - t) q')) = p).
  { rewrite app_length, !kargs_length. lia. }
  destruct (Hf c) as (Hp & _).
  rewrite (Hp (kargs (Ut t) i p) ((u, 1) :: kargs (Ut t) i q ++ kargs (Ut t) (r - t) q')).
  2: apply kargs_length.
  2: { rewrite E0. symmetry. apply Permutation_middle. }
  pose proof (below i ltac:(lia)). pose proof (above (i + p + 1 + t) ltac:(lia) ltac:(lia)).
  rewrite <- (app_nil_l (kargs (Ut t) i q ++ _)) at 1.
  rewrite (symml_affine p (f c) u (kn U i) (kn U (i + p + 1 + t)) [] _ (Hf c)); [|lra|exact HL].
  cbn [app]. rewrite E1, E2. reflexivity.
Qed.

Lemma OP_left c t j : (j + p + S t <= r)%nat -> OP c t j = OP c (S t) j.
Proof.
  intros H. unfold OP. f_equal. apply kargs_shift. intros x Hx. unfold Ut.
  destruct (Nat.leb_spec (j + x) (r - S t)), (Nat.leb_spec (j + x) (r - t)); try lia. auto.
Qed.
Lemma OP_right c t j : (t < num)%nat -> (r - s < j)%nat -> OP c t j = OP c (S t) (j - 1).
Proof.
  intros Ht H. unfold OP. f_equal. apply kargs_shift. intros x Hx. unfold Ut.
  destruct (Nat.leb_spec (j - 1 + x) (r - S t)), (Nat.leb_spec (j + x) (r - t)); try lia.
  - rewrite !Heq by lia. auto.
  - f_equal; lia.
Qed.

Definition cnt (t : nat) : nat := ((d + t + 1) / 2)%nat.
Lemma cnt_prop t : (d + t <= 2 * cnt t <= d + t + 1)%nat.
Proof. unfold cnt. pose proof (Nat.div_mod_eq (d + t + 1) 2). pose proof (Nat.mod_upper_bound (d + t + 1) 2). lia. Qed.

Section Pass.
Variables (t : nat) (P : list (pt R)).
Hypothesis Ht : (t < num)%nat.
Hypothesis HP : length P = n.
Hypothesis HL : forall x c, (r <= x + p + num)%nat -> (2 * (x + p + t) <= 2 * r + (d + t))%nat ->
  pole P c x = OP c t x.
Hypothesis HR : forall x c, (x + s <= r + num)%nat -> (2 * (r + t) <= 2 * (x + s) + (d + t))%nat ->
  pole P c x = OP c t (x - t).
Variables (first last off : nat).
Hypothesis Hfirst : (first + p + t = r)%nat.
Hypothesis Hlast : (last + s = r + t)%nat.
Hypothesis Hoff : (off + 1 = first)%nat.

Definition good (c : nat) (temp : list (pt R)) : Prop :=
  length temp = (2 * p + 1)%nat /\
  (forall x cc, (x <= c)%nat -> pole temp cc x = OP cc (S t) (off + x)) /\
  (forall x cc, (last - off - c < x <= last + 1 - off)%nat -> pole temp cc x = OP cc (S t) (off + x - S t)).

Lemma rm_compute_ok fuel : forall c temp, (cnt t - c <= fuel)%nat -> (c <= cnt t)%nat -> good c temp ->
  exists temp', rm_compute fuel u (Z.of_nat p + 1) (Z.of_nat t) U P
     (Z.of_nat (first + c)) (Z.of_nat (last - c)) (Z.of_nat (1 + c)) (Z.of_nat (last - off - c)) temp
   = Ok (Z.of_nat (first + cnt t), Z.of_nat (last - cnt t), Z.of_nat (1 + cnt t),
         Z.of_nat (last - off - cnt t), temp') /\ good (cnt t) temp'.
Proof.
  pose proof (cnt_prop t) as Hc.
  pose proof HU as (HlU & _).
  induction fuel as [|fuel IH]; intros c temp Hfu Hcc Hg.
  - cbn [rm_compute]. destruct (Z.ltb_spec (Z.of_nat t) (Z.of_nat (last - c) - Z.of_nat (first + c))).
    + exfalso. lia.
    + replace c with (cnt t) in * by lia. exists temp. split; [reflexivity|auto].
  - cbn [rm_compute]. destruct (Z.ltb_spec (Z.of_nat t) (Z.of_nat (last - c) - Z.of_nat (first + c))) as [H|H].
    2: { replace c with (cnt t) in * by (lia). exists temp. split; [reflexivity|auto]. }
    assert (Hci : (2 * c < p - s + t)%nat) by (lia).
    destruct Hg as (LT & G1 & G2).
    assert (Hcl : (c <= last)%nat) by lia.
    remember (first + c)%nat as i eqn:Ei. remember (last - c)%nat as j eqn:Ej.
    assert (Ej' : (j + c = last)%nat) by lia. clear Ej.
    rewrite (zget_eq U (Z.of_nat i) i) by lia. rewrite get_kn by (lia). cbn [bind].
    rewrite (zget_eq U _ (i + p + 1 + t)) by lia. rewrite get_kn by (lia). cbn [bind].
    assert (Hi1 : kn U i < u) by (apply below; lia).
    assert (Hi2 : u < kn U (i + p + 1 + t)) by (apply above; lia).
    cbn [nsub NumR]. rewrite divc_ok by lra. cbn [bind].
    rewrite (zget_eq U _ (j - t)) by (lia).
    rewrite get_kn by (lia). cbn [bind].
    rewrite (zget_eq U _ (j + p + 1)) by lia.
    rewrite get_kn by (lia). cbn [bind].
    assert (Hj1 : kn U (j - t) < u) by (apply below; lia).
    assert (Hj2 : u < kn U (j + p + 1)) by (apply above; lia).
    rewrite divc_ok by lra. cbn [bind].
    rewrite (zget_eq P _ i) by lia.
    destruct (pole_get P i) as (Pi & EPi & VPi); [unfold pt in *; lia|].
    rewrite EPi. cbn [bind].
    rewrite (zget_eq temp _ c) by lia.
    destruct (pole_get temp c) as (Ta & ETa & VTa); [unfold pt in *; lia|]. rewrite ETa. cbn [bind].
    set (ai := (u - kn U i) / (kn U (i + p + 1 + t) - kn U i)).
    set (aj := (u - kn U (j - t)) / (kn U (j + p + 1) - kn U (j - t))).
    assert (Hai : ai <> 0).
    { unfold ai. assert (0 < (u - kn U i) / (kn U (i + p + 1 + t) - kn U i)); [|lra].
      apply Rdiv_lt_0_compat; lra. }
    assert (Haj : 1 - aj <> 0).
    { unfold aj. replace (1 - (u - kn U (j - t)) / (kn U (j + p + 1) - kn U (j - t)))
        with ((kn U (j + p + 1) - u) / (kn U (j + p + 1) - kn U (j - t))) by (field; lra).
      assert (0 < (kn U (j + p + 1) - u) / (kn U (j + p + 1) - kn U (j - t))); [|lra].
      apply Rdiv_lt_0_compat; lra. }
    rewrite (pdivc_ok _ ai Hai). cbn [bind].
    rewrite zset_nat, set_ok by (unfold pt in *; lia). cbn [bind].
    rewrite (zget_eq P _ j) by lia.
    destruct (pole_get P j) as (Pj & EPj & VPj); [unfold pt in *; lia|].
    rewrite EPj. cbn [bind].
    set (temp1 := upd temp (1 + c) _).
    assert (LT1 : length temp1 = (2 * p + 1)%nat) by (unfold temp1; rewrite upd_length; auto).
    remember (last - off - c)%nat as jj eqn:Ejj.
    assert (Ejj' : (jj + off + c = last)%nat) by lia. clear Ejj.
    rewrite (zget_eq temp1 _ (jj + 1)) by lia.
    destruct (pole_get temp1 (jj + 1)) as (Tb & ETb & VTb); [unfold pt in *; lia|].
    rewrite ETb. cbn [bind].
    rewrite (pdivc_ok _ (1 - aj) Haj). cbn [bind].
    rewrite zset_nat, set_ok by (unfold pt in *; lia). cbn [bind].
    replace (Z.of_nat i + 1)%Z with (Z.of_nat (first + S c)) by lia.
    replace (Z.of_nat j - 1)%Z with (Z.of_nat (last - S c)) by (lia).
    replace (Z.of_nat (1 + c) + 1)%Z with (Z.of_nat (1 + S c)) by lia.
    replace (Z.of_nat jj - 1)%Z with (Z.of_nat (last - off - S c)) by lia.
    apply IH; [lia|lia|].
    split; [rewrite upd_length; auto|].
    assert (Hjj : (jj < length temp1)%nat) by lia.
    assert (H1c : (1 + c < length temp)%nat) by (unfold pt in *; lia).
    assert (Hne : jj <> (1 + c)%nat) by lia.
    split.
    + intros x cc Hx. rewrite pole_upd by exact Hjj.
      destruct (Nat.eqb_spec jj x); [lia|].
      unfold temp1. rewrite pole_upd by exact H1c.
      destruct (Nat.eqb_spec (1 + c) x) as [<-|Hx'].
      * unfold psub, pscal. cbn [nsub nmul ndiv n1 NumR].
        rewrite VPi, VTa, HL by (lia). rewrite G1 by lia.
        rewrite (OP_step cc t i Ht) by (lia). fold (alf t i) in *.
        change ai with (alf t i) in *.
        replace (off + (1 + c))%nat with i by (lia).
        replace (off + c)%nat with (i - 1)%nat by (lia).
        field. exact Hai.
      * apply G1. lia.
    + intros x cc Hx. rewrite pole_upd by exact Hjj.
      destruct (Nat.eqb_spec jj x) as [<-|Hx'].
      * unfold psub, pscal. cbn [nsub nmul ndiv n1 NumR].
        rewrite VPj, VTb, HR by (lia).
        unfold temp1. rewrite pole_upd by exact H1c.
        destruct (Nat.eqb_spec (1 + c) (jj + 1)) as [HH|_]; [lia|].
        rewrite G2 by lia.
        rewrite (OP_step cc t (j - t) Ht) by (lia).
        assert (Ea : alf t (j - t) = aj).
        { unfold alf, aj. replace (j - t + p + 1 + t)%nat with (j + p + 1)%nat by (lia). auto. }
        rewrite Ea.
        replace (off + (jj + 1) - S t)%nat with (j - t)%nat by (lia).
        replace (off + jj - S t)%nat with (j - t - 1)%nat by (lia).
        field. exact Haj.
      * unfold temp1. rewrite pole_upd by exact H1c.
        destruct (Nat.eqb_spec (1 + c) x) as [HH|_]; [lia|].
        apply G2. lia.
Qed.

Lemma rm_candidates_ok temp : length temp = (2 * p + 1)%nat ->
  exists temp', rm_candidates u p (Z.of_nat t) (Z.of_nat first) (Z.of_nat last) U P temp
   = Ok (Z.of_nat (first + cnt t), Z.of_nat (last - cnt t), Z.of_nat (1 + cnt t),
         Z.of_nat (last - off - cnt t), temp') /\ good (cnt t) temp'.
Proof.
  intros LT. pose proof (cnt_prop t) as Hc. unfold rm_candidates.
  rewrite (zget_eq P _ off) by (lia).
  destruct (pole_get P off) as (a & Ea & Va); [unfold pt in *; lia|].
  rewrite Ea. cbn [bind].
  rewrite (zset_eq temp 0%Z 0%nat) by lia. rewrite set_ok by (unfold pt in *; lia). cbn [bind].
  rewrite (zget_eq P _ (last + 1)) by lia.
  destruct (pole_get P (last + 1)) as (b & Eb & Vb); [unfold pt in *; lia|].
  rewrite Eb. cbn [bind].
  rewrite (zset_eq _ _ (last + 1 - off)) by (lia).
  rewrite set_ok by (rewrite upd_length; unfold pt in *; lia). cbn [bind].
  replace (Z.of_nat first) with (Z.of_nat (first + 0)) by lia.
  replace (Z.of_nat last) with (Z.of_nat (last - 0)) by lia.
  replace 1%Z with (Z.of_nat (1 + 0)) at 2 by lia.
  replace (Z.of_nat (last - 0) - (Z.of_nat (first + 0) - 1))%Z with (Z.of_nat (last - off - 0)) by (lia).
  apply rm_compute_ok; [lia|lia|].
  split; [rewrite !upd_length; auto|]. split.
  - intros x cc Hx. assert (x = 0)%nat as -> by lia.
    rewrite pole_upd by (rewrite upd_length; unfold pt in *; lia).
    destruct (Nat.eqb_spec (last + 1 - off) 0); [lia|].
    rewrite pole_upd by (unfold pt in *; lia). cbn [Nat.eqb].
    rewrite Va, HL by (lia). rewrite Nat.add_0_r. apply OP_left. lia.
  - intros x cc Hx. assert (x = (last + 1 - off))%nat as -> by lia.
    rewrite pole_upd by (rewrite upd_length; unfold pt in *; lia).
    rewrite Nat.eqb_refl. rewrite Vb, HR by (lia).
    rewrite OP_right by (lia). f_equal. lia.
Qed.

Lemma rm_test_ok dist tol temp : good (cnt t) temp ->
  (forall a b : pt R, (forall c, a c = b c) -> dist a b <= tol) ->
  rm_test dist u p tol (Z.of_nat t) U P (Z.of_nat (first + cnt t), Z.of_nat (last - cnt t), Z.of_nat (1 + cnt t),
         Z.of_nat (last - off - cnt t), temp) = Ok true.
Proof.
  intros (LT & G1 & G2) Hd. pose proof (cnt_prop t) as Hc. pose proof HU as (HlU & _). unfold rm_test.
  destruct (Z.ltb_spec (Z.of_nat (last - cnt t) - Z.of_nat (first + cnt t)) (Z.of_nat t)) as [H|H].
  - rewrite (zget_eq temp _ (cnt t)) by lia.
    destruct (pole_get temp (cnt t)) as (a & Ea & Va); [unfold pt in *; lia|]. rewrite Ea. cbn [bind].
    rewrite (zget_eq temp _ (last - off - cnt t + 1)) by lia.
    destruct (pole_get temp (last - off - cnt t + 1)) as (b & Eb & Vb); [unfold pt in *; lia|].
    rewrite Eb. cbn [bind nleb NumR]. f_equal. apply Rleb_true. apply Hd. intros c.
    rewrite Va, Vb, G1, G2 by (lia). f_equal. lia.
  - remember (first + cnt t)%nat as i eqn:Ei.
    assert (H2 : (2 * cnt t = p - s + t)%nat) by (lia).
    rewrite (zget_eq U (Z.of_nat i) i) by lia. rewrite get_kn by (lia). cbn [bind].
    rewrite (zget_eq U _ (i + p + 1 + t)) by lia. rewrite get_kn by (lia). cbn [bind].
    assert (Hi1 : kn U i < u) by (apply below; lia).
    assert (Hi2 : u < kn U (i + p + 1 + t)) by (apply above; lia).
    cbn [nsub NumR]. rewrite divc_ok by lra. cbn [bind].
    rewrite (zget_eq P _ i) by lia.
    destruct (pole_get P i) as (Pi & EPi & VPi); [unfold pt in *; lia|].
    rewrite EPi. cbn [bind].
    rewrite (zget_eq temp _ (cnt t + t + 2)) by lia.
    destruct (pole_get temp (cnt t + t + 2)) as (a & Ea & Va); [unfold pt in *; lia|]. rewrite Ea. cbn [bind].
    rewrite (zget_eq temp _ (cnt t)) by lia.
    destruct (pole_get temp (cnt t)) as (b & Eb & Vb); [unfold pt in *; lia|]. rewrite Eb. cbn [bind nleb NumR].
    f_equal. apply Rleb_true. apply Hd. intros c. unfold padd, pscal. cbn [nadd nmul nsub n1 NumR].
    rewrite VPi, Va, Vb, HL by (lia).
    rewrite (G1 (cnt t)), (G2 (cnt t + t + 2)%nat) by lia.
    rewrite (OP_step c t i Ht) by (lia). unfold alf.
    f_equal; f_equal; f_equal; lia.
Qed.

Lemma rm_commit_ok temp fuel : good (cnt t) temp -> (cnt t <= fuel)%nat ->
  exists P', rm_commit fuel (Z.of_nat t) (Z.of_nat first - 1) temp (Z.of_nat first) (Z.of_nat last) P = Ok P' /\
  length P' = n /\
  forall x c, pole P' c x =
     if ((first <=? x) && (x <? first + cnt t))%nat then OP c (S t) x
     else if ((last - cnt t <? x) && (x <=? last))%nat then OP c (S t) (x - S t)
     else pole P c x.
Proof.
  intros (LT & G1 & G2) Hfu. pose proof (cnt_prop t) as Hc.
  assert (HH : forall fuel c Q, (c <= cnt t)%nat -> (cnt t - c <= fuel)%nat -> length Q = n ->
    (forall x cc, pole Q cc x =
     if ((first <=? x) && (x <? first + c))%nat then OP cc (S t) x
     else if ((last - c <? x) && (x <=? last))%nat then OP cc (S t) (x - S t)
     else pole P cc x) ->
    exists P', rm_commit fuel (Z.of_nat t) (Z.of_nat first - 1) temp (Z.of_nat (first + c)) (Z.of_nat (last - c)) Q = Ok P' /\
  length P' = n /\
  forall x cc, pole P' cc x =
     if ((first <=? x) && (x <? first + cnt t))%nat then OP cc (S t) x
     else if ((last - cnt t <? x) && (x <=? last))%nat then OP cc (S t) (x - S t)
     else pole P cc x).
  { clear fuel Hfu. induction fuel as [|fuel IH]; intros c Q H1 H2 LQ GQ; cbn [rm_commit].
    - destruct (Z.ltb_spec (Z.of_nat t) (Z.of_nat (last - c) - Z.of_nat (first + c))).
      + exfalso. lia.
      + replace c with (cnt t) in * by lia. exists Q. auto.
    - destruct (Z.ltb_spec (Z.of_nat t) (Z.of_nat (last - c) - Z.of_nat (first + c))) as [H|H].
      2: { replace c with (cnt t) in * by (lia). exists Q. auto. }
      rewrite (zget_eq temp _ (1 + c)) by (lia).
      destruct (pole_get temp (1 + c)) as (a & Ea & Va); [unfold pt in *; lia|].
      rewrite Ea. cbn [bind]. rewrite zset_nat, set_ok by (unfold pt in *; lia). cbn [bind].
      rewrite (zget_eq temp _ (last - off - c)) by (lia).
      destruct (pole_get temp (last - off - c)) as (b & Eb & Vb); [unfold pt in *; lia|].
      rewrite Eb. cbn [bind].
      rewrite zset_nat, set_ok by (rewrite upd_length; unfold pt in *; lia). cbn [bind].
      replace (Z.of_nat (first + c) + 1)%Z with (Z.of_nat (first + S c)) by lia.
      replace (Z.of_nat (last - c) - 1)%Z with (Z.of_nat (last - S c)) by (lia).
      apply IH; [lia|lia|rewrite !upd_length; auto|].
      intros x cc. rewrite pole_upd by (rewrite upd_length; unfold pt in *; lia).
      rewrite pole_upd by (unfold pt in *; lia).
      rewrite GQ.
      destruct (Nat.eqb_spec (last - c) x) as [<-|N1].
      { destruct (Nat.ltb_spec (last - c) (first + S c)); [lia|].
        rewrite Bool.andb_false_r.
        destruct (Nat.ltb_spec (last - S c) (last - c)); [|lia].
        destruct (Nat.leb_spec (last - c) last); [|lia]. cbn [andb].
        rewrite Vb, G2 by (lia). f_equal. lia. }
      destruct (Nat.eqb_spec (first + c) x) as [<-|N2].
      { destruct (Nat.ltb_spec (first + c) (first + S c)); [|lia].
        destruct (Nat.leb_spec first (first + c)); [|lia]. cbn [andb].
        rewrite Va, G1 by (lia). f_equal. lia. }
      destruct (Nat.leb_spec first x), (Nat.ltb_spec x (first + c)), (Nat.ltb_spec x (first + S c)),
        (Nat.ltb_spec (last - c) x), (Nat.ltb_spec (last - S c) x), (Nat.leb_spec x last); cbn [andb]; try lia; auto.
  }
  specialize (HH fuel 0%nat P). rewrite !Nat.add_0_r, !Nat.sub_0_r in HH.
  apply HH; [lia|lia|auto|].
  intros x c. destruct (Nat.leb_spec first x), (Nat.ltb_spec x first), (Nat.ltb_spec last x),
    (Nat.leb_spec x last); cbn [andb]; try lia; auto.
Qed.
End Pass.


Lemma rm_passes_ok test m : forall t P temp, (t + m = num)%nat -> length P = n -> length temp = (2 * p + 1)%nat ->
  (forall x c, (r <= x + p + num)%nat -> (2 * (x + p + t) <= 2 * r + (d + t))%nat -> pole P c x = OP c t x) ->
  (forall x c, (x + s <= r + num)%nat -> (2 * (r + t) <= 2 * (x + s) + (d + t))%nat -> pole P c x = OP c t (x - t)) ->
  (forall t P first last off temp, (t < num)%nat -> length P = n ->
    (forall x c, (r <= x + p + num)%nat -> (2 * (x + p + t) <= 2 * r + (d + t))%nat -> pole P c x = OP c t x) ->
    (forall x c, (x + s <= r + num)%nat -> (2 * (r + t) <= 2 * (x + s) + (d + t))%nat -> pole P c x = OP c t (x - t)) ->
    (first + p + t = r)%nat -> (last + s = r + t)%nat -> (off + 1 = first)%nat ->
    good t last off (cnt t) temp ->
    test (Z.of_nat t) P (Z.of_nat (first + cnt t), Z.of_nat (last - cnt t), Z.of_nat (1 + cnt t),
         Z.of_nat (last - off - cnt t), temp) = Ok true) ->
  exists P', rm_passes m test u p U (Z.of_nat t) (Z.of_nat r - Z.of_nat p - Z.of_nat t)
      (Z.of_nat r - Z.of_nat s + Z.of_nat t) P temp = Ok (Z.of_nat num, P') /\
    length P' = n /\
    (forall x c, (r <= x + p + num)%nat -> (2 * (x + p + num) <= 2 * r + (d + num))%nat -> pole P' c x = OP c num x) /\
    (forall x c, (x + s <= r + num)%nat -> (2 * (r + num) <= 2 * (x + s) + (d + num))%nat -> pole P' c x = OP c num (x - num)) /\
    (forall x c, (x + p + num <= r \/ r + num <= x + s)%nat -> pole P' c x = pole P c x).
Proof.
  induction m as [|m IH]; intros t P temp Htm HP LT HL HR Hte; cbn [rm_passes].
  - assert (t = num) as -> by lia. exists P. repeat (split; [auto|]). auto.
  - assert (Ht : (t < num)%nat) by lia.
    replace (Z.of_nat r - Z.of_nat p - Z.of_nat t)%Z with (Z.of_nat (r - p - t)) by lia.
    replace (Z.of_nat r - Z.of_nat s + Z.of_nat t)%Z with (Z.of_nat (r - s + t)) by lia.
    assert (F1 : (r - p - t + p + t = r)%nat) by lia.
    assert (F2 : (r - s + t + s = r + t)%nat) by lia.
    assert (F3 : (r - p - t - 1 + 1 = r - p - t)%nat) by lia.
    remember (r - p - t)%nat as first eqn:E1. remember (r - s + t)%nat as last eqn:E2.
    remember (first - 1)%nat as off eqn:E3.
    destruct (rm_candidates_ok t P Ht HP HL HR first last off F1 F2 F3 temp LT) as (temp' & EC & Hg).
    rewrite EC. cbn [bind]. rewrite (Hte t P first last off temp' Ht HP HL HR F1 F2 F3 Hg). cbn [bind].
    pose proof (cnt_prop t) as Hc.
    destruct (rm_commit_ok t P Ht HP first last off F1 F2 F3 temp' (2 * p + 3) Hg ltac:(lia)) as (P1 & E4 & L1 & V1).
    rewrite E4. cbn [bind].
    destruct (IH (S t) P1 temp') as (P' & E5 & L5 & V2 & V3 & V4); auto.
    + lia.
    + apply Hg.
    + intros x c Hx1 Hx2. rewrite V1.
      destruct (Nat.leb_spec first x), (Nat.ltb_spec x (first + cnt t)), (Nat.ltb_spec (last - cnt t) x),
        (Nat.leb_spec x last); cbn [andb]; try lia; auto; rewrite HL by lia; apply OP_left; lia.
    + intros x c Hx1 Hx2. rewrite V1.
      destruct (Nat.leb_spec first x), (Nat.ltb_spec x (first + cnt t)), (Nat.ltb_spec (last - cnt t) x),
        (Nat.leb_spec x last); cbn [andb]; try lia; auto; rewrite HR by lia;
        rewrite OP_right by lia; f_equal; lia.
    + exists P'.
      replace (Z.of_nat t + 1)%Z with (Z.of_nat (S t)) by lia.
      replace (Z.of_nat first - 1)%Z with (Z.of_nat r - Z.of_nat p - Z.of_nat (S t))%Z by lia.
      replace (Z.of_nat last + 1)%Z with (Z.of_nat r - Z.of_nat s + Z.of_nat (S t))%Z by lia.
      split; [exact E5|]. split; [auto|]. split; [auto|]. split; [auto|].
      intros x c Hx. rewrite V4 by lia. rewrite V1.
      destruct (Nat.leb_spec first x), (Nat.ltb_spec x (first + cnt t)), (Nat.ltb_spec (last - cnt t) x),
        (Nat.leb_spec x last); cbn [andb]; try lia; auto.
Qed.

End RemoveCore.
