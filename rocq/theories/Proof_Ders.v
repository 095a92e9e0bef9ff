(** ders_basis_funs (A2.3) computes the derivatives of the polynomial pieces. *)
From Coq Require Import List Arith ZArith Reals Lia Lra Bool Permutation.
From Verif Require Import Model_Base Model_Basis Spec_Base Spec_Basis Proof_Base Proof_Blossom Proof_Basis.
Import ListNotations.
Local Open Scope R_scope.

(** p (p-1) ... (p-d+1) *)
Fixpoint ffall (p d : nat) : R :=
  match d with O => 1 | S e => ffall p e * INR (p - e) end.

Lemma idx_inj s a b c d : (b < s)%nat -> (d < s)%nat -> (a * s + b = c * s + d)%nat -> a = c /\ b = d.
Proof.
  intros Hb Hd E. assert (a = c).
  { destruct (Nat.lt_trichotomy a c) as [H|[H|H]]; auto; exfalso.
    - assert (a * s + s <= c * s)%nat by (replace (a * s + s)%nat with (S a * s)%nat by lia;
        apply Nat.mul_le_mono_r; lia). lia.
    - assert (c * s + s <= a * s)%nat by (replace (c * s + s)%nat with (S c * s)%nat by lia;
        apply Nat.mul_le_mono_r; lia). lia. }
  subst; split; lia.
Qed.

(** Coefficients of (2.9)/(2.10) of the NURBS book. *)
Section Coef.
Variable k : nat -> R.
Variables l p i : nat.
Fixpoint aco (kk j : nat) : R :=
  match kk with
  | O => if (j =? 0)%nat then 1 else 0
  | S m => ((if (j <=? m)%nat then aco m j else 0)
            - match j with O => 0 | S j' => aco m j' end)
           / (k (i + j + (p - m))%nat - k (i + j)%nat)
  end.

Lemma aco_NH kk args : (length args + kk = p)%nat ->
  NH k l (repeat (1, 0) kk ++ args) i = sumn (S kk) (fun j => aco kk j * NH k l args (i + j)%nat).
Proof.
  revert args; induction kk as [|m IH]; intros args Hl.
  - cbn [repeat app sumn aco]. rewrite Nat.add_0_r. simpl; ring.
  - assert (E : repeat (1, 0) (S m) ++ args = repeat (1, 0) m ++ (1, 0) :: args).
    { change (repeat (1, 0) (S m)) with ((1, 0) :: repeat (1, 0) m).
      rewrite repeat_cons. rewrite <- app_assoc. reflexivity. }
    rewrite E, IH by (simpl; lia).
    assert (Hq : S (length args) = (p - m)%nat) by lia.
    set (D := fun x => / (k (x + (p - m))%nat - k x)).
    rewrite (sumn_ext _ _ (fun j => aco m j * D (i + j)%nat * NH k l args (i + j)
       - aco m j * D (i + S j)%nat * NH k l args (i + S j))).
    2:{ intros j Hj. cbn [NH]. rewrite Hq.
        replace (i + j + S (p - m))%nat with (i + S j + (p - m))%nat by lia.
        replace (S (i + j)) with (i + S j)%nat by lia. unfold D, Rdiv. ring. }
    rewrite sumn_minus.
    rewrite (sumn_ext (S (S m)) _ (fun j =>
       (if (j <=? m)%nat then aco m j else 0) * D (i + j)%nat * NH k l args (i + j)
       - match j with O => 0 | S j' => aco m j' end * D (i + j)%nat * NH k l args (i + j))).
    2:{ intros j Hj. cbn [aco]. unfold D, Rdiv. ring. }
    rewrite sumn_minus. f_equal.
    + rewrite (sumn_ext (S m) _ (fun j => (if (j <=? m)%nat then aco m j else 0)
         * D (i + j)%nat * NH k l args (i + j))).
      2:{ intros j Hj. destruct (Nat.leb_spec j m); [reflexivity|lia]. }
      remember (S m) as sm. cbn [sumn]. destruct (Nat.leb_spec sm m); [lia|]. ring.
    + rewrite (sumn_shift (S m)). ring.
Qed.
End Coef.

Section AtR.
Variable eps : R.
Notation NR := (NumR eps).
Local Hint Extern 0 (Num R) => exact (NumR eps) : typeclass_instances.

Section Span.
Variable k : list R.
Variables (i p : nat) (u : R).
Hypothesis Hnd : nondecreasing k.
Hypothesis Hip : (p <= i)%nat.
Hypothesis Hlen : (i + p < length k)%nat.
Hypothesis Hspan : kn k i < kn k (S i).
Hypothesis Hs : (p <= stack_max)%nat.

Notation NS := (NS k i u).
Notation svd := (svd k i u).

(** NDU lower and upper triangles. *)
Definition low (j r : nat) : R := kn k (i + (r + 1)) - kn k (i + 1 - (j - r)).

Definition ndu_ok (ndu : list (option R)) (J : nat) : Prop :=
  length ndu = sq_stack /\
  (forall j r, (1 <= j <= J)%nat -> (r < j)%nat -> geti ndu (j * (p + 1) + r) = Ok (low j r)) /\
  (forall j r, (j <= J)%nat -> (r <= j)%nat -> geti ndu (r * (p + 1) + j) = Ok (NS j (i - j + r))).

Lemma idx_lt a b : (a <= p)%nat -> (b <= p)%nat -> (a * (p + 1) + b < sq_stack)%nat.
Proof. intros Ha Hb. unfold sq_stack, stack_max in *. nia. Qed.

Lemma low_pos j r : (1 <= j <= p)%nat -> (r < j)%nat -> 0 < low j r.
Proof.
  intros Hj Hr. unfold low.
  pose proof (gap_pos k i p Hnd Hip Hlen Hspan j r Hj Hr). lra.
Qed.

Lemma ndu_inner_ok lft rgt ndu j : (1 <= j <= p)%nat ->
  arr_ok k i u lft rgt j -> ndu_ok ndu (j - 1) ->
  exists ndu', for_ 0 j (ndu_inner p lft rgt j) (ndu, 0) = Ok (ndu', svd j j) /\
    length ndu' = sq_stack /\
    (forall j' r, (1 <= j' <= j)%nat -> (r < j')%nat -> geti ndu' (j' * (p + 1) + r) = Ok (low j' r)) /\
    (forall j' r, (j' <= j - 1)%nat -> (r <= j')%nat -> geti ndu' (r * (p + 1) + j') = Ok (NS j' (i - j' + r))) /\
    (forall r, (r < j)%nat -> geti ndu' (r * (p + 1) + j) = Ok (NS j (i - j + r))).
Proof.
  intros Hj (HL1 & HL2 & HA) (HN0 & HN1 & HN2).
  set (P := fun (r : nat) (st : list (option R) * R) =>
    length (fst st) = sq_stack /\ snd st = svd j r /\
    (forall j' r', (1 <= j' <= j - 1)%nat -> (r' < j')%nat ->
       geti (fst st) (j' * (p + 1) + r') = Ok (low j' r')) /\
    (forall r', (r' < r)%nat -> geti (fst st) (j * (p + 1) + r') = Ok (low j r')) /\
    (forall j' r', (j' <= j - 1)%nat -> (r' <= j')%nat ->
       geti (fst st) (r' * (p + 1) + j') = Ok (NS j' (i - j' + r'))) /\
    (forall r', (r' < r)%nat -> geti (fst st) (r' * (p + 1) + j) = Ok (NS j (i - j + r')))).
  destruct (for_inv P (ndu_inner p lft rgt j) 0 j (ndu, 0))
    as ([N' sv] & E & (P1 & P2 & P3 & P4 & P5 & P6)).
  - unfold P; cbn [fst snd]. split; [exact HN0|].
    split; [symmetry; apply (svd0 k i p u); auto|].
    split; [intros; apply HN1; lia|]. split; [intros; lia|]. split; [intros; apply HN2; lia|].
    intros; lia.
  - intros r [N1 sv] Hr (P1 & P2 & P3 & P4 & P5 & P6). cbn [fst snd] in P1, P2, P3, P4, P5, P6.
    assert (Hjr : (j * (p + 1) + r < sq_stack)%nat) by (apply idx_lt; lia).
    assert (Hrj : (r * (p + 1) + j < sq_stack)%nat) by (apply idx_lt; lia).
    unfold ndu_inner. rewrite (proj2 (HA (r + 1)%nat ltac:(lia))). cbn [bind].
    rewrite (proj1 (HA (j - r)%nat ltac:(lia))). cbn [bind]. nsimp.
    rewrite seti_ok by lia. cbn [bind].
    rewrite geti_upd_other by (intro X; apply idx_inj in X; lia).
    rewrite (P5 (j - 1)%nat r) by lia. cbn [bind].
    rewrite geti_upd_same by lia. cbn [bind].
    pose proof (gap_pos k i p Hnd Hip Hlen Hspan j r Hj ltac:(lia)) as Hg.
    rewrite divc_ok by lra. cbn [bind].
    rewrite seti_ok by (rewrite upd_length; lia). cbn [bind].
    eexists; split; [reflexivity|].
    destruct (step_value k i p u Hnd Hip Hlen Hspan j r _ Hj ltac:(lia) eq_refl) as (S1 & S2).
    unfold P; cbn [fst snd]. rewrite !upd_length. split; [exact P1|]. split; [exact S2|].
    split; [|split; [|split]].
    + intros j' r' Hj' Hr'.
      rewrite !geti_upd_other by (intro X; apply idx_inj in X; lia). apply P3; lia.
    + intros r' Hr'. rewrite geti_upd_other by (intro X; apply idx_inj in X; lia).
      destruct (Nat.eq_dec r' r) as [->|].
      * rewrite geti_upd_same by lia. f_equal. unfold low. ring.
      * rewrite geti_upd_other by (intro X; apply idx_inj in X; lia). apply P4; lia.
    + intros j' r' Hj' Hr'.
      rewrite !geti_upd_other by (intro X; apply idx_inj in X; lia). apply P5; lia.
    + intros r' Hr'. destruct (Nat.eq_dec r' r) as [->|].
      * rewrite geti_upd_same by (rewrite upd_length; lia). f_equal. rewrite P2. exact S1.
      * rewrite !geti_upd_other by (intro X; apply idx_inj in X; lia). apply P6; lia.
  - cbn [fst snd] in P1, P2, P3, P4, P5, P6. exists N'. nsimp. rewrite E, P2.
    split; [reflexivity|]. split; [exact P1|]. split.
    + intros j' r Hj' Hr. destruct (Nat.eq_dec j' j) as [->|]; [apply P4|apply P3]; lia.
    + split; [exact P5|exact P6].
Qed.

Lemma ndu_table_ok : exists ndu, ndu_table i p u k = Ok ndu /\ ndu_ok ndu p.
Proof.
  unfold ndu_table. rewrite seti_ok by (rewrite uninit_length; unfold sq_stack, stack_max; lia).
  cbn [bind].
  set (N0 := upd (uninit sq_stack) 0 (Some n1)).
  assert (HN0 : length N0 = sq_stack) by (unfold N0; rewrite upd_length, uninit_length; auto).
  set (P := fun (j : nat) (st : list (option R) * list (option R) * list (option R)) =>
    let '(N, lft, rgt) := st in arr_ok k i u lft rgt (j - 1) /\ ndu_ok N (j - 1)).
  destruct (for_inv P (ndu_outer i p u k) 1 p (N0, uninit (stack_max + 1), uninit (stack_max + 1)))
    as ([[N' lft'] rgt'] & E & HP).
  - unfold P. split.
    + unfold arr_ok. rewrite !uninit_length. split; [reflexivity|]. split; [reflexivity|].
      intros m Hm; lia.
    + split; [exact HN0|]. split; [intros; lia|]. intros j r Hj Hr.
      replace j with 0%nat by lia. replace r with 0%nat by lia. simpl (0 * _ + 0)%nat.
      unfold N0. rewrite geti_upd_same by (rewrite uninit_length; unfold sq_stack, stack_max; lia).
      nsimp. unfold Proof_Basis.NS; cbn [repeat NH].
      replace (i - 0 + 0 =? i)%nat with true; [reflexivity|].
      symmetry; apply Nat.eqb_eq; lia.
  - intros j [[N1 lft] rgt] Hj (P2 & P3). unfold ndu_outer.
    rewrite subi_ok by lia. cbn [bind]. rewrite get_kn by lia. cbn [bind].
    destruct P2 as (PL1 & PL2 & PA).
    rewrite seti_ok by lia. cbn [bind]. rewrite get_kn by lia. cbn [bind].
    rewrite seti_ok by lia. cbn [bind]. nsimp.
    destruct j as [|j]; [lia|]. replace (S j - 1)%nat with j in * by lia.
    pose proof (arr_ok_step k i p u Hip Hlen lft rgt j (conj PL1 (conj PL2 PA)) ltac:(lia)) as HA.
    destruct (ndu_inner_ok _ _ N1 (S j) ltac:(lia) HA) as (N2 & E2 & L2 & V1 & V2 & V3).
    { replace (S j - 1)%nat with j by lia. exact P3. }
    rewrite E2. cbn [bind].
    rewrite seti_ok by (rewrite L2; apply idx_lt; lia). cbn [bind].
    eexists; split; [reflexivity|]. unfold P.
    replace (S (S j) - 1)%nat with (S j) by lia. split; [exact HA|].
    split; [rewrite upd_length; exact L2|]. split.
    + intros j' r Hj' Hr. rewrite geti_upd_other by (intro X; apply idx_inj in X; lia). apply V1; lia.
    + intros j' r Hj' Hr. destruct (Nat.eq_dec j' (S j)) as [->|].
      * destruct (Nat.eq_dec r (S j)) as [->|].
        -- rewrite geti_upd_same by (rewrite L2; apply idx_lt; lia).
           f_equal. rewrite (svd_last k i p u) by (auto; lia). f_equal. lia.
        -- rewrite geti_upd_other by (intro X; apply idx_inj in X; lia). apply V3; lia.
      * rewrite geti_upd_other by (intro X; apply idx_inj in X; lia). apply V2; lia.
  - destruct HP as (_ & HP). rewrite E. cbn [bind]. exists N'. split; [reflexivity|].
    replace (1 + p - 1)%nat with p in HP by lia. exact HP.
Qed.

(** ** The coefficient rows *)
Section Row.
Variable ndu : list (option R).
Hypothesis Hndu : ndu_ok ndu p.
Variable r : nat.
Hypothesis Hr : (r <= p)%nat.
Let i0 := (i - p + r)%nat.
Notation ac := (aco (kn k) p i0).

(** index j is used at order kk *)
Definition valid (kk j : nat) : Prop := (j <= kk /\ kk <= r + j /\ r + j <= p)%nat.

Definition row_ok (a : list (option R)) (s kk : nat) : Prop :=
  forall j, valid kk j -> geti a (s * (p + 1) + j) = Ok (ac kk j).

(** term j of the sum at order kk *)
Definition trm (kk j : nat) : R := ac kk j * NS (p - kk) (i0 + j).

Lemma trm_invalid kk j : (kk <= p)%nat -> (j <= kk)%nat -> ~ valid kk j -> trm kk j = 0.
Proof.
  intros Hkk Hj Hv. unfold trm, i0. rewrite NS_out; [ring|]. unfold valid in Hv. lia.
Qed.

Lemma ndu_low kk j : (1 <= kk <= p)%nat -> valid kk j ->
  getz ndu ((Z.of_nat p - Z.of_nat kk + 1) * Z.of_nat (p + 1) + (Z.of_nat r - Z.of_nat kk + Z.of_nat j))%Z
  = Ok (kn k (i0 + j + (p - (kk - 1))) - kn k (i0 + j)) /\
  kn k (i0 + j + (p - (kk - 1))) - kn k (i0 + j) <> 0.
Proof.
  intros Hkk Hv. unfold valid in Hv. destruct Hndu as (_ & HL & _).
  rewrite (getz_nat _ _ ((p - kk + 1) * (p + 1) + (r + j - kk))) by nia.
  rewrite HL by lia.
  pose proof (low_pos (p - kk + 1) (r + j - kk) ltac:(lia) ltac:(lia)) as Hp.
  unfold low in *.
  replace (i + (r + j - kk + 1))%nat with (i0 + j + (p - (kk - 1)))%nat in * by (unfold i0; lia).
  replace (i + 1 - (p - kk + 1 - (r + j - kk)))%nat with (i0 + j)%nat in * by (unfold i0; lia).
  split; [reflexivity|lra].
Qed.

Lemma ndu_up kk j : (1 <= kk <= p)%nat -> valid kk j ->
  getz ndu ((Z.of_nat r - Z.of_nat kk + Z.of_nat j) * Z.of_nat (p + 1) + (Z.of_nat p - Z.of_nat kk))%Z
  = Ok (NS (p - kk) (i0 + j)).
Proof.
  intros Hkk Hv. unfold valid in Hv. destruct Hndu as (_ & _ & HU).
  rewrite (getz_nat _ _ ((r + j - kk) * (p + 1) + (p - kk))) by nia.
  rewrite HU by lia. do 2 f_equal. unfold i0; lia.
Qed.

Lemma ac_S kk j : (1 <= kk)%nat ->
  ac kk j = ((if (j <=? kk - 1)%nat then ac (kk - 1) j else 0)
             - match j with O => 0 | S j' => ac (kk - 1) j' end)
            / (kn k (i0 + j + (p - (kk - 1))) - kn k (i0 + j)).
Proof. intros H. destruct kk; [lia|]. replace (S kk - 1)%nat with kk by lia. reflexivity. Qed.

(** State after the terms j < J of order kk have been handled. *)
Definition mid_ok (a : list (option R)) (d : R) (s1 s2 kk J : nat) : Prop :=
  length a = (2 * (stack_max + 1))%nat /\ row_ok a s1 (kk - 1) /\
  (forall j, (j < J)%nat -> valid kk j -> geti a (s2 * (p + 1) + j) = Ok (ac kk j)) /\
  d = sumn J (trm kk).

Lemma aidx s j : (s <= 1)%nat -> (j <= p)%nat -> (s * (p + 1) + j < 2 * (stack_max + 1))%nat.
Proof. intros H1 H2. unfold stack_max in *. nia. Qed.

Lemma mid_step a d s1 s2 kk j v : (1 <= kk <= p)%nat -> (s1 <= 1)%nat -> s2 = (1 - s1)%nat ->
  mid_ok a d s1 s2 kk j -> valid kk j -> v = ac kk j ->
  mid_ok (upd a (s2 * (p + 1) + j) (Some v)) (d + v * NS (p - kk) (i0 + j)) s1 s2 kk (S j).
Proof.
  intros Hkk Hs1 -> (H1 & H2 & H3 & H4) Hv ->. unfold mid_ok. rewrite upd_length.
  pose proof Hv as (Hv1 & Hv2 & Hv3).
  split; [exact H1|]. split; [|split].
  - intros j' Hj'. pose proof Hj' as (V1 & V2 & V3). rewrite geti_upd_other. { apply H2; exact Hj'. }
    intro X; apply idx_inj in X; lia.
  - intros j' Hj' Hvj. destruct (Nat.eq_dec j' j) as [->|].
    + apply geti_upd_same. rewrite H1; apply aidx; lia.
    + rewrite geti_upd_other by lia. apply H3; [lia|exact Hvj].
  - cbn [sumn]. rewrite H4. reflexivity.
Qed.

Lemma mid_skip a d s1 s2 kk j J : (kk <= p)%nat -> (j <= J)%nat -> (J <= S kk)%nat ->
  mid_ok a d s1 s2 kk j -> (forall x, (j <= x < J)%nat -> ~ valid kk x) ->
  mid_ok a d s1 s2 kk J.
Proof.
  intros Hkk HjJ HJ (H1 & H2 & H3 & H4) Hv. split; [exact H1|]. split; [exact H2|]. split.
  - intros x Hx Hvx. destruct (Nat.lt_ge_cases x j); [apply H3; auto|].
    exfalso; apply (Hv x); [lia|exact Hvx].
  - rewrite H4. replace J with (j + (J - j))%nat by lia. rewrite sumn_app.
    rewrite (sumn_zero (J - j)); [ring|]. intros x Hx. apply trm_invalid; [lia|lia|].
    apply Hv; lia.
Qed.

Lemma ders_order_ok a ders s1 kk : (1 <= kk <= p)%nat -> (s1 <= 1)%nat ->
  length a = (2 * (stack_max + 1))%nat -> row_ok a s1 (kk - 1) -> length ders = sq_stack ->
  exists a', ders_order p r ndu kk (a, ders, s1, (1 - s1)%nat)
     = Ok (a', upd ders (kk * (p + 1) + r) (Some (sumn (S kk) (trm kk))), (1 - s1)%nat, s1) /\
    length a' = (2 * (stack_max + 1))%nat /\ row_ok a' (1 - s1) kk.
Proof.
  intros Hkk Hs1 Ha Hrow Hders. unfold ders_order. set (s2 := (1 - s1)%nat).
  assert (M0 : mid_ok a 0 s1 s2 kk 0).
  { split; [exact Ha|]. split; [exact Hrow|]. split; [intros; lia|]. reflexivity. }
  (* j = 0 *)
  assert (S0 : exists a1 d1,
    (if kk <=? r
     then
      let* x := geti a (s1 * (p + 1) + 0) in
      let* q := getz ndu ((Z.of_nat p - Z.of_nat kk + 1) * Z.of_nat (p + 1) + (Z.of_nat r - Z.of_nat kk))%Z in
      let* v := divc x q in
      let* a0 := seti a (s2 * (p + 1) + 0) v in
      let* w := getz ndu ((Z.of_nat r - Z.of_nat kk) * Z.of_nat (p + 1) + (Z.of_nat p - Z.of_nat kk))%Z in
      Ok (a0, nmul v w)
     else Ok (a, n0))%nat = Ok (a1, d1) /\ mid_ok a1 d1 s1 s2 kk 1).
  { destruct (Nat.leb_spec kk r) as [Hk|Hk].
    - assert (V : valid kk 0) by (unfold valid; lia).
      rewrite (Hrow 0%nat) by (unfold valid; lia). cbn [bind].
      destruct (ndu_low kk 0 Hkk V) as (E1 & N1).
      change (Z.of_nat 0) with 0%Z in E1. rewrite Z.add_0_r in E1. rewrite E1. cbn [bind].
      rewrite divc_ok by exact N1. cbn [bind].
      rewrite seti_ok by (rewrite Ha; apply aidx; unfold s2; lia). cbn [bind].
      pose proof (ndu_up kk 0 Hkk V) as E2.
      change (Z.of_nat 0) with 0%Z in E2. rewrite Z.add_0_r in E2. rewrite E2. cbn [bind].
      eexists _, _; split; [reflexivity|]. nsimp.
      rewrite <- (Rplus_0_l (_ * NS _ _)). apply mid_step; auto.
      rewrite (ac_S kk 0) by lia. cbn [Nat.leb]. f_equal. ring.
    - exists a, 0. split; [reflexivity|]. apply (mid_skip a 0 s1 s2 kk 0); try lia; auto.
      intros x Hx. unfold valid. lia. }
  destruct S0 as (a1 & d1 & E1 & M1).
  replace (Z.of_nat p - Z.of_nat kk + 1)%Z with (Z.of_nat p - Z.of_nat kk + 1)%Z by reflexivity.
  rewrite E1. cbn [bind]. clear E1.
  (* middle *)
  set (j1 := (if (-1 <=? Z.of_nat r - Z.of_nat kk)%Z then 1%Z else (- (Z.of_nat r - Z.of_nat kk))%Z)).
  set (j2 := (if (Z.of_nat r - 1 <=? Z.of_nat p - Z.of_nat kk)%Z then (Z.of_nat kk - 1)%Z
             else (Z.of_nat p - Z.of_nat r)%Z)).
  set (J1 := Nat.max 1 (kk - r)). set (J2 := Nat.min (kk - 1) (p - r)).
  assert (EJ1 : Z.to_nat j1 = J1).
  { unfold j1, J1. destruct (Z.leb_spec (-1) (Z.of_nat r - Z.of_nat kk)); lia. }
  assert (EJ2 : Z.to_nat (j2 - j1 + 1) = (S J2 - J1)%nat).
  { unfold j2, j1, J1, J2. destruct (Z.leb_spec (-1) (Z.of_nat r - Z.of_nat kk));
      destruct (Z.leb_spec (Z.of_nat r - 1) (Z.of_nat p - Z.of_nat kk)); lia. }
  rewrite EJ1, EJ2.
  assert (M2 : mid_ok a1 d1 s1 s2 kk J1).
  { apply (mid_skip a1 d1 s1 s2 kk 1); auto; try (unfold J1; lia).
    intros x Hx. unfold valid. unfold J1 in Hx. lia. }
  destruct (for_inv (fun j st => mid_ok (fst st) (snd st) s1 s2 kk j)
     (ders_mid p ndu s1 s2 (Z.of_nat r - Z.of_nat kk) (Z.of_nat p - Z.of_nat kk)) J1 (S J2 - J1) (a1, d1))
     as ([a2 d2] & E3 & M3).
  { exact M2. }
  { intros j [aa dd] Hj MM. cbn [fst snd] in MM. unfold ders_mid.
    assert (V : valid kk j) by (unfold valid; unfold J1, J2 in Hj; lia).
    pose proof MM as (A1 & A2 & A3 & A4).
    assert (V1 : valid (kk - 1) j) by (unfold valid; unfold J1, J2 in Hj; lia).
    assert (V2 : valid (kk - 1) (j - 1)) by (unfold valid; unfold J1, J2 in Hj; lia).
    rewrite (A2 j V1). cbn [bind]. rewrite subi_ok by (unfold J1 in Hj; lia). cbn [bind].
    rewrite (A2 (j - 1)%nat V2). cbn [bind].
    destruct (ndu_low kk j Hkk V) as (E4 & N4). rewrite E4. cbn [bind].
    rewrite divc_ok by exact N4. cbn [bind].
    rewrite seti_ok by (rewrite A1; apply aidx; unfold s2; unfold J1, J2 in Hj; lia). cbn [bind].
    rewrite (ndu_up kk j Hkk V). cbn [bind].
    eexists; split; [reflexivity|]. cbn [fst snd]. nsimp. apply mid_step; auto.
    rewrite (ac_S kk j) by lia. destruct (Nat.leb_spec j (kk - 1)); [|unfold J2 in Hj; lia].
    destruct j; [unfold J1 in Hj; lia|]. replace (S j - 1)%nat with j by lia. reflexivity. }
  rewrite E3. cbn [bind]. cbn [fst snd] in M3. clear E3.
  (* reach kk *)
  assert (M4 : mid_ok a2 d2 s1 s2 kk kk).
  { destruct (Nat.le_gt_cases J1 (S J2)) as [Hle|Hgt].
    - replace (J1 + (S J2 - J1))%nat with (S J2) in M3 by lia.
      apply (mid_skip a2 d2 s1 s2 kk (S J2)); auto; try (unfold J2; lia).
      intros x Hx. unfold valid; unfold J2 in Hx; lia.
    - replace (J1 + (S J2 - J1))%nat with J1 in M3 by lia.
      apply (mid_skip a2 d2 s1 s2 kk J1); auto; unfold J1, J2 in *; lia. }
  (* j = kk *)
  assert (S5 : exists a3 d3,
    (if (Z.of_nat r <=? Z.of_nat p - Z.of_nat kk)%Z
     then
      let* x := geti a2 (s1 * (p + 1) + (kk - 1)) in
      let* q := getz ndu ((Z.of_nat p - Z.of_nat kk + 1) * Z.of_nat (p + 1) + Z.of_nat r)%Z in
      let* v := divc (nopp x) q in
      let* a0 := seti a2 (s2 * (p + 1) + kk) v in
      let* w := getz ndu (Z.of_nat r * Z.of_nat (p + 1) + (Z.of_nat p - Z.of_nat kk))%Z in
      Ok (a0, nadd d2 (nmul v w))
     else Ok (a2, d2)) = Ok (a3, d3) /\ mid_ok a3 d3 s1 s2 kk (S kk)).
  { destruct (Z.leb_spec (Z.of_nat r) (Z.of_nat p - Z.of_nat kk)) as [Hk|Hk].
    - assert (V : valid kk kk) by (unfold valid; lia). pose proof M4 as (A1 & A2 & A3 & A4).
      rewrite (A2 (kk - 1)%nat) by (unfold valid; lia). cbn [bind].
      destruct (ndu_low kk kk Hkk V) as (E4 & N4).
      replace (Z.of_nat r - Z.of_nat kk + Z.of_nat kk)%Z with (Z.of_nat r) in E4 by lia.
      rewrite E4. cbn [bind]. rewrite divc_ok by exact N4. cbn [bind].
      rewrite seti_ok by (rewrite A1; apply aidx; unfold s2; lia). cbn [bind].
      pose proof (ndu_up kk kk Hkk V) as E5.
      replace (Z.of_nat r - Z.of_nat kk + Z.of_nat kk)%Z with (Z.of_nat r) in E5 by lia.
      rewrite E5. cbn [bind]. eexists _, _; split; [reflexivity|]. nsimp.
      apply mid_step; auto.
      rewrite (ac_S kk kk) by lia. destruct (Nat.leb_spec kk (kk - 1)); [lia|].
      f_equal. destruct kk; [lia|]. replace (S kk - 1)%nat with kk by lia. ring.
    - exists a2, d2. split; [reflexivity|]. apply (mid_skip a2 d2 s1 s2 kk kk); try lia; auto.
      intros x Hx. unfold valid; lia. }
  destruct S5 as (a3 & d3 & E5 & M5). rewrite E5. cbn [bind].
  rewrite seti_ok by (rewrite Hders; apply idx_lt; lia). cbn [bind].
  destruct M5 as (A1 & A2 & A3 & A4). exists a3. rewrite A4. split; [reflexivity|].
  split; [exact A1|]. intros j Hj. apply A3; [destruct Hj; lia|exact Hj].
Qed.

Lemma row_sum kk : (kk <= p)%nat ->
  sumn (S kk) (trm kk) = NH (kn k) i (repeat (1, 0) kk ++ repeat (u, 1) (p - kk)) i0.
Proof.
  intros Hkk. rewrite (aco_NH (kn k) i p i0) by (rewrite repeat_length; lia). reflexivity.
Qed.

Lemma ders_row_ok n a ders : (n <= p)%nat ->
  length a = (2 * (stack_max + 1))%nat -> length ders = sq_stack ->
  exists a' ders', ders_row p n ndu r (a, ders) = Ok (a', ders') /\
    length a' = (2 * (stack_max + 1))%nat /\ length ders' = sq_stack /\
    (forall kk, (1 <= kk <= n)%nat -> geti ders' (kk * (p + 1) + r)
        = Ok (NH (kn k) i (repeat (1, 0) kk ++ repeat (u, 1) (p - kk)) i0)) /\
    (forall kk r', (r' <= p)%nat -> (r' <> r \/ kk = 0%nat) ->
        geti ders' (kk * (p + 1) + r') = geti ders (kk * (p + 1) + r')).
Proof.
  intros Hn Ha Hders. unfold ders_row. rewrite seti_ok by (rewrite Ha; unfold stack_max; lia).
  cbn [bind]. set (a0 := upd a (0 * (p + 1) + 0) (Some n1)).
  set (P := fun (kk : nat) (st : list (option R) * list (option R) * nat * nat) =>
    let '(aa, dd, s1, s2) := st in
    (s1 <= 1)%nat /\ s2 = (1 - s1)%nat /\ length aa = (2 * (stack_max + 1))%nat /\
    row_ok aa s1 (kk - 1) /\ length dd = sq_stack /\
    (forall k', (1 <= k' < kk)%nat -> geti dd (k' * (p + 1) + r)
        = Ok (NH (kn k) i (repeat (1, 0) k' ++ repeat (u, 1) (p - k')) i0)) /\
    (forall k' r', (r' <= p)%nat -> (r' <> r \/ k' = 0%nat) ->
        geti dd (k' * (p + 1) + r') = geti ders (k' * (p + 1) + r'))).
  destruct (for_inv P (ders_order p r ndu) 1 n (a0, ders, 0%nat, 1%nat))
    as ([[[a' d'] s1'] s2'] & E & HP).
  - unfold P. split; [lia|]. split; [reflexivity|]. unfold a0. rewrite upd_length.
    split; [exact Ha|]. split.
    + intros j (V1 & _ & _). replace j with 0%nat by lia.
      rewrite geti_upd_same by (rewrite Ha; unfold stack_max; lia). reflexivity.
    + split; [exact Hders|]. split; [intros; lia|]. intros; reflexivity.
  - intros kk [[[aa dd] s1] s2] Hkk (P1 & P2 & P3 & P4 & P5 & P6 & P7). subst s2.
    destruct (ders_order_ok aa dd s1 kk ltac:(lia) P1 P3 P4 P5) as (a2 & E2 & L2 & R2).
    rewrite E2. eexists; split; [reflexivity|]. unfold P.
    split; [lia|]. split; [lia|]. split; [exact L2|].
    replace (S kk - 1)%nat with kk by lia. split; [exact R2|].
    rewrite upd_length. split; [exact P5|]. split.
    + intros k' Hk'. destruct (Nat.eq_dec k' kk) as [->|].
      * rewrite geti_upd_same by (rewrite P5; apply idx_lt; lia). rewrite row_sum by lia. reflexivity.
      * rewrite geti_upd_other by (intro X; apply idx_inj in X; lia). apply P6; lia.
    + intros k' r' Hr' Hd. rewrite geti_upd_other by (intro X; apply idx_inj in X; lia). apply P7; auto.
  - rewrite E. cbn [bind]. destruct HP as (P1 & P2 & P3 & P4 & P5 & P6 & P7).
    exists a', d'. split; [reflexivity|]. split; [exact P3|]. split; [exact P5|].
    split; [intros; apply P6; lia|exact P7].
Qed.
End Row.

(** Derivative of order kk of the r-th non-zero basis function. *)
Definition NSd (kk r : nat) : R :=
  ffall p kk * NH (kn k) i (repeat (1, 0) kk ++ repeat (u, 1) (p - kk)) (i - p + r).

Lemma ffall_S q e : ffall q (S e) = ffall q e * INR (q - e).
Proof. reflexivity. Qed.

Lemma ders_basis_funs_st_ok n : (n <= p)%nat ->
  exists ders, ders_basis_funs_st i p n u k = Ok ders /\ length ders = sq_stack /\
    forall kk r, (kk <= n)%nat -> (r <= p)%nat -> geti ders (kk * (p + 1) + r) = Ok (NSd kk r).
Proof.
  intros Hn. unfold ders_basis_funs_st. destruct ndu_table_ok as (ndu & E & Hndu).
  rewrite E. cbn [bind]. clear E.
  (* order 0 *)
  destruct (for_inv (fun j ders => length ders = sq_stack /\
       forall r, (r < j)%nat -> geti ders r = Ok (NSd 0 r))
     (fun j ders => let* x := geti ndu (j * (p + 1) + p) in seti ders j x) 0 (p + 1) (uninit sq_stack))
     as (d0 & E0 & L0 & V0).
  { rewrite uninit_length. split; [reflexivity|]. intros; lia. }
  { intros j dd Hj (L & V). destruct Hndu as (_ & _ & HU). rewrite HU by lia. cbn [bind].
    pose proof (idx_lt 0 j ltac:(lia) ltac:(lia)).
    rewrite seti_ok by lia. eexists; split; [reflexivity|]. rewrite upd_length. split; [exact L|].
    intros r Hr. destruct (Nat.eq_dec r j) as [->|].
    - rewrite geti_upd_same by lia. f_equal. unfold NSd. cbn [ffall repeat app].
      rewrite Nat.sub_0_r. unfold Proof_Basis.NS. ring.
    - rewrite geti_upd_other by lia. apply V; lia. }
  rewrite E0. cbn [bind]. clear E0.
  (* rows *)
  set (P := fun (r : nat) (st : list (option R) * list (option R)) =>
    let '(a, dd) := st in
    length a = (2 * (stack_max + 1))%nat /\ length dd = sq_stack /\
    (forall r', (r' <= p)%nat -> geti dd r' = Ok (NSd 0 r')) /\
    (forall kk r', (1 <= kk <= n)%nat -> (r' < r)%nat -> geti dd (kk * (p + 1) + r')
        = Ok (NH (kn k) i (repeat (1, 0) kk ++ repeat (u, 1) (p - kk)) (i - p + r')))).
  destruct (for_inv P (ders_row p n ndu) 0 (p + 1) (uninit (2 * (stack_max + 1)), d0))
     as ([a1 d1] & E1 & (_ & L1 & V10 & V1)).
  { unfold P. rewrite uninit_length. split; [reflexivity|]. split; [exact L0|].
    split; [intros; apply V0; lia|]. intros; lia. }
  { intros r [a dd] Hr (P1 & P2 & P3 & P4).
    destruct (ders_row_ok ndu Hndu r ltac:(lia) n a dd Hn P1 P2) as (a' & d' & E2 & A1 & A2 & A3 & A4).
    rewrite E2. eexists; split; [reflexivity|]. unfold P. split; [exact A1|]. split; [exact A2|]. split.
    - intros r' Hr'. specialize (A4 0%nat r' Hr' (or_intror eq_refl)).
      simpl (0 * _ + _)%nat in A4. rewrite A4. apply P3; lia.
    - intros kk r' Hkk Hr'. destruct (Nat.eq_dec r' r) as [->|].
      + apply A3; lia.
      + rewrite A4 by (auto; lia). apply P4; lia. }
  rewrite E1. cbn [bind]. clear E1 V0.
  (* scaling *)
  set (Q := fun (kk : nat) (st : list (option R) * R) =>
    let '(dd, fac) := st in
    length dd = sq_stack /\ fac = ffall p kk /\
    (forall k' r', (k' < kk)%nat -> (r' <= p)%nat -> geti dd (k' * (p + 1) + r') = Ok (NSd k' r')) /\
    (forall k' r', (kk <= k' <= n)%nat -> (r' <= p)%nat -> geti dd (k' * (p + 1) + r')
        = Ok (NH (kn k) i (repeat (1, 0) k' ++ repeat (u, 1) (p - k')) (i - p + r')))).
  destruct (for_inv Q (ders_scale p) 1 n (d1, @nofnat R NR p)) as ([d2 f2] & E2 & (L2 & _ & V2 & _)).
  { unfold Q. split; [exact L1|]. split.
    - rewrite nofnat_R. cbn [ffall]. rewrite Nat.sub_0_r. ring.
    - split.
      + intros k' r' Hk' Hr'. replace k' with 0%nat by lia. apply V10; exact Hr'.
      + intros k' r' Hk' Hr'. apply V1; lia. }
  { intros kk [dd fac] Hkk (Q1 & Q2 & Q3 & Q4). unfold ders_scale.
    destruct (for_inv (fun j d => length d = sq_stack /\
        (forall k' r', (k' < kk)%nat -> (r' <= p)%nat -> geti d (k' * (p + 1) + r') = Ok (NSd k' r')) /\
        (forall r', (r' < j)%nat -> geti d (kk * (p + 1) + r') = Ok (NSd kk r')) /\
        (forall r', (j <= r' <= p)%nat -> geti d (kk * (p + 1) + r') = geti dd (kk * (p + 1) + r')) /\
        (forall k' r', (kk < k' <= n)%nat -> (r' <= p)%nat ->
           geti d (k' * (p + 1) + r') = geti dd (k' * (p + 1) + r')))
      (ders_scale_cell p kk fac) 0 (p + 1) dd) as (d3 & E3 & L3 & W1 & W2 & W3 & W4).
    - split; [exact Q1|]. split; [exact Q3|]. split; [intros; lia|]. split; reflexivity.
    - intros j d Hj (T1 & T2 & T3 & T4 & T5). unfold ders_scale_cell.
      rewrite T4 by lia. rewrite Q4 by lia. cbn [bind].
      rewrite seti_ok by (rewrite T1; apply idx_lt; lia). eexists; split; [reflexivity|].
      rewrite upd_length. split; [exact T1|]. split; [|split; [|split]].
      + intros k' r' Hk' Hr'. rewrite geti_upd_other by (intro X; apply idx_inj in X; lia). apply T2; lia.
      + intros r' Hr'. destruct (Nat.eq_dec r' j) as [->|].
        * rewrite geti_upd_same by (rewrite T1; apply idx_lt; lia). f_equal. nsimp.
          rewrite Q2. unfold NSd. ring.
        * rewrite geti_upd_other by (intro X; apply idx_inj in X; lia). apply T3; lia.
      + intros r' Hr'. rewrite geti_upd_other by (intro X; apply idx_inj in X; lia). apply T4; lia.
      + intros k' r' Hk' Hr'. rewrite geti_upd_other by (intro X; apply idx_inj in X; lia). apply T5; lia.
    - rewrite E3. cbn [bind]. rewrite subi_ok by lia. cbn [bind]. eexists; split; [reflexivity|].
      unfold Q. split; [exact L3|]. split.
      + nsimp. rewrite nofnat_R, Q2. cbn [ffall]. reflexivity.
      + split.
        * intros k' r' Hk' Hr'. destruct (Nat.eq_dec k' kk) as [->|]; [apply W2|apply W1]; lia.
        * intros k' r' Hk' Hr'. rewrite W4 by lia. apply Q4; lia. }
  rewrite E2. cbn [bind]. exists d2. split; [reflexivity|]. split; [exact L2|].
  intros kk r Hkk Hr. apply V2; lia.
Qed.

Lemma basis_ders_ok d : (d <= p)%nat ->
  basis_ders i p d u k = Ok (map (NSd d) (seq 0 (p + 1))).
Proof.
  intros Hd. unfold basis_ders. destruct (Nat.eqb_spec d 0) as [->|Hne].
  - rewrite (basis_funcs_ok eps k i p u Hnd Hip Hlen Hspan Hs). f_equal. apply map_ext.
    intros r. unfold NSd. cbn [ffall repeat app]. rewrite Nat.sub_0_r.
    unfold Proof_Basis.NS. ring.
  - destruct (ders_basis_funs_st_ok d Hd) as (ders & E & _ & V). rewrite E. cbn [bind].
    apply mapM_ok. intros j Hj; apply in_seq in Hj. apply V; lia.
Qed.
End Span.
End AtR.
