(** Knot removal is exact when the curve can be written without the knots. *)
From Coq Require Import List Arith ZArith Reals Lia Lra Permutation Bool.
From Verif Require Import Model_Base Spec_Base Spec_Basis Spec_Eval Model_Basis Model_Knots Model_Removal
  Proof_Base Proof_Blossom Proof_Basis Proof_Ders Proof_Eval Proof_PropBasis Proof_Refine Proof_Insert
  Proof_Boehm Proof_PropInsert Proof_Continuity Proof_Trim Proof_Remove Proof_Remove2 Proof_Unique.
Import ListNotations.
Local Open Scope R_scope.

Section Exact.
Variable eps : R.
Hypothesis Heps : 0 <= eps.
Local Hint Extern 0 (Num R) => exact (NumR eps) : typeclass_instances.

Variables (U : list R) (n p r s num : nat) (u : R).
Hypothesis HU : knots_ok U n p.
Hypothesis Hpos : rpos eps U n p u r s.
Hypothesis Hnum : (1 <= num <= s)%nat.
Hypothesis Hsp : (s <= p)%nat.

Let K := firstn (r + 1 - num) U ++ skipn (r + 1) U.

Lemma K_lo x : (x + num <= r)%nat -> kn K x = kn U x.
Proof.
  intros Hx. unfold K. rewrite (U'_kn eps U n p r s num u HU Hpos Hnum Hsp) by (destruct Hpos as (_ & _ & _ & H1 & H2 & _); lia).
  unfold Ut. destruct (Nat.leb_spec x (r - num)); auto; lia.
Qed.
Lemma K_hi x : (r < x + num)%nat -> (x + num < n + p + 1)%nat -> kn K x = kn U (x + num).
Proof.
  intros Hx Hx2. pose proof Hpos as (_ & _ & _ & H1 & _). unfold K. rewrite (U'_kn eps U n p r s num u HU Hpos Hnum Hsp) by lia.
  unfold Ut. destruct (Nat.leb_spec x (r - num)); [lia|]. auto.
Qed.
Lemma K_len : length K = (n - num + p + 1)%nat.
Proof.
  pose proof HU as (L & _). destruct Hpos as (_ & _ & _ & H1 & H2 & _).
  unfold K. rewrite app_length, firstn_length, skipn_length. lia.
Qed.
Lemma K_u x : (r - s < x)%nat -> (x + num <= r)%nat -> kn K x = u.
Proof.
  intros H1 H2. rewrite K_lo by lia. destruct Hpos as (_ & _ & _ & _ & _ & He & _). apply He. lia.
Qed.
Lemma K_ok : knots_ok K (n - num) p.
Proof.
  pose proof HU as (L & Hpn & Hs & Hlast). pose proof Hpos as (_ & _ & _ & H1 & H2 & He & Hlt & Hgt).
  pose proof K_len as LK.
  split; [lia|]. split; [lia|]. split.
  - apply succ_nondecreasing. intros i Hi.
    destruct (Nat.le_gt_cases (S i + num) r).
    + rewrite !K_lo by lia. apply Hs; lia.
    + rewrite (K_hi (S i)) by lia. destruct (Nat.le_gt_cases (i + num) r).
      * rewrite K_lo by lia. apply Hs; lia.
      * rewrite K_hi by lia. apply Hs; lia.
  - rewrite (K_hi (n - num)) by lia. replace (n - num + num)%nat with n by lia.
    destruct (Nat.le_gt_cases (n - num - 1 + num) r).
    + rewrite K_lo by lia. apply Rle_lt_trans with (kn U (n - 1)); auto. apply Hs; lia.
    + rewrite K_hi by lia. replace (n - num - 1 + num)%nat with (n - 1)%nat by lia. auto.
Qed.
Lemma K_dom : kn K p = kn U p /\ kn K (n - num) = kn U n /\ kn K 0 = kn U 0 /\ kn K (n - num + p) = kn U (n + p).
Proof.
  pose proof HU as (L & Hpn & Hs & Hlast). pose proof Hpos as (_ & _ & _ & H1 & H2 & He & Hlt & Hgt).
  split; [apply K_lo; lia|]. split; [rewrite K_hi by lia; f_equal; lia|].
  split; [apply K_lo; lia|]. rewrite K_hi by lia; f_equal; lia.
Qed.

Variables (P Q : list (pt R)).
Hypothesis HP : length P = n.
Hypothesis HQ : length Q = (n - num)%nat.
(** The curve (U, P) is the curve (K, Q). *)
Hypothesis Hsame : forall x c, kn U p <= x <= kn U n ->
  CV U n p 0 (pole P c) x = CV K (n - num) p 0 (pole Q c) x.

(** On a common span the forms agree. *)
Lemma forms_common l l0 a b c : (p <= l < n)%nat -> (p <= l0 < n - num)%nat ->
  kn U l <= a -> a < b -> b <= kn U (S l) -> kn K l0 <= a -> b <= kn K (S l0) ->
  forall args, length args = p -> blo (kn U) l (pole P c) args = blo (kn K) l0 (pole Q c) args.
Proof.
  intros Hl Hl0 A1 A2 A3 A4 A5. pose proof K_ok as HK.
  pose proof (knots_mono U n p HU) as mono.
  assert (kn U p <= kn U l) by (apply mono; lia). assert (kn U (S l) <= kn U n) by (apply mono; lia).
  apply (blo_unique U n K (n - num) p l l0 (pole P c) (pole Q c) a b); auto; try lra.
  intros x Hx. rewrite <- (CV_at U n p 0 (pole P c) x l) by (auto; left; lra).
  rewrite <- (CV_at K (n - num) p 0 (pole Q c) x l0) by (auto; left; lra). apply Hsame. lra.
Qed.

Let fR c := blo (kn K) (r - num) (pole Q c).

Lemma Kright : kn K (r - num) < kn K (S (r - num)) /\ kn K (r - num) <= u /\ kn K (S (r - num)) = kn U (S r).
Proof.
  pose proof Hpos as (_ & _ & _ & H1 & H2 & He & Hlt & Hgt). pose proof HU as (L & Hpn & _).
  rewrite (K_hi (S (r - num))) by lia. replace (S (r - num) + num)%nat with (S r) by lia.
  rewrite K_lo by lia.
  assert (kn U (r - num) <= u).
  { rewrite <- (He r) by lia. apply (knots_mono U n p HU); lia. }
  split; [lra|]. split; [auto|auto].
Qed.
Lemma fR_symml c : symml p (fR c).
Proof.
  pose proof Hpos as (_ & _ & _ & H1 & H2 & _). destruct Kright as (A & _).
  apply (blo_symml K (n - num)); auto; [apply K_ok|lia].
Qed.

Lemma Uright c args : length args = p -> blo (kn U) r (pole P c) args = fR c args.
Proof.
  pose proof Hpos as (_ & _ & _ & H1 & H2 & He & Hlt & Hgt). destruct Kright as (A & B & C).
  intros HL. apply (forms_common r (r - num) u (kn U (S r))); auto; try lia; try lra.
  rewrite He by lia. lra.
Qed.

(** Left of u: the form of the left span of K, on arguments containing s - num copies of u. *)
Lemma Kleft : kn K (r - s) < kn K (S (r - s)) /\ kn K (r - s) = kn U (r - s) /\ u <= kn K (S (r - s)).
Proof.
  pose proof Hpos as (_ & _ & _ & H1 & H2 & He & Hlt & Hgt). pose proof HU as (L & Hpn & _).
  rewrite (K_lo (r - s)) by lia.
  destruct (Nat.eq_dec num s) as [E|E].
  - rewrite (K_hi (S (r - s))) by lia. replace (S (r - s) + num)%nat with (S r) by lia. lra.
  - rewrite K_u by lia. lra.
Qed.

Lemma Uleft c args : length args = p ->
  blo (kn U) (r - s) (pole P c) args = blo (kn K) (r - s) (pole Q c) args.
Proof.
  pose proof Hpos as (_ & _ & _ & H1 & H2 & He & Hlt & Hgt). destruct Kleft as (A & B & C).
  intros HL. apply (forms_common (r - s) (r - s) (kn U (r - s)) u); auto; try lia; try lra.
  rewrite He by lia. lra.
Qed.

Lemma Kagree c rest : length rest = (p - (s - num))%nat ->
  fR c (repeat (u, 1) (s - num) ++ rest) = blo (kn K) (r - s) (pole Q c) (repeat (u, 1) (s - num) ++ rest).
Proof.
  intros HL. pose proof Hpos as (_ & _ & _ & H1 & H2 & He & Hlt & Hgt).
  destruct Kleft as (A & _). destruct Kright as (B & _).
  unfold fR. replace (s - num)%nat with (r - num - (r - s))%nat by lia.
  apply (blo_agree K (n - num) p (r - s) (r - num)); auto; try lia.
  - apply K_ok.
  - intros x Hx. apply K_u; lia.
Qed.

Lemma HPf x c : (r <= x + p + num)%nat -> (x + s <= r + num)%nat ->
  pole P c x = fR c (kargs (kn U) x p).
Proof.
  intros H3 H4. pose proof Hpos as (_ & _ & _ & H1 & H2 & He & Hlt & Hgt). pose proof HU as (L & Hpn & _).
  destruct (Nat.le_gt_cases r (x + p)).
  - rewrite <- Uright by apply kargs_length. symmetry. apply (blo_dual U n); auto; try lia.
    rewrite He by lia. lra.
  - rewrite <- (blo_dual U n p (r - s) (pole P c) x HU); try lia.
    2: { rewrite (He (S (r - s))) by lia. lra. }
    rewrite Uleft by apply kargs_length.
    set (a := (r - s - x)%nat). set (b := (p - a - (s - num))%nat).
    assert (Ep : p = (a + ((s - num) + b))%nat) by (unfold b, a; lia).
    assert (Ek : kargs (kn U) x p = kargs (kn U) x a ++ repeat (u, 1) (s - num) ++ kargs (kn U) (x + a + (s - num)) b).
    { rewrite Ep at 1. rewrite !kargs_app. f_equal. f_equal.
      apply kargs_const. intros y Hy. apply He. unfold a in *. lia. }
    set (rest := kargs (kn U) x a ++ kargs (kn U) (x + a + (s - num)) b).
    assert (EP : Permutation (kargs (kn U) x p) (repeat (u, 1) (s - num) ++ rest)).
    { rewrite Ek. unfold rest. apply Permutation_app_swap_app. }
    assert (Lr : length rest = (p - (s - num))%nat).
    { unfold rest. rewrite app_length, !kargs_length. lia. }
    destruct (fR_symml c) as (F1 & _).
    destruct (blo_symml K (n - num) p (r - s) (pole Q c) K_ok) as (F2 & _); [lia|apply Kleft|].
    rewrite (F1 _ _ (kargs_length _ _ _) EP), (F2 _ _ (kargs_length _ _ _) EP).
    symmetry. apply Kagree; auto.
Qed.

(** Wherever a pole of the result matters, it is the pole of Q. *)
Lemma removed_are_Q P' : length P' = (n - num)%nat -> removed_poles fR K p r s num P P' ->
  forall l0 j c, (p <= l0 < n - num)%nat -> kn K l0 < kn K (S l0) -> (l0 - p <= j <= l0)%nat ->
  pole P' c j = pole Q c j.
Proof.
  intros LP' HR l0 j c Hl0 Hs0 Hj. destruct (HR j c ltac:(unfold pt in *; lia)) as (V1 & V2 & V3).
  pose proof Hpos as (_ & _ & _ & H1 & H2 & He & Hlt & Hgt). pose proof HU as (L & Hpn & Hnd & _).
  pose proof K_ok as HK.
  assert (Hgap : ~ (r - s < l0 /\ l0 + num < r)%nat).
  { intros (G1 & G2). rewrite !K_u in Hs0 by lia. lra. }
  destruct (Nat.le_gt_cases r (j + p + num)) as [Hb|Hb].
  - destruct (Nat.le_gt_cases (j + s) r) as [Hb'|Hb'].
    + rewrite V2 by lia. apply (blo_dual K (n - num)); auto; try lia. apply Kright.
    + rewrite V3 by lia.
      assert (Hl0r : (r <= l0 + num)%nat).
      { destruct (Nat.le_gt_cases r (l0 + num)); auto. exfalso. apply Hgap. lia. }
      assert (EK : kn K l0 = kn U (l0 + num)).
      { destruct (Nat.le_gt_cases (l0 + num) r).
        - rewrite K_u by lia. symmetry. apply He. lia.
        - apply K_hi; lia. }
      assert (EK2 : kn K (S l0) = kn U (S (l0 + num))).
      { rewrite K_hi by lia. f_equal. }
      rewrite <- (blo_dual U n p (l0 + num) (pole P c) (j + num) HU); try lia; [|lra].
      rewrite (forms_common (l0 + num) l0 (kn K l0) (kn K (S l0))) by (try lia; try lra; apply kargs_length).
      replace (kargs (kn U) (j + num) p) with (kargs (kn K) j p).
      * apply (blo_dual K (n - num)); auto; lia.
      * apply kargs_shift. intros y Hy. destruct (Nat.le_gt_cases (j + y + num) r).
        -- rewrite K_u by lia. symmetry. apply He. lia.
        -- rewrite K_hi by lia. f_equal. lia.
  - rewrite V1 by lia.
    assert (Hl0r : (l0 <= r - s)%nat).
    { destruct (Nat.le_gt_cases l0 (r - s)); auto. exfalso. apply Hgap. lia. }
    assert (EK : kargs (kn U) j p = kargs (kn K) j p).
    { apply kargs_shift. intros y Hy. rewrite K_lo by lia. reflexivity. }
    destruct (Nat.eq_dec l0 (r - s)) as [->|Hne].
    + rewrite <- (blo_dual U n p (r - s) (pole P c) j HU); try lia.
      2: { rewrite (He (S (r - s))) by lia. lra. }
      rewrite Uleft by apply kargs_length. rewrite EK. apply (blo_dual K (n - num)); auto; lia.
    + rewrite (K_lo l0), (K_lo (S l0)) in Hs0 by lia.
      rewrite <- (blo_dual U n p l0 (pole P c) j HU); try lia; [|lra].
      rewrite (forms_common l0 l0 (kn U l0) (kn U (S l0))) by
        (try rewrite (K_lo l0) by lia; try rewrite (K_lo (S l0)) by lia; try lia; try lra; apply kargs_length).
      rewrite EK. apply (blo_dual K (n - num)); auto; try lia. rewrite !K_lo by lia. auto.
Qed.

Lemma removed_CV P' : length P' = (n - num)%nat -> removed_poles fR K p r s num P P' ->
  forall x d c, kn U p <= x <= kn U n -> (d <= p)%nat ->
  CV K (n - num) p d (pole P' c) x = CV K (n - num) p d (pole Q c) x.
Proof.
  intros LP' HR x d c Hx Hd. destruct K_dom as (D1 & D2 & _). pose proof K_ok as HK.
  destruct (span_at_ex eps (n - num) p x K HK ltac:(lra)) as (l & Hl & Sx & Hs).
  apply (CV_transfer K (n - num) K (n - num) p l l); auto.
  intros j Hj. rewrite (blo_dual K (n - num)); auto; try lia.
  apply (removed_are_Q P' LP' HR l); auto.
Qed.

Lemma remove_tol_exact dist tol :
  (forall a b : pt R, (forall c, a c = b c) -> dist a b <= tol) ->
  exists P', remove_knot_tol dist u p num U P tol = Ok (Z.of_nat num, K, P') /\ length P' = (n - num)%nat /\
   (forall x d c, kn U p <= x <= kn U n -> (d <= p)%nat ->
     CV K (n - num) p d (pole P' c) x = CV K (n - num) p d (pole Q c) x).
Proof.
  intros Hd.
  destruct (remove_knot_tol_ok eps Heps U n p r s num u fR P HU Hpos Hnum Hsp HP fR_symml HPf dist tol Hd)
    as (P' & E & LP & HR). exists P'. split; [exact E|]. split; [exact LP|]. apply removed_CV; auto.
Qed.

Lemma remove_exact :
  exists P', remove_knot u num U P p = Ok (K, P') /\ length P' = (n - num)%nat /\
   (forall x d c, kn U p <= x <= kn U n -> (d <= p)%nat ->
     CV K (n - num) p d (pole P' c) x = CV K (n - num) p d (pole Q c) x).
Proof.
  destruct (remove_knot_ok eps Heps U n p r s num u fR P HU Hpos Hnum Hsp HP fR_symml HPf)
    as (P' & E & LP & HR). exists P'. split; [exact E|]. split; [exact LP|]. apply removed_CV; auto.
Qed.
End Exact.
