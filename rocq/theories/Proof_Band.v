(** The banded LU: factorisation in place and triangular solves. *)
From Coq Require Import List Arith ZArith Reals Lia Lra Bool.
From Verif Require Import Model_Base Model_Knots Model_Basis Model_Curve Model_Interp
  Spec_Base Spec_Interp Proof_Base Proof_Blossom Proof_Basis Proof_Ders.
Import ListNotations.
Local Open Scope R_scope.

Section AtR.
Variable eps : R.
Local Hint Extern 0 (Num R) => exact (NumR eps) : typeclass_instances.

Section Band.
Variables kl ku : nat.
Let W := (kl + ku + 1)%nat.
Notation bnd := (banded kl ku).
Definition inb (i j : nat) : bool := ((i <=? j + kl) && (j <=? i + ku))%nat.

Lemma inb_spec i j : inb i j = true <-> (i <= j + kl /\ j <= i + ku)%nat.
Proof. unfold inb. rewrite andb_true_iff, !Nat.leb_le. reflexivity. Qed.

Lemma cell_lt n (M : list R) i j : length M = (n * W)%nat -> (i < n)%nat -> inb i j = true ->
  (i * W + (j + kl - i) < length M)%nat.
Proof.
  intros HM Hi Hb. apply inb_spec in Hb. rewrite HM.
  assert (i * W + W <= n * W)%nat.
  { replace (i * W + W)%nat with (S i * W)%nat by lia. apply Nat.mul_le_mono_r; lia. }
  unfold W in *. lia.
Qed.

Lemma bget_ok n (M : list R) i j : length M = (n * W)%nat -> (i < n)%nat -> inb i j = true ->
  bget kl W M i j = Ok (bnd M i j).
Proof.
  intros HM Hi Hb. pose proof (cell_lt n M i j HM Hi Hb) as Hc.
  unfold banded. fold (inb i j). rewrite Hb. apply inb_spec in Hb.
  unfold bget, b_ix, subi. destruct (Nat.leb_spec i (j + kl)); [|lia]. cbn [bind].
  rewrite (get_nth _ _ 0) by exact Hc. reflexivity.
Qed.

Lemma bset_ok n (M : list R) i j v : length M = (n * W)%nat -> (i < n)%nat -> inb i j = true ->
  exists M', bset kl W M i j v = Ok M' /\ length M' = (n * W)%nat /\
    forall a b, bnd M' a b = if ((a =? i) && (b =? j))%nat then v else bnd M a b.
Proof.
  intros HM Hi Hb. pose proof (cell_lt n M i j HM Hi Hb) as Hc.
  pose proof Hb as Hb'. apply inb_spec in Hb.
  unfold bset, b_ix, subi. destruct (Nat.leb_spec i (j + kl)); [|lia]. cbn [bind].
  rewrite set_ok by exact Hc. eexists; split; [reflexivity|].
  split; [rewrite upd_length; exact HM|].
  intros a b. unfold banded. fold (inb a b). fold W.
  destruct (Nat.eqb_spec a i) as [->|Ha]; [destruct (Nat.eqb_spec b j) as [->|Hbj]|]; cbn [andb].
  - rewrite Hb'. rewrite nth_upd, Nat.eqb_refl. apply Nat.ltb_lt in Hc. rewrite Hc. reflexivity.
  - destruct (inb i b) eqn:Eb; [|reflexivity]. apply inb_spec in Eb.
    rewrite nth_upd. replace (i * W + (j + kl - i) =? i * W + (b + kl - i))%nat with false; [reflexivity|].
    symmetry; apply Nat.eqb_neq. lia.
  - destruct (inb a b) eqn:Eb; [|reflexivity]. apply inb_spec in Eb.
    rewrite nth_upd. replace (i * W + (j + kl - i) =? a * W + (b + kl - a))%nat with false; [reflexivity|].
    symmetry; apply Nat.eqb_neq. intros E.
    apply idx_inj in E; [lia| |]; unfold W; lia.
Qed.

Lemma bnd_out (M : list R) i j : inb i j = false -> bnd M i j = 0.
Proof. unfold banded. fold (inb i j). intros ->. reflexivity. Qed.

(** One row of the elimination. *)
Definition rowop (k : nat) (M : list R) (i b : nat) : R :=
  if (b =? k)%nat then bnd M i k / bnd M k k
  else if (k <? b)%nat then bnd M i b - bnd M i k / bnd M k k * bnd M k b
  else bnd M i b.

Lemma elim_row_ok n k i (M : list R) : length M = (n * W)%nat -> (k < i < n)%nat -> (i <= k + kl)%nat ->
  bnd M k k <> 0 ->
  exists o, elim_row n kl ku k (bnd M k k) i (Some M) = Ok o /\
  match o with
  | None => max_growth < Rabs (bnd M i k / bnd M k k)
  | Some M' => Rabs (bnd M i k / bnd M k k) <= max_growth /\ length M' = (n * W)%nat /\
     forall a b, (b < n)%nat -> bnd M' a b = if (a =? i)%nat then rowop k M i b else bnd M a b
  end.
Proof.
  intros HM Hi Hkl Hz. unfold elim_row. fold W.
  assert (Hik : inb i k = true) by (apply inb_spec; lia).
  rewrite (bget_ok n) by (auto; lia). cbn [bind]. rewrite (divc_ok eps) by exact Hz. cbn [bind].
  set (l := bnd M i k / bnd M k k).
  destruct (nltb max_growth (nabs l)) eqn:E.
  { exists None. split; [reflexivity|]. cbn [nltb NumR] in E.
    rewrite nabs_R in E. destruct (Rltb_spec max_growth (Rabs l)); [auto|discriminate]. }
  assert (Hgr : Rabs l <= max_growth).
  { cbn [nltb NumR] in E. rewrite nabs_R in E.
    destruct (Rltb_spec max_growth (Rabs l)); [discriminate|lra]. }
  destruct (bset_ok n M i k l HM ltac:(lia) Hik) as (M1 & E1 & L1 & V1).
  rewrite E1. cbn [bind].
  set (jmax := Nat.min (k + ku) (n - 1)).
  destruct (for_inv (fun j M' => length M' = (n * W)%nat /\
      forall a b, bnd M' a b = if ((a =? i) && (k <? b) && (b <? j))%nat
                               then bnd M i b - l * bnd M k b else bnd M1 a b)
     (elim_cell kl W k i l) (k + 1) (jmax - k) M1) as (M2 & E2 & L2 & V2).
  - split; [exact L1|]. intros a b. destruct (Nat.eqb_spec a i); cbn [andb]; [|reflexivity].
    destruct (Nat.ltb_spec k b), (Nat.ltb_spec b (k + 1)); cbn [andb]; try reflexivity; lia.
  - intros j M' Hj (L' & V'). unfold elim_cell.
    assert (Hij : inb i j = true) by (apply inb_spec; lia).
    assert (Hkj : inb k j = true) by (apply inb_spec; lia).
    rewrite (bget_ok n) by (auto; lia). cbn [bind]. rewrite (bget_ok n) by (auto; lia). cbn [bind].
    destruct (bset_ok n M' i j (nsub (bnd M' i j) (nmul l (bnd M' k j))) L' ltac:(lia) Hij)
      as (M3 & E3 & L3 & V3).
    rewrite E3. eexists; split; [reflexivity|]. split; [exact L3|].
    intros a b. rewrite V3.
    assert (X1 : bnd M' i j = bnd M i j).
    { rewrite V'. destruct (Nat.ltb_spec j j); [lia|]. rewrite andb_false_r. rewrite V1.
      destruct (Nat.eqb_spec j k); [lia|]. rewrite andb_false_r. reflexivity. }
    assert (X2 : bnd M' k j = bnd M k j).
    { rewrite V'. destruct (Nat.eqb_spec k i); [lia|]. cbn [andb]. rewrite V1.
      destruct (Nat.eqb_spec k i); [lia|]. reflexivity. }
    rewrite X1, X2, V'. nsimp.
    destruct (Nat.eqb_spec a i) as [->|]; cbn [andb]; [|reflexivity].
    destruct (Nat.eqb_spec b j) as [->|].
    + destruct (Nat.ltb_spec k j), (Nat.ltb_spec j (S j)); try lia. reflexivity.
    + destruct (Nat.ltb_spec k b), (Nat.ltb_spec b j), (Nat.ltb_spec b (S j)); try lia; reflexivity.
  - rewrite E2. cbn [bind]. exists (Some M2). split; [reflexivity|].
    split; [exact Hgr|]. split; [exact L2|].
    intros a b Hb. rewrite V2. destruct (Nat.eqb_spec a i) as [->|Ha]; cbn [andb].
    2:{ rewrite V1. destruct (Nat.eqb_spec a i); [lia|]. reflexivity. }
    unfold rowop. fold l. destruct (Nat.eqb_spec b k) as [->|Hbk].
    { destruct (Nat.ltb_spec k k); [lia|]. cbn [andb]. rewrite V1, !Nat.eqb_refl. reflexivity. }
    assert (X : bnd M1 i b = bnd M i b).
    { rewrite V1. destruct (Nat.eqb_spec b k); [lia|]. rewrite andb_false_r. reflexivity. }
    destruct (Nat.ltb_spec k b); cbn [andb]; [|exact X].
    destruct (Nat.ltb_spec b (k + 1 + (jmax - k))); [reflexivity|].
    rewrite X. rewrite (bnd_out M k b); [ring|].
    destruct (inb k b) eqn:Eb; [|reflexivity]. apply inb_spec in Eb. exfalso. lia.
Qed.

(** One column. *)
Definition colop (k : nat) (M : list R) (i b : nat) : R :=
  if (k <? i)%nat then rowop k M i b else bnd M i b.

Lemma elim_none n k (akk : R) lo m : for_ lo m (elim_row n kl ku k akk) None = Ok None.
Proof. revert lo; induction m as [|m IH]; intros lo; [reflexivity|]. cbn [for_]. cbn [elim_row bind]. apply IH. Qed.

Lemma elim_col_ok n k tol (M : list R) : length M = (n * W)%nat -> (k < n)%nat -> 0 <= tol ->
  exists o, elim_col n kl ku tol k (Some M) = Ok o /\
  match o with
  | None => Rabs (bnd M k k) <= tol \/
            exists i, (k < i < n)%nat /\ max_growth < Rabs (bnd M i k / bnd M k k)
  | Some M' => tol < Rabs (bnd M k k) /\ length M' = (n * W)%nat /\
     (forall i, (k < i < n)%nat -> Rabs (bnd M i k / bnd M k k) <= max_growth) /\
     forall a b, (a < n)%nat -> (b < n)%nat -> bnd M' a b = colop k M a b
  end.
Proof.
  intros HM Hk Ht. unfold elim_col. fold W.
  assert (Hkk : inb k k = true) by (apply inb_spec; lia).
  rewrite (bget_ok n) by (auto; lia). cbn [bind]. rewrite nabs_R. cbn [nleb NumR].
  destruct (Rleb_spec (Rabs (bnd M k k)) tol) as [Hp|Hp].
  { exists None. split; [reflexivity|]. left; exact Hp. }
  assert (Hz : bnd M k k <> 0). { intros E. rewrite E, Rabs_R0 in Hp. lra. }
  set (imax := Nat.min (k + kl) (n - 1)).
  (* generalised over the remaining rows *)
  assert (G : forall m lo M1, (k < lo)%nat -> (lo + m = imax + 1)%nat -> length M1 = (n * W)%nat ->
      (forall i, (k < i < lo)%nat -> Rabs (bnd M i k / bnd M k k) <= max_growth) ->
      (forall a b, (b < n)%nat -> bnd M1 a b =
          if ((k <? a) && (a <? lo))%nat then rowop k M a b else bnd M a b) ->
      exists o, for_ lo m (elim_row n kl ku k (bnd M k k)) (Some M1) = Ok o /\
      match o with
      | None => exists i, (k < i < n)%nat /\ max_growth < Rabs (bnd M i k / bnd M k k)
      | Some M' => length M' = (n * W)%nat /\
         (forall i, (k < i <= imax)%nat -> Rabs (bnd M i k / bnd M k k) <= max_growth) /\
         forall a b, (b < n)%nat -> bnd M' a b =
          if ((k <? a) && (a <? imax + 1))%nat then rowop k M a b else bnd M a b
      end).
  { induction m as [|m IH]; intros lo M1 Hlo Hm L1 G1 V1.
    - exists (Some M1). split; [reflexivity|]. replace lo with (imax + 1)%nat in * by lia.
      split; [exact L1|]. split; [intros; apply G1; lia|]. exact V1.
    - cbn [for_].
      assert (Hrow : forall b, (b < n)%nat -> bnd M1 k b = bnd M k b).
      { intros b Hb. rewrite V1 by exact Hb. destruct (Nat.ltb_spec k k); [lia|]. reflexivity. }
      assert (Hrow' : forall b, (b < n)%nat -> bnd M1 lo b = bnd M lo b).
      { intros b Hb. rewrite V1 by exact Hb. destruct (Nat.ltb_spec lo lo); [lia|].
        rewrite andb_false_r. reflexivity. }
      destruct (elim_row_ok n k lo M1 L1 ltac:(lia) ltac:(lia)) as (o & E & Ho).
      { rewrite Hrow by lia. exact Hz. }
      rewrite (Hrow k) in E by lia. rewrite E. cbn [bind].
      rewrite (Hrow k), (Hrow' k) in Ho by lia.
      destruct o as [M2|].
      + destruct Ho as (Hg & L2 & V2).
        apply IH; [lia|lia|exact L2| |].
        * intros i Hi. destruct (Nat.eq_dec i lo) as [->|]; [exact Hg|]. apply G1; lia.
        * intros a b Hb. rewrite V2 by exact Hb. destruct (Nat.eqb_spec a lo) as [->|Ha].
          -- destruct (Nat.ltb_spec k lo), (Nat.ltb_spec lo (S lo)); try lia. cbn [andb].
             unfold rowop. rewrite !(Hrow' _), !(Hrow _) by lia. reflexivity.
          -- rewrite V1 by exact Hb.
             destruct (Nat.ltb_spec k a), (Nat.ltb_spec a lo), (Nat.ltb_spec a (S lo)); try lia; reflexivity.
      + rewrite elim_none. exists None. split; [reflexivity|]. exists lo. split; [lia|exact Ho]. }
  destruct (Nat.le_gt_cases (imax + 1) (k + 1)) as [Hge|Hlt].
  - replace (imax - k)%nat with 0%nat by lia. cbn [for_]. exists (Some M). split; [reflexivity|].
    assert (Hzero : forall i, (k < i < n)%nat -> bnd M i k = 0).
    { intros i Hi. apply bnd_out. destruct (inb i k) eqn:E; [|reflexivity]. apply inb_spec in E. lia. }
    assert (Hmg : 0 <= max_growth). { unfold max_growth. rewrite !nofnat_R. cbn [nmul NumR].
      apply Rmult_le_pos; apply pos_INR. }
    split; [exact Hp|]. split; [exact HM|]. split.
    + intros i Hi. rewrite Hzero by exact Hi. unfold Rdiv. rewrite Rmult_0_l, Rabs_R0. exact Hmg.
    + intros a b Ha Hb. unfold colop. destruct (Nat.ltb_spec k a); [|reflexivity].
      unfold rowop. rewrite (Hzero a) by lia. unfold Rdiv. rewrite !Rmult_0_l.
      destruct (Nat.eqb_spec b k) as [->|]; [rewrite Hzero by lia; reflexivity|].
      destruct (Nat.ltb_spec k b); lra.
  - destruct (G (imax - k)%nat (k + 1)%nat M) as (o & E & Ho); [lia|lia|exact HM|intros; lia| |].
    { intros a b Hb. destruct (Nat.ltb_spec k a), (Nat.ltb_spec a (k + 1)); try lia; reflexivity. }
    exists o. split; [exact E|]. destruct o as [M'|]; [|right; exact Ho].
    destruct Ho as (L' & G' & V').
    assert (Hout : forall i, (imax < i < n)%nat -> bnd M i k = 0).
    { intros i Hi. apply bnd_out. destruct (inb i k) eqn:Ei; [|reflexivity]. apply inb_spec in Ei. lia. }
    assert (Hmg : 0 <= max_growth). { unfold max_growth. rewrite !nofnat_R. cbn [nmul NumR].
      apply Rmult_le_pos; apply pos_INR. }
    split; [exact Hp|]. split; [exact L'|]. split.
    + intros i Hi. destruct (Nat.le_gt_cases i imax); [apply G'; lia|].
      rewrite Hout by lia. unfold Rdiv. rewrite Rmult_0_l, Rabs_R0. exact Hmg.
    + intros a b Ha Hb. rewrite V' by exact Hb. unfold colop.
      destruct (Nat.ltb_spec k a); cbn [andb]; [|reflexivity].
      destruct (Nat.ltb_spec a (imax + 1)); [reflexivity|].
      unfold rowop. rewrite (Hout a) by lia. unfold Rdiv. rewrite !Rmult_0_l.
      destruct (Nat.eqb_spec b k) as [->|]; [rewrite Hout by lia; reflexivity|].
      destruct (Nat.ltb_spec k b); lra.
Qed.

(** The two factors read off the storage. *)
Definition Lf (M : list R) (i m : nat) : R :=
  if (i =? m)%nat then 1 else if (m <? i)%nat then bnd M i m else 0.
Definition Uf (M : list R) (m j : nat) : R := if (m <=? j)%nat then bnd M m j else 0.

Definition lu_inv (n : nat) (A : nat -> nat -> R) (tol : R) (k : nat) (M : list R) : Prop :=
  length M = (n * W)%nat /\
  (forall m, (m < k)%nat -> tol < Rabs (bnd M m m)) /\
  (forall i m, (m < k)%nat -> (m < i < n)%nat -> Rabs (bnd M i m) <= max_growth) /\
  forall i j, (i < n)%nat -> (j < n)%nat ->
    A i j = sumn k (fun m => Lf M i m * Uf M m j) +
            (if ((k <=? i) && (k <=? j))%nat then bnd M i j else 0).

Lemma lu_step n A tol k M M' : 0 <= tol -> (k < n)%nat -> lu_inv n A tol k M ->
  tol < Rabs (bnd M k k) -> length M' = (n * W)%nat ->
  (forall i, (k < i < n)%nat -> Rabs (bnd M i k / bnd M k k) <= max_growth) ->
  (forall a b, (a < n)%nat -> (b < n)%nat -> bnd M' a b = colop k M a b) ->
  lu_inv n A tol (S k) M'.
Proof.
  intros Ht Hk (HL & HP & HG & HA) Hp L' G' V'.
  assert (Hz : bnd M k k <> 0). { intros E. rewrite E, Rabs_R0 in Hp. lra. }
  assert (Hlow : forall a b, (a < n)%nat -> (b < k)%nat -> bnd M' a b = bnd M a b).
  { intros a b Ha Hb. rewrite V' by lia. unfold colop, rowop.
    destruct (Nat.ltb_spec k a); [|reflexivity].
    destruct (Nat.eqb_spec b k); [lia|]. destruct (Nat.ltb_spec k b); [lia|reflexivity]. }
  assert (Htop : forall a b, (a <= k)%nat -> (b < n)%nat -> bnd M' a b = bnd M a b).
  { intros a b Ha Hb. rewrite V' by lia. unfold colop. destruct (Nat.ltb_spec k a); [lia|reflexivity]. }
  split; [exact L'|]. split; [|split].
  - intros m Hm. rewrite Htop by lia. destruct (Nat.eq_dec m k) as [->|]; [exact Hp|]. apply HP; lia.
  - intros i m Hm Hi. destruct (Nat.eq_dec m k) as [->|].
    + rewrite V' by lia. unfold colop, rowop. destruct (Nat.ltb_spec k i); [|lia].
      rewrite Nat.eqb_refl. apply G'; lia.
    + rewrite Hlow by lia. apply HG; lia.
  - intros i j Hi Hj. rewrite (HA i j Hi Hj). cbn [sumn].
    assert (E : sumn k (fun m => Lf M i m * Uf M m j) = sumn k (fun m => Lf M' i m * Uf M' m j)).
    { apply sumn_ext. intros m Hm. unfold Lf, Uf. rewrite (Hlow i m) by lia.
      rewrite (Htop m j) by lia. reflexivity. }
    rewrite E. rewrite Rplus_assoc. f_equal.
    unfold Lf at 1, Uf at 1.
    destruct (Nat.leb_spec k i) as [Hki|Hki].
    2:{ cbn [andb]. destruct (Nat.eqb_spec i k); [lia|]. destruct (Nat.ltb_spec k i); [lia|].
        destruct (Nat.leb_spec (S k) i); [lia|]. cbn [andb]. ring. }
    destruct (Nat.leb_spec k j) as [Hkj|Hkj].
    2:{ cbn [andb]. destruct (Nat.leb_spec (S k) j); [lia|]. rewrite andb_false_r. ring. }
    cbn [andb].
    destruct (Nat.eqb_spec i k) as [->|Hne].
    + destruct (Nat.leb_spec (S k) k); [lia|]. cbn [andb]. rewrite Htop by lia. ring.
    + destruct (Nat.ltb_spec k i); [|lia]. rewrite (Htop k j) by lia.
      destruct (Nat.leb_spec (S k) i); [|lia]. cbn [andb].
      rewrite (V' i k) by lia. unfold colop at 1, rowop at 1. destruct (Nat.ltb_spec k i); [|lia].
      rewrite Nat.eqb_refl. destruct (Nat.leb_spec (S k) j).
      * rewrite (V' i j) by lia. unfold colop, rowop. destruct (Nat.ltb_spec k i); [|lia].
        destruct (Nat.eqb_spec j k); [lia|]. destruct (Nat.ltb_spec k j); [|lia]. ring.
      * replace j with k by lia. field. exact Hz.
Qed.

Lemma col_none n (tol : R) lo m : for_ lo m (elim_col n kl ku tol) None = Ok None.
Proof. revert lo; induction m as [|m IH]; intros lo; [reflexivity|]. cbn [for_]. cbn [elim_col bind]. apply IH. Qed.

(** Failure is reported for one of two reasons only, at the first column where it
    occurs: [M] is the storage after [k] columns. *)
Definition lu_stop (n : nat) (A : nat -> nat -> R) (tol : R) : Prop :=
  exists k M, (k < n)%nat /\ lu_inv n A tol k M /\
    (Rabs (bnd M k k) <= tol \/
     exists i, (k < i < n)%nat /\ max_growth < Rabs (bnd M i k / bnd M k k)).

Lemma factor_ok n tol M : length M = (n * W)%nat -> 0 <= tol ->
  exists o, for_ 0 n (elim_col n kl ku tol) (Some M) = Ok o /\
  match o with
  | None => lu_stop n (bnd M) tol
  | Some M' => lu_inv n (bnd M) tol n M'
  end.
Proof.
  intros HM Ht.
  assert (G : forall m lo M1, (lo + m = n)%nat -> lu_inv n (bnd M) tol lo M1 ->
    exists o, for_ lo m (elim_col n kl ku tol) (Some M1) = Ok o /\
    match o with None => lu_stop n (bnd M) tol | Some M' => lu_inv n (bnd M) tol n M' end).
  { induction m as [|m IH]; intros lo M1 Hm HI.
    - exists (Some M1). split; [reflexivity|]. assert (E : lo = n) by lia. rewrite E in HI. exact HI.
    - cbn [for_]. destruct (elim_col_ok n lo tol M1 (proj1 HI) ltac:(lia) Ht) as (o & E & Ho).
      rewrite E. cbn [bind]. destruct o as [M2|].
      + destruct Ho as (Hp & L2 & G2 & V2). apply IH; [lia|].
        apply (lu_step n (bnd M) tol lo M1 M2); auto; lia.
      + rewrite col_none. exists None. split; [reflexivity|]. exists lo, M1. split; [lia|]. auto. }
  apply G; [lia|]. split; [exact HM|]. split; [intros; lia|]. split; [intros; lia|].
  intros i j Hi Hj. cbn [sumn]. cbn [Nat.leb andb]. ring.
Qed.

(** ** Triangular solves *)
Section Solve.
Variables (n : nat) (M : list R).
Hypothesis HM : length M = (n * W)%nat.
Hypothesis Hd : forall i, (i < n)%nat -> bnd M i i <> 0.
Let B := mkband n kl ku M.

Lemma forward_ok b : length b = n ->
  exists x y, for_ 0 n (solve_forward B b) (uninit n) = Ok x /\ length x = n /\
    (forall i, (i < n)%nat -> geti x i = Ok (y i)) /\
    forall i, (i < n)%nat -> sumn (S i) (fun m => Lf M i m * y m) = nth i b 0.
Proof.
  intros Hb.
  destruct (for_inv (fun i x => length x = n /\ exists y,
      (forall m, (m < i)%nat -> geti x m = Ok (y m)) /\
      forall m, (m < i)%nat -> sumn (S m) (fun t => Lf M m t * y t) = nth m b 0)
     (solve_forward B b) 0 n (uninit n)) as (x & E & Lx & y & Hx & Hy).
  - split; [apply repeat_length|]. exists (fun _ => 0). split; intros; lia.
  - intros i x Hi (Lx & y & Hx & Hy). unfold solve_forward, B. cbn [b_kl b_n b_M]. unfold b_W. cbn [b_kl b_ku].
    rewrite (get_nth _ _ 0) by lia. cbn [bind]. fold W.
    set (kmin := (i - kl)%nat).
    destruct (for_inv (fun k s => s = nth i b 0 - sumn (k - kmin) (fun r => bnd M i (kmin + r) * y (kmin + r)%nat))
       (fun k s => let* a := bget kl W M i k in let* xk := geti x k in Ok (nsub s (nmul a xk)))
       kmin (i - kmin) (nth i b 0)) as (s & E & Hs).
    + rewrite Nat.sub_diag. cbn [sumn]. lra.
    + intros k s Hk Hs. rewrite (bget_ok n) by (auto; try lia; apply inb_spec; lia). cbn [bind].
      rewrite Hx by lia. cbn [bind]. eexists; split; [reflexivity|]. nsimp. rewrite Hs.
      replace (S k - kmin)%nat with (S (k - kmin)) by lia. cbn [sumn].
      replace (kmin + (k - kmin))%nat with k by lia. ring.
    + rewrite E. cbn [bind]. rewrite seti_ok by lia. eexists; split; [reflexivity|].
      split; [rewrite upd_length; exact Lx|].
      replace (kmin + (i - kmin) - kmin)%nat with (i - kmin)%nat in Hs by lia.
      exists (fun m => if (m =? i)%nat then s else y m). split.
      * intros m Hm. destruct (Nat.eqb_spec m i) as [->|Hne].
        -- apply geti_upd_same; lia.
        -- rewrite geti_upd_other by lia. apply Hx; lia.
      * assert (Hold : forall m, (m < i)%nat -> sumn (S m) (fun t => Lf M m t * (if (t =? i)%nat then s else y t)) = nth m b 0).
        { intros m Hm. rewrite <- (Hy m Hm). apply sumn_ext. intros t Ht.
          destruct (Nat.eqb_spec t i); [lia|reflexivity]. }
        intros m Hm. destruct (Nat.eq_dec m i) as [->|]; [|apply Hold; lia].
        cbn [sumn]. rewrite Nat.eqb_refl. unfold Lf at 2. rewrite Nat.eqb_refl. rewrite Hs.
        rewrite (sumn_ext i _ (fun t => bnd M i t * y t)).
        2:{ intros t Ht. unfold Lf. destruct (Nat.eqb_spec i t); [lia|]. destruct (Nat.ltb_spec t i); [|lia].
            destruct (Nat.eqb_spec t i); [lia|]. reflexivity. }
        rewrite (sumn_window i kmin (i - kmin) (fun t => bnd M i t * y t)); [ring|lia|].
        intros t Ht Hor. rewrite bnd_out; [ring|]. destruct (inb i t) eqn:Ei; [|reflexivity].
        apply inb_spec in Ei. unfold kmin in *. lia.
  - exists x, y. auto.
Qed.

Lemma back_ok x y : length x = n -> (forall i, (i < n)%nat -> geti x i = Ok (y i)) ->
  exists x' z, for_ 0 n (solve_back B) x = Ok x' /\ length x' = n /\
    (forall i, (i < n)%nat -> geti x' i = Ok (z i)) /\
    forall i, (i < n)%nat -> sumn n (fun j => Uf M i j * z j) = y i.
Proof.
  intros Lx Hx.
  destruct (for_inv (fun r x' => length x' = n /\ exists z,
      (forall m, (m < n - r)%nat -> geti x' m = Ok (y m)) /\
      (forall m, (n - r <= m < n)%nat -> geti x' m = Ok (z m)) /\
      forall m, (n - r <= m < n)%nat -> sumn n (fun j => Uf M m j * z j) = y m)
     (solve_back B) 0 n x) as (x' & E & Lx' & z & H1 & H2 & H3).
  - split; [exact Lx|]. exists (fun _ => 0). split; [intros; apply Hx; lia|]. split; intros; lia.
  - intros r x1 Hr (L1 & z & H1 & H2 & H3). unfold solve_back, B. cbn [b_kl b_n b_M b_ku]. unfold b_W. cbn [b_kl b_ku].
    fold W. set (i := (n - 1 - r)%nat). rewrite H1 by lia. cbn [bind].
    set (jmax := Nat.min (i + ku) (n - 1)).
    destruct (for_inv (fun j s => s = y i - sumn (j - (i + 1)) (fun t => bnd M i (i + 1 + t) * z (i + 1 + t)%nat))
       (fun j s => let* a := bget kl W M i j in let* xj := geti x1 j in Ok (nsub s (nmul a xj)))
       (i + 1) (jmax - i) (y i)) as (s & E & Hs).
    + rewrite Nat.sub_diag. cbn [sumn]. lra.
    + intros j s Hj Hs. rewrite (bget_ok n) by (auto; try lia; apply inb_spec; lia). cbn [bind].
      rewrite H2 by lia. cbn [bind]. eexists; split; [reflexivity|]. nsimp. rewrite Hs.
      replace (S j - (i + 1))%nat with (S (j - (i + 1))) by lia. cbn [sumn].
      replace (i + 1 + (j - (i + 1)))%nat with j by lia. ring.
    + rewrite E. cbn [bind]. rewrite (bget_ok n) by (auto; try lia; apply inb_spec; lia). cbn [bind].
      rewrite (divc_ok eps) by (apply Hd; lia). cbn [bind].
      rewrite seti_ok by lia. eexists; split; [reflexivity|]. split; [rewrite upd_length; exact L1|].
      replace (i + 1 + (jmax - i) - (i + 1))%nat with (jmax - i)%nat in Hs by lia.
      exists (fun m => if (m =? i)%nat then s / bnd M i i else z m). split; [|split].
      * intros m Hm. rewrite geti_upd_other by lia. apply H1; lia.
      * intros m Hm. destruct (Nat.eqb_spec m i) as [->|Hne].
        -- apply geti_upd_same; lia.
        -- rewrite geti_upd_other by lia. apply H2; lia.
      * assert (Hold : forall m, (i < m < n)%nat ->
           sumn n (fun j => Uf M m j * (if (j =? i)%nat then s / bnd M i i else z j)) = y m).
        { intros m Hm. rewrite <- (H3 m) by lia. apply sumn_ext. intros j Hj.
          destruct (Nat.eqb_spec j i) as [->|]; [|reflexivity]. unfold Uf.
          destruct (Nat.leb_spec m i); [lia|]. ring. }
        intros m Hm. destruct (Nat.eq_dec m i) as [->|]; [|apply Hold; lia].
        replace n with (i + S (n - 1 - i))%nat at 1 by lia. rewrite sumn_app, sumn_shift.
        rewrite sumn_zero.
        2:{ intros t Ht. unfold Uf. destruct (Nat.leb_spec i t); [lia|]. ring. }
        rewrite Nat.add_0_r, Nat.eqb_refl. unfold Uf at 1. rewrite Nat.leb_refl.
        rewrite (sumn_ext (n - 1 - i) _ (fun t => bnd M i (i + 1 + t) * z (i + 1 + t)%nat)).
        2:{ intros t Ht. replace (i + S t)%nat with (i + 1 + t)%nat by lia. unfold Uf.
            destruct (Nat.leb_spec i (i + 1 + t)); [|lia].
            destruct (Nat.eqb_spec (i + 1 + t) i); [lia|]. reflexivity. }
        rewrite (sumn_window (n - 1 - i) 0 (jmax - i) (fun t => bnd M i (i + 1 + t) * z (i + 1 + t)%nat)).
        -- cbn [Nat.add]. rewrite Hs. cbn [Nat.add]. field. apply Hd; lia.
        -- lia.
        -- intros t Ht Hor. rewrite bnd_out; [ring|]. destruct (inb i (i + 1 + t)) eqn:Ei; [|reflexivity].
           apply inb_spec in Ei. unfold jmax in *. lia.
  - exists x', z. split; [exact E|]. split; [exact Lx'|].
    split; intros; [apply H2|apply H3]; lia.
Qed.

Lemma band_solve_ok A b : length b = n ->
  (forall i j, (i < n)%nat -> (j < n)%nat -> A i j = sumn n (fun m => Lf M i m * Uf M m j)) ->
  exists x, band_solve B b = Ok x /\ solves n n A x b.
Proof.
  intros Hb HA. unfold band_solve. cbn [b_n B].
  destruct (forward_ok b Hb) as (x1 & y & E1 & L1 & H1 & Hy). fold B. rewrite E1. cbn [bind].
  destruct (back_ok x1 y L1 H1) as (x2 & z & E2 & L2 & H2 & Hz). rewrite E2. cbn [bind].
  exists (map z (seq 0 n)). split.
  - unfold read_cells. apply mapM_ok. intros a Ha. apply in_seq in Ha. apply H2; lia.
  - split; [rewrite map_length, seq_length; reflexivity|]. split; [exact Hb|].
    intros i Hi.
    rewrite (sumn_ext n _ (fun j => sumn n (fun m => Lf M i m * (Uf M m j * z j)))).
    2:{ intros j Hj. rewrite HA by lia. rewrite (nth_indep _ 0 (z 0%nat)) by (rewrite map_length, seq_length; lia).
        rewrite map_nth, seq_nth by lia. cbn [Nat.add]. rewrite Rmult_comm, <- sumn_scal.
        apply sumn_ext. intros; ring. }
    rewrite sumn_swap. rewrite (sumn_ext n _ (fun m => Lf M i m * y m)).
    2:{ intros m Hm. rewrite sumn_scal. rewrite Hz by lia. reflexivity. }
    rewrite <- (Hy i Hi). rewrite (sumn_window n 0 (S i) (fun m => Lf M i m * y m)); [reflexivity|lia|].
    intros t Ht Hor. unfold Lf. destruct (Nat.eqb_spec i t); [lia|]. destruct (Nat.ltb_spec t i); [lia|]. ring.
Qed.
End Solve.
End Band.
End AtR.

Section Final.
Variable eps : R.
Local Hint Extern 0 (Num R) => exact (NumR eps) : typeclass_instances.
Variables kl ku : nat.
Notation bnd := (banded kl ku).

Lemma Lf_spec (M : list R) : (forall i m, (i < m)%nat -> Lf kl ku M i m = 0) /\ (forall i, Lf kl ku M i i = 1).
Proof.
  split.
  - intros i m Hi. unfold Lf. destruct (Nat.eqb_spec i m); [lia|]. destruct (Nat.ltb_spec m i); [lia|reflexivity].
  - intros i. unfold Lf. rewrite Nat.eqb_refl. reflexivity.
Qed.

Lemma inv_factors n A tol M : lu_inv eps kl ku n A tol n M ->
  lu_factors n A tol (@max_growth R (NumR eps)) (Lf kl ku M) (Uf kl ku M).
Proof.
  intros (HL & HP & HG & HA). destruct (Lf_spec M) as (L0 & L1). split; [exact L0|]. split; [exact L1|].
  split; [|split; [|split]].
  - intros m j Hj. unfold Uf. destruct (Nat.leb_spec m j); [lia|reflexivity].
  - intros m Hm. unfold Uf. rewrite Nat.leb_refl. apply HP; exact Hm.
  - intros i m Hi. unfold Lf. destruct (Nat.eqb_spec i m); [lia|]. destruct (Nat.ltb_spec m i); [|lia]. apply HG; lia.
  - intros i j Hi Hj. rewrite HA by assumption. destruct (Nat.leb_spec n i); [lia|]. cbn [andb]. ring.
Qed.

(** The factorisation, if there is one, agrees with the columns already eliminated. *)
Lemma factors_agree n A tol g L U k M : 0 <= tol -> (k <= n)%nat ->
  lu_factors n A tol g L U -> lu_inv eps kl ku n A tol k M ->
  forall m, (m < k)%nat -> (forall j, (j < n)%nat -> U m j = Uf kl ku M m j) /\
                           (forall i, (i < n)%nat -> L i m = Lf kl ku M i m).
Proof.
  intros Ht Hk (L0 & L1 & U0 & UP & LG & HA) (HL & HP & HG & HI).
  destruct (Lf_spec M) as (F0 & F1).
  assert (V0 : forall m j, (j < m)%nat -> Uf kl ku M m j = 0).
  { intros m j Hj. unfold Uf. destruct (Nat.leb_spec m j); [lia|reflexivity]. }
  induction m as [m IH] using lt_wf_ind. intros Hm.
  assert (HU : forall j, (j < n)%nat -> U m j = Uf kl ku M m j).
  { intros j Hj.
    assert (E : A m j = A m j) by reflexivity. rewrite (HA m j) in E at 1 by lia. rewrite (HI m j) in E by lia.
    destruct (Nat.leb_spec k m); [lia|]. cbn [andb] in E. rewrite Rplus_0_r in E.
    rewrite (sumn_window n 0 (S m)) in E by (try lia; intros t Ht' Hor; rewrite L0 by lia; ring).
    rewrite (sumn_window k 0 (S m)) in E by (try lia; intros t Ht' Hor; rewrite F0 by lia; ring).
    cbn [sumn Nat.add] in E. rewrite L1, F1 in E.
    rewrite (sumn_ext m _ (fun t => Lf kl ku M m t * Uf kl ku M t j)) in E.
    2:{ intros t Ht'. destruct (IH t Ht' ltac:(lia)) as (IU & IL). rewrite IU, IL by lia. reflexivity. }
    lra. }
  split; [exact HU|]. intros i Hi.
  destruct (Nat.lt_trichotomy i m) as [Hlt|[->|Hgt]].
  - rewrite L0, F0 by lia. reflexivity.
  - rewrite L1, F1. reflexivity.
  - assert (E : A i m = A i m) by reflexivity. rewrite (HA i m) in E at 1 by lia. rewrite (HI i m) in E by lia.
    destruct (Nat.leb_spec k m); [lia|]. rewrite andb_false_r, Rplus_0_r in E.
    rewrite (sumn_window n 0 (S m)) in E by (try lia; intros t Ht' Hor; rewrite U0 by lia; ring).
    rewrite (sumn_window k 0 (S m)) in E by (try lia; intros t Ht' Hor; rewrite V0 by lia; ring).
    cbn [sumn Nat.add] in E.
    rewrite (sumn_ext m _ (fun t => Lf kl ku M i t * Uf kl ku M t m)) in E.
    2:{ intros t Ht'. destruct (IH t Ht' ltac:(lia)) as (IU & IL). rewrite IU, IL by lia. reflexivity. }
    rewrite <- (HU m) in E by lia. pose proof (UP m ltac:(lia)) as Hp.
    assert (Hz : U m m <> 0). { intros Ez. rewrite Ez, Rabs_R0 in Hp. lra. }
    apply (Rmult_eq_reg_r (U m m)); [|exact Hz]. lra.
Qed.

Lemma stop_no_factors n A tol : 0 <= tol -> lu_stop eps kl ku n A tol ->
  ~ exists L U, lu_factors n A tol (@max_growth R (NumR eps)) L U.
Proof.
  intros Ht (k & M & Hk & HI & Hs) (L & U & HF).
  pose proof (factors_agree n A tol _ L U k M Ht ltac:(lia) HF HI) as HG.
  destruct HF as (L0 & L1 & U0 & UP & LG & HA). pose proof HI as (HL & HP & HGr & HIA).
  destruct (Lf_spec M) as (F0 & F1).
  assert (Hkk : bnd M k k = U k k).
  { assert (E : A k k = A k k) by reflexivity. rewrite (HA k k) in E at 1 by lia. rewrite (HIA k k) in E by lia.
    rewrite Nat.leb_refl in E. cbn [andb] in E.
    rewrite (sumn_window n 0 (S k)) in E by (try lia; intros t Ht' Hor; rewrite L0 by lia; ring).
    cbn [sumn Nat.add] in E. rewrite L1 in E.
    rewrite (sumn_ext k _ (fun t => Lf kl ku M k t * Uf kl ku M t k)) in E.
    2:{ intros t Ht'. destruct (HG t Ht') as (IU & IL). rewrite IU, IL by lia. reflexivity. }
    lra. }
  assert (Hz : U k k <> 0). { intros Ez. pose proof (UP k Hk) as X. rewrite Ez, Rabs_R0 in X. lra. }
  destruct Hs as [Hs|(i & Hi & Hs)].
  - rewrite Hkk in Hs. pose proof (UP k Hk). lra.
  - assert (Hik : bnd M i k = L i k * U k k).
    { assert (E : A i k = A i k) by reflexivity. rewrite (HA i k) in E at 1 by lia. rewrite (HIA i k) in E by lia.
      destruct (Nat.leb_spec k i); [|lia]. rewrite Nat.leb_refl in E. cbn [andb] in E.
      rewrite (sumn_window n 0 (S k)) in E by (try lia; intros t Ht' Hor; rewrite U0 by lia; ring).
      cbn [sumn Nat.add] in E.
      rewrite (sumn_ext k _ (fun t => Lf kl ku M i t * Uf kl ku M t k)) in E.
      2:{ intros t Ht'. destruct (HG t Ht') as (IU & IL). rewrite IU, IL by lia. reflexivity. }
      lra. }
    rewrite Hkk, Hik in Hs. replace (L i k * U k k / U k k) with (L i k) in Hs by (field; exact Hz).
    pose proof (LG i k ltac:(lia)). lra.
Qed.

Definition piv_tol (scale : R) : R := scale * (eps / 100) * 16.

Lemma INR_nat n z : Z.of_nat n = z -> INR n = IZR z.
Proof. intros <-. apply INR_IZR_INZ. Qed.

Lemma piv_tol_eq (scale : R) : nmul (nmul scale machine_eps) (nofnat 16) = piv_tol scale.
Proof.
  unfold machine_eps, piv_tol. rewrite !nofnat_R. cbn [nmul NumR ndiv neps].
  rewrite (INR_nat 100 100) by reflexivity. rewrite (INR_nat 16 16) by reflexivity. reflexivity.
Qed.
Lemma growth_eq : @max_growth R (NumR eps) = 10000.
Proof.
  unfold max_growth. rewrite !nofnat_R. cbn [nmul NumR]. rewrite (INR_nat 100 100) by reflexivity. lra.
Qed.

Lemma factorize_spec n M scale : 0 <= eps -> 0 <= scale -> length M = (n * (kl + ku + 1))%nat ->
  exists o, factorize_inplace (mkband n kl ku M) scale = Ok o /\
  match o with
  | Some F => (exists L U, lu_factors n (bnd M) (piv_tol scale) 10000 L U) /\
      forall b, length b = n -> exists x, band_solve F b = Ok x /\ solves n n (bnd M) x b
  | None => ~ exists L U, lu_factors n (bnd M) (piv_tol scale) 10000 L U
  end.
Proof.
  intros He Hs HM. unfold factorize_inplace. cbn [b_n b_kl b_ku b_M]. rewrite piv_tol_eq.
  assert (Ht : 0 <= piv_tol scale).
  { unfold piv_tol. apply Rmult_le_pos; [|lra]. apply Rmult_le_pos; [exact Hs|lra]. }
  destruct (factor_ok eps kl ku n (piv_tol scale) M HM Ht) as (o & E & Ho). rewrite E. cbn [bind].
  destruct o as [M'|].
  - eexists; split; [reflexivity|]. pose proof (inv_factors _ _ _ _ Ho) as HF. rewrite growth_eq in HF.
    split; [eauto|]. intros b Hb. destruct Ho as (L' & HP & _).
    apply (band_solve_ok eps kl ku n M' L').
    + intros i Hi Ez. pose proof (HP i Hi) as X. rewrite Ez, Rabs_R0 in X. lra.
    + exact Hb.
    + apply HF.
  - eexists; split; [reflexivity|]. rewrite <- growth_eq. apply stop_no_factors; auto.
Qed.
End Final.
