(** Knot removal: the whole functions. *)
From Coq Require Import List Arith ZArith Reals Lia Lra Permutation Bool.
From Verif Require Import Model_Base Spec_Base Spec_Basis Spec_Eval Model_Basis Model_Knots Model_Removal
  Proof_Base Proof_Blossom Proof_Basis Proof_Ders Proof_Eval Proof_PropBasis Proof_Refine Proof_Insert
  Proof_Boehm Proof_PropInsert Proof_Continuity Proof_Trim Proof_Remove.
Import ListNotations.
Local Open Scope R_scope.

Lemma pole_nth (P : list (pt R)) c x : pole P c x = nth x P (fun _ => 0) c.
Proof. reflexivity. Qed.

Section Remove2.
Variable eps : R.
Hypothesis Heps : 0 <= eps.
Local Hint Extern 0 (Num R) => exact (NumR eps) : typeclass_instances.

Lemma rm_finish_ok (U : list R) (P : list (pt R)) n p r s num fout :
  length U = (n + p + 1)%nat -> length P = n -> (1 <= num <= s)%nat -> (s <= p)%nat -> (p + s <= r)%nat -> (r < n)%nat ->
  (2 * fout <= 2 * Z.of_nat r - Z.of_nat s - Z.of_nat p <= 2 * fout + 1)%Z ->
  exists U' P' jz, rm_finish (Z.of_nat r) fout (Z.of_nat num) U P = Ok (U', P') /\
    U' = firstn (r + 1 - num) U ++ skipn (r + 1) U /\
    length P' = (n - num)%nat /\
    (2 * r <= 2 * jz + s + p + num)%nat /\ (2 * jz + s + p + num <= 2 * r + 2)%nat /\
    forall x c, (x < n - num)%nat -> pole P' c x = if (x <? jz)%nat then pole P c x else pole P c (x + num).
Proof.
  intros LU LP Hn Hsp Hrp Hrn Hf. unfold rm_finish.
  replace (Z.of_nat r + 1)%Z with (Z.of_nat (r + 1)) by lia.
  replace (Z.of_nat (r + 1) - Z.of_nat num)%Z with (Z.of_nat (r + 1 - num)) by lia.
  replace (Z.to_nat (Z.of_nat (length U) - Z.of_nat (r + 1))) with (length U - (r + 1))%nat by lia.
  destruct (shift_down_ok (length U - (r + 1)) (r + 1) (r + 1 - num) U) as (U1 & E1 & L1 & G1); [lia|lia|].
  rewrite E1. cbn [bind].
  pose proof (Z.div_mod (Z.of_nat num) 2 ltac:(lia)) as D1. pose proof (Z.mod_pos_bound (Z.of_nat num) 2 ltac:(lia)) as D2.
  pose proof (Z.div_mod (Z.of_nat num - 1) 2 ltac:(lia)) as D3. pose proof (Z.mod_pos_bound (Z.of_nat num - 1) 2 ltac:(lia)) as D4.
  remember (Z.of_nat num / 2)%Z as a. remember ((Z.of_nat num - 1) / 2)%Z as b.
  remember (Z.of_nat num mod 2)%Z as a'. remember ((Z.of_nat num - 1) mod 2)%Z as b'.
  assert (Hab : (a + b + 1 = Z.of_nat num)%Z) by lia.
  set (jz := Z.to_nat (fout - b)).
  assert (Hj : (fout - b)%Z = Z.of_nat jz) by (unfold jz; lia).
  assert (Hi : (fout + a + 1)%Z = Z.of_nat (jz + num)) by lia.
  rewrite Hi, Hj.
  replace (Z.to_nat (Z.of_nat (length P) - Z.of_nat (jz + num))) with (n - (jz + num))%nat by (unfold pt in *; lia).
  destruct (shift_down_ok (n - (jz + num)) (jz + num) jz P) as (P1 & E2 & L2 & G2); [lia|unfold pt in *; lia|].
  rewrite E2. cbn [bind].
  rewrite Nat2Z.id.
  exists (firstn (length U1 - num) U1), (firstn (length P1 - num) P1), jz.
  split; [reflexivity|]. split; [|split; [|split; [lia|split; [lia|]]]].
  - apply nth_ext with (d := 0) (d' := 0).
    + rewrite app_length, !firstn_length, skipn_length. lia.
    + intros x Hx. rewrite firstn_length in Hx.
      fold (kn (firstn (length U1 - num) U1) x). rewrite kn_firstn by lia. unfold kn at 1. rewrite G1.
      destruct (Nat.leb_spec (r + 1 - num) x), (Nat.ltb_spec x (r + 1 - num + (length U - (r + 1)))); cbn [andb]; try lia.
      * rewrite app_nth2; rewrite firstn_length; [|lia].
        fold (kn (skipn (r + 1) U) (x - min (r + 1 - num) (length U))). rewrite kn_skipn. unfold kn. f_equal. lia.
      * rewrite app_nth1 by (rewrite firstn_length; lia).
        fold (kn (firstn (r + 1 - num) U) x). rewrite kn_firstn by lia. reflexivity.
  - rewrite firstn_length. unfold pt in *. lia.
  - intros x c Hx. rewrite pole_firstn by (unfold pt in *; lia). rewrite pole_nth, G2.
    destruct (Nat.leb_spec jz x), (Nat.ltb_spec x (jz + (n - (jz + num)))), (Nat.ltb_spec x jz); cbn [andb]; try lia.
    + rewrite pole_nth. replace (jz + num + (x - jz))%nat with (x + num)%nat by lia. reflexivity.
    + reflexivity.
Qed.

(** Position of u in a sorted knot vector. *)
Definition rpos (U : list R) (n p : nat) (u : R) (r s : nat) : Prop :=
  s = count_occ Req_EM_T U u /\ (r + 1 = lower_bound U u + s)%nat /\ (r + 1 = upper_bound U u)%nat /\
  (p + s <= r)%nat /\ (r < n)%nat /\
  (forall x, (r - s < x <= r)%nat -> kn U x = u) /\ kn U (r - s) < u /\ u < kn U (S r).

Lemma rpos_ex U n p u : knots_ok U n p -> kn U p < u < kn U n -> (1 <= count_occ Req_EM_T U u)%nat ->
  exists r s, rpos U n p u r s.
Proof.
  intros HU Hu Hc. pose proof HU as (L & Hpn & Hs & Hlast).
  pose proof (count_range eps U u Hs) as Hr. pose proof (ub_le eps U u).
  set (lb := lower_bound U u) in *. set (s := count_occ Req_EM_T U u) in *.
  assert (Heq : forall x, (lb <= x < lb + s)%nat -> kn U x = u).
  { intros x Hx. apply (eqrange eps); auto. fold lb. rewrite Hr. lia. }
  assert (Hplb : (p < lb)%nat).
  { destruct (Nat.lt_ge_cases p lb); auto. exfalso.
    pose proof (lb_at eps U u ltac:(fold lb; lia)) as Hla. fold lb in Hla.
    assert (kn U lb <= kn U p) by (apply Hs; lia). lra. }
  assert (Hn : (lb + s - 1 < n)%nat).
  { apply (knots_gt_last U n p u HU); [lra|lia|]. rewrite Heq by lia. lra. }
  exists (lb + s - 1)%nat, s.
  unfold rpos. fold lb. split; [auto|]. split; [lia|]. split; [lia|]. split; [lia|]. split; [lia|].
  split; [intros x Hx; apply Heq; lia|].
  split; [apply (lb_below eps); fold lb; lia|].
  pose proof (ub_at eps U u ltac:(lia)) as Hua. rewrite Hr in Hua.
  replace (S (lb + s - 1)) with (lb + s)%nat by lia. auto.
Qed.

Lemma rm_locate_ok U n p u r s : knots_ok U n p -> rpos U n p u r s -> (1 <= s)%nat ->
  rm_locate u U = Ok (Some (Z.of_nat r)) /\ multiplicity u U = s.
Proof.
  intros HU (Es & E1 & E2 & Hrp & Hrn & Heq & Hlt & Hgt) Hs1. pose proof HU as (L & _ & Hs & _).
  split.
  - unfold rm_locate. rewrite <- E2.
    replace (Z.of_nat (r + 1) - 1)%Z with (Z.of_nat r) by lia.
    rewrite zget_nat, get_kn by lia. cbn [bind]. rewrite nabs_R. cbn [nltb nsub neps NumR].
    rewrite Heq by lia. replace (u - u) with 0 by lra. rewrite Rabs_R0.
    destruct (Rltb_spec eps 0); [lra|].
    destruct (Z.eqb_spec (Z.of_nat r) 0); [lia|]. destruct (Z.eqb_spec (Z.of_nat r) (Z.of_nat (length U))); [lia|].
    reflexivity.
  - rewrite (mult_count eps) by auto. auto.
Qed.

Definition removed_poles (f : nat -> list (R * R) -> R) (U' : list R) p r s num (P P' : list (pt R)) : Prop :=
  forall x c, (x < length P')%nat ->
    ((x + p + num <= r)%nat -> pole P' c x = pole P c x) /\
    ((r <= x + p + num)%nat -> (x + s <= r)%nat -> pole P' c x = f c (kargs (kn U') x p)) /\
    ((r <= x + s)%nat -> pole P' c x = pole P c (x + num)).

Section Ops.
Variables (U : list R) (n p r s num : nat) (u : R) (f : nat -> list (R * R) -> R) (P : list (pt R)).
Hypothesis HU : knots_ok U n p.
Hypothesis Hpos : rpos U n p u r s.
Hypothesis Hnum : (1 <= num <= s)%nat.
Hypothesis Hsp : (s <= p)%nat.
Hypothesis HP : length P = n.
Hypothesis Hf : forall c, symml p (f c).
Hypothesis HPf : forall x c, (r <= x + p + num)%nat -> (x + s <= r + num)%nat ->
  pole P c x = f c (kargs (kn U) x p).

Let U' := firstn (r + 1 - num) U ++ skipn (r + 1) U.

Lemma U'_kn x : (x < n + p + 1 - num)%nat -> kn U' x = Ut U r num x.
Proof.
  clear HPf Hf HP P f.
  intros Hx. pose proof HU as (L & _). destruct Hpos as (_ & _ & _ & Hrp & Hrn & _).
  unfold U', Ut.
  destruct (Nat.leb_spec x (r - num)).
  - unfold kn. rewrite app_nth1 by (rewrite firstn_length; lia). apply kn_firstn. lia.
  - unfold kn at 1. rewrite app_nth2 by (rewrite firstn_length; lia).
    fold (kn (skipn (r + 1) U) (x - length (firstn (r + 1 - num) U))).
    rewrite kn_skipn, firstn_length. f_equal. lia.
Qed.

Lemma rm_passes_all test fout :
  (forall t P first last off temp, (t < num)%nat -> length P = n ->
    (forall x c, (r <= x + p + num)%nat -> (2 * (x + p + t) <= 2 * r + ((p - s) + t))%nat -> pole P c x = OP U p r f c t x) ->
    (forall x c, (x + s <= r + num)%nat -> (2 * (r + t) <= 2 * (x + s) + ((p - s) + t))%nat -> pole P c x = OP U p r f c t (x - t)) ->
    (first + p + t = r)%nat -> (last + s = r + t)%nat -> (off + 1 = first)%nat ->
    good U p r f t last off (cnt (p - s) t) temp ->
    test (Z.of_nat t) P (Z.of_nat (first + cnt (p - s) t), Z.of_nat (last - cnt (p - s) t), Z.of_nat (1 + cnt (p - s) t),
         Z.of_nat (last - off - cnt (p - s) t), temp) = Ok true) ->
  (2 * fout <= 2 * Z.of_nat r - Z.of_nat s - Z.of_nat p <= 2 * fout + 1)%Z ->
  exists P1 P', rm_passes num test u p U 0 (Z.of_nat r - Z.of_nat p) (Z.of_nat r - Z.of_nat s) P (filled (2 * p + 1) pzero)
     = Ok (Z.of_nat num, P1) /\
   rm_finish (Z.of_nat r) fout (Z.of_nat num) U P1 = Ok (U', P') /\
   length P' = (n - num)%nat /\ removed_poles f U' p r s num P P'.
Proof.
  intros Hte Hfo. pose proof HU as (L & Hpn & _). destruct Hpos as (Es & E1 & E2 & Hrp & Hrn & Heq & Hlt & Hgt).
  assert (E0 : forall c x, (x + p < n + p + 1)%nat -> OP U p r f c 0 x = f c (kargs (kn U) x p)).
  { intros c x Hx. unfold OP. f_equal. apply kargs_shift. intros y Hy. unfold Ut.
    destruct (Nat.leb_spec (x + y) (r - 0)); [auto|f_equal; lia]. }
  destruct (rm_passes_ok eps U n p r s (p - s) num u f HU ltac:(lia) ltac:(lia) Hrp Hrn Hnum Heq Hlt Hgt Hf
     test num 0 P (filled (2 * p + 1) pzero)) as (P1 & EP & L1 & V1 & V2 & V3).
  - lia.
  - exact HP.
  - apply filled_length.
  - intros x c H1 H2. rewrite E0 by lia. apply HPf; lia.
  - intros x c H1 H2. rewrite Nat.sub_0_r, E0 by lia. apply HPf; lia.
  - exact Hte.
  - rewrite Nat2Z.inj_0, Z.sub_0_r, Z.add_0_r in EP. exists P1.
    destruct (rm_finish_ok U P1 n p r s num fout L L1 Hnum Hsp Hrp Hrn Hfo)
      as (U1 & P' & jz & EF & EU & LP' & J1 & J2 & V).
    exists P'. split; [exact EP|]. subst U1. split; [exact EF|]. split; [exact LP'|].
    intros x c Hx. rewrite LP' in Hx. rewrite V by auto. split; [|split].
    + intros H. destruct (Nat.ltb_spec x jz); [|lia]. apply V3. lia.
    + intros H1 H2.
      assert (EO : OP U p r f c num x = f c (kargs (kn U') x p)).
      { unfold OP. f_equal. apply kargs_shift. intros y Hy. symmetry. apply U'_kn. lia. }
      rewrite <- EO.
      destruct (Nat.ltb_spec x jz).
      * apply V1; lia.
      * rewrite V2 by lia. f_equal. lia.
    + intros H. destruct (Nat.ltb_spec x jz); [lia|]. apply V3. lia.
Qed.

Lemma remove_knot_ok :
  exists P', remove_knot u num U P p = Ok (U', P') /\
   length P' = (n - num)%nat /\ removed_poles f U' p r s num P P'.
Proof.
  destruct (rm_locate_ok U n p u r s HU Hpos ltac:(lia)) as (EL & EM).
  destruct (rm_passes_all (fun _ _ _ => Ok true) ((2 * Z.of_nat r - Z.of_nat s - Z.of_nat p) / 2))
    as (P1 & P' & E1 & E2 & H1 & H2); auto.
  - pose proof (Z.div_mod (2 * Z.of_nat r - Z.of_nat s - Z.of_nat p) 2 ltac:(lia)).
    pose proof (Z.mod_pos_bound (2 * Z.of_nat r - Z.of_nat s - Z.of_nat p) 2 ltac:(lia)). lia.
  - exists P'. split; [|auto]. unfold remove_knot. rewrite EL. cbn [bind].
    destruct (Nat.ltb_spec num 1); [lia|]. rewrite EM, E1. cbn [bind]. exact E2.
Qed.

Lemma remove_knot_tol_ok dist tol :
  (forall a b : pt R, (forall c, a c = b c) -> dist a b <= tol) ->
  exists P', remove_knot_tol dist u p num U P tol = Ok (Z.of_nat num, U', P') /\
   length P' = (n - num)%nat /\ removed_poles f U' p r s num P P'.
Proof.
  intros Hd. destruct (rm_locate_ok U n p u r s HU Hpos ltac:(lia)) as (EL & EM).
  destruct (rm_passes_all (fun t => rm_test dist u p tol t U) (Z.quot (2 * Z.of_nat r - Z.of_nat s - Z.of_nat p) 2))
    as (P1 & P' & E1 & E2 & H1 & H2); auto.
  - intros t Q first last off temp Ht LQ HL HR F1 F2 F3 Hg.
    destruct Hpos as (Es & E1 & E2 & Hrp & Hrn & Heq & Hlt & Hgt).
    apply (rm_test_ok eps U n p r s (p - s) num u f HU) with (off := off); auto; lia.
  - destruct Hpos as (_ & _ & _ & Hrp & _).
    rewrite Z.quot_div_nonneg by lia.
    pose proof (Z.div_mod (2 * Z.of_nat r - Z.of_nat s - Z.of_nat p) 2 ltac:(lia)).
    pose proof (Z.mod_pos_bound (2 * Z.of_nat r - Z.of_nat s - Z.of_nat p) 2 ltac:(lia)). lia.
  - exists P'. split; [|auto]. unfold remove_knot_tol. rewrite EL. cbn [bind].
    destruct (Nat.ltb_spec num 1); [lia|]. rewrite EM, E1. cbn [bind].
    destruct (Z.eqb_spec (Z.of_nat num) 0); [lia|]. rewrite E2. reflexivity.
Qed.
End Ops.
End Remove2.
