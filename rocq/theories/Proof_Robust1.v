(** Facts about p-bit rounding used by the exact-sign predicate: multiples of powers of two,
    errors, error-free transformations. *)
From Coq Require Import Reals ZArith Bool Lia Lra List.
From Flocq Require Import Core Relative Pff2Flocq.
From Verif Require Import Model_Base Model_Robust Spec_Robust.
Open Scope R_scope.

Notation b2 := (bpow radix2).

(** x is a multiple of 2^s *)
Definition mult (s : Z) (x : R) : Prop := exists m : Z, x = IZR m * b2 s.

Lemma b2_pos : forall s, 0 < b2 s.
Proof. intros; apply bpow_gt_0. Qed.

Lemma b2_IZR : forall s, (0 <= s)%Z -> b2 s = IZR (2 ^ s).
Proof. intros s Hs. rewrite <- (IZR_Zpower radix2) by exact Hs. reflexivity. Qed.

Lemma b2_plus1 : forall s, b2 (s + 1) = 2 * b2 s.
Proof. intros. rewrite bpow_plus, bpow_1. simpl. ring. Qed.
Lemma b2_plus2 : forall s, b2 (s + 2) = 4 * b2 s.
Proof. intros. replace (s + 2)%Z with (s + 1 + 1)%Z by lia. rewrite !b2_plus1. ring. Qed.

Lemma mult_0 : forall s, mult s 0.
Proof. intros s. exists 0%Z. simpl. ring. Qed.
Lemma mult_add : forall s x y, mult s x -> mult s y -> mult s (x + y).
Proof. intros s x y [m ->] [n ->]. exists (m + n)%Z. rewrite plus_IZR. ring. Qed.
Lemma mult_opp : forall s x, mult s x -> mult s (- x).
Proof. intros s x [m ->]. exists (- m)%Z. rewrite opp_IZR. ring. Qed.
Lemma mult_sub : forall s x y, mult s x -> mult s y -> mult s (x - y).
Proof. intros s x y Hx Hy. apply mult_add; [ exact Hx | apply mult_opp; exact Hy ]. Qed.
Lemma mult_abs : forall s x, mult s x -> mult s (Rabs x).
Proof.
  intros s x H. unfold Rabs. destruct (Rcase_abs x); [ apply mult_opp; exact H | exact H ].
Qed.
Lemma mult_mul : forall s t x y, mult s x -> mult t y -> mult (s + t) (x * y).
Proof. intros s t x y [m ->] [n ->]. exists (m * n)%Z. rewrite mult_IZR, bpow_plus. ring. Qed.
Lemma mult_le : forall s t x, (t <= s)%Z -> mult s x -> mult t x.
Proof.
  intros s t x Hle [m ->]. exists (m * 2 ^ (s - t))%Z.
  rewrite mult_IZR, <- b2_IZR by lia. rewrite Rmult_assoc, <- bpow_plus.
  replace (s - t + t)%Z with s by lia. reflexivity.
Qed.
Lemma mult_b2 : forall s t, (s <= t)%Z -> mult s (b2 t).
Proof. intros s t H. apply (mult_le t); [ exact H | exists 1%Z; ring ]. Qed.

(** A nonzero multiple of 2^s is at least 2^s *)
Lemma mult_ge : forall s x, mult s x -> x <> 0 -> b2 s <= Rabs x.
Proof.
  intros s x [m ->] Hx. rewrite Rabs_mult, (Rabs_pos_eq (b2 s)) by (apply Rlt_le, b2_pos).
  rewrite <- (Rmult_1_l (b2 s)) at 1. apply Rmult_le_compat_r; [ apply Rlt_le, b2_pos | ].
  rewrite <- abs_IZR. apply (IZR_le 1). destruct (Z.eq_dec m 0) as [->|].
  - exfalso. apply Hx. simpl. ring.
  - lia.
Qed.
Lemma mult_small : forall s x, mult s x -> Rabs x < b2 s -> x = 0.
Proof.
  intros s x H Hlt. destruct (Req_dec x 0) as [E|E]; [ exact E | ].
  pose proof (mult_ge s x H E). lra.
Qed.

Section Prec.
Variable p : Z.
Hypothesis Hp : (10 <= p)%Z.

Local Instance prec_pos : Prec_gt_0 p.
Proof. unfold Prec_gt_0. lia. Qed.
Local Instance exp_valid : Valid_exp (FLX_exp p).
Proof. apply FLX_exp_valid. exact prec_pos. Qed.
Local Instance rnd_valid : Valid_rnd ZnearestE.
Proof. apply valid_rnd_N. Qed.

Notation F := (is_float p).
Notation rd := (fl p).

Lemma F_0 : F 0.
Proof. apply generic_format_0. Qed.
Lemma F_opp : forall x, F x -> F (- x).
Proof. intros x H. apply generic_format_opp. exact H. Qed.
Lemma F_rd : forall x, F (rd x).
Proof. intros x. apply generic_format_round; auto with typeclass_instances. Qed.
Lemma rd_id : forall x, F x -> rd x = x.
Proof. intros x H. apply round_generic; auto with typeclass_instances. Qed.
Lemma rd_0 : rd 0 = 0.
Proof. apply rd_id, F_0. Qed.
Lemma rd_opp : forall x, rd (- x) = - rd x.
Proof. intros x. unfold fl. apply round_NE_opp. Qed.
Lemma rd_le : forall x y, x <= y -> rd x <= rd y.
Proof. intros x y H. apply round_le; auto with typeclass_instances. Qed.

Lemma F_mult : forall x s, mult s x -> Rabs x <= b2 (s + p) -> F x.
Proof.
  intros x s [m ->] Hx. destruct (Rle_lt_or_eq_dec _ _ Hx) as [Hlt|Heq].
  - apply generic_format_FLX. exists (Float radix2 m s); [ reflexivity | ].
    cbn [Fnum]. rewrite Rabs_mult, (Rabs_pos_eq (b2 s)) in Hlt by (apply Rlt_le, b2_pos).
    rewrite bpow_plus, Rmult_comm in Hlt. apply Rmult_lt_reg_l in Hlt; [ | apply b2_pos ].
    rewrite <- abs_IZR, b2_IZR in Hlt by lia. apply lt_IZR in Hlt. exact Hlt.
  - assert (E : IZR m * b2 s = b2 (s + p) \/ IZR m * b2 s = - b2 (s + p)).
    { unfold Rabs in Heq. destruct (Rcase_abs (IZR m * b2 s)); [ right | left ]; lra. }
    assert (G : F (b2 (s + p))).
    { apply generic_format_bpow. unfold FLX_exp. lia. }
    destruct E as [->| ->]; [ exact G | apply F_opp; exact G ].
Qed.

(** The exponent of a nonzero real *)
Lemma expo : forall x, x <> 0 -> exists s, b2 (s + p - 1) <= Rabs x < b2 (s + p)
  /\ cexp radix2 (FLX_exp p) x = s.
Proof.
  intros x Hx. exists (cexp radix2 (FLX_exp p) x).
  unfold cexp, FLX_exp. replace (mag radix2 x - p + p)%Z with (mag radix2 x : Z) by lia.
  split; [ | reflexivity ]. destruct (mag radix2 x) as [e He]. cbn. apply He. exact Hx.
Qed.

Lemma F_expo : forall x, F x -> x <> 0 ->
  exists s, mult s x /\ b2 (s + p - 1) <= Rabs x < b2 (s + p).
Proof.
  intros x HF Hx. destruct (expo x Hx) as [s [Hs E]]. exists s. split; [ | exact Hs ].
  unfold is_float, generic_format in HF. rewrite E in HF. rewrite HF. unfold F2R. cbn.
  eexists. reflexivity.
Qed.

Lemma F_some : forall x, F x -> exists s, mult s x.
Proof.
  intros x H. destruct (Req_dec x 0) as [->|N]; [ exists 0%Z; apply mult_0 | ].
  destruct (F_expo x H N) as [s [Hs _]]. exists s; exact Hs.
Qed.

Lemma rd_cexp : forall x s, cexp radix2 (FLX_exp p) x = s -> mult s (rd x).
Proof. intros x s E. unfold fl, round, F2R. cbn. rewrite E. eexists. reflexivity. Qed.

Lemma rd_mult : forall s x, mult s x -> mult s (rd x).
Proof.
  intros s x H. destruct (Req_dec x 0) as [->|N]; [ rewrite rd_0; apply mult_0 | ].
  destruct (expo x N) as [t [Ht E]]. destruct (Z.le_gt_cases s t) as [L|L].
  - apply (mult_le t); [ exact L | apply rd_cexp; exact E ].
  - rewrite rd_id; [ exact H | ]. apply (F_mult x t).
    + apply (mult_le s); [ lia | exact H ].
    + lra.
Qed.

Lemma rd_near : forall x y, F y -> Rabs (rd x - x) <= Rabs (y - x).
Proof.
  intros x y Hy. destruct (round_N_pt radix2 (FLX_exp p) (fun z => negb (Z.even z)) x) as [_ H].
  apply H. exact Hy.
Qed.

Definition u : R := b2 (- p).

Lemma rd_err : forall x, Rabs (rd x - x) <= u * Rabs x.
Proof.
  intros x. pose proof (relative_error_N_FLX radix2 p ltac:(lia) (fun z => negb (Z.even z)) x) as H.
  unfold u. replace (- p)%Z with (- p + 1 + -1)%Z by lia. rewrite bpow_plus.
  replace (b2 (-1)) with (/ 2) by reflexivity.
  rewrite (Rmult_comm (b2 _)). exact H.
Qed.
Lemma rd_err' : forall x, Rabs (rd x - x) <= u * Rabs (rd x).
Proof.
  intros x. pose proof (relative_error_N_FLX_round radix2 p ltac:(lia) (fun z => negb (Z.even z)) x) as H.
  unfold u. replace (- p)%Z with (- p + 1 + -1)%Z by lia. rewrite bpow_plus.
  replace (b2 (-1)) with (/ 2) by reflexivity.
  rewrite (Rmult_comm (b2 _)). exact H.
Qed.

(** Error with exponent: 2^(s+p-1) <= |x| < 2^(s+p) gives an error of at most half 2^s *)
Lemma rd_half : forall x s, Rabs x < b2 (s + p) -> 2 * Rabs (rd x - x) <= b2 s.
Proof.
  intros x s Hs. destruct (Req_dec x 0) as [->|N].
  { rewrite rd_0, Rminus_diag_eq, Rabs_R0 by reflexivity. pose proof (b2_pos s). lra. }
  destruct (expo x N) as [t [Ht E]].
  assert (L : (t <= s)%Z).
  { assert (b2 (t + p - 1) < b2 (s + p)) by lra. apply lt_bpow in H. lia. }
  pose proof (error_le_half_ulp radix2 (FLX_exp p) (fun z => negb (Z.even z)) x) as H.
  rewrite ulp_neq_0, E in H by exact N.
  pose proof (bpow_le radix2 t s L). change (round _ _ _ x) with (rd x) in H. lra.
Qed.

(** Round to even: the rounded value is a multiple of a power of two larger than twice the
    error *)
Lemma rd_nonadj : forall x, rd x <> x -> exists s, mult s (rd x) /\ 2 * Rabs (rd x - x) < b2 s.
Proof.
  intros x Hne.
  assert (N : x <> 0) by (intros ->; apply Hne, rd_0).
  destruct (expo x N) as [c [Hc E]].
  pose proof (rd_half x c ltac:(lra)) as Hh.
  destruct (Rle_lt_or_eq_dec _ _ Hh) as [Hlt|Heq]; [ exists c; split; [ apply rd_cexp; exact E | exact Hlt ] | ].
  exists (c + 1)%Z. split; [ | rewrite b2_plus1; pose proof (b2_pos c); lra ].
  (* tie *)
  unfold fl, round, F2R in *. cbn in *. rewrite E in *.
  set (mx := scaled_mantissa radix2 (FLX_exp p) x) in *.
  assert (Ex : x = mx * b2 c).
  { unfold mx. rewrite <- E. symmetry. apply scaled_mantissa_mult_bpow. }
  clearbody mx.
  assert (A : Rabs (IZR (ZnearestE mx) - mx) = / 2).
  { rewrite Ex in Heq.
    rewrite <- Rmult_minus_distr_r, Rabs_mult, (Rabs_pos_eq (b2 c)) in Heq by (apply Rlt_le, b2_pos).
    pose proof (b2_pos c). nra. }
  pose proof (Zfloor_lb mx) as L. pose proof (Zfloor_ub mx) as U.
  assert (Ev : Z.even (ZnearestE mx) = true).
  { unfold Znearest in *. destruct (Rcompare_spec (mx - IZR (Zfloor mx)) (/ 2)) as [Hl|He|Hg].
    - exfalso. rewrite Rabs_left1 in A by lra. lra.
    - destruct (Z.even (Zfloor mx)) eqn:EV; cbn [negb] in *; [ exact EV | ].
      rewrite Zceil_floor_neq by lra. rewrite Z.even_add, EV. reflexivity.
    - exfalso. rewrite Zceil_floor_neq, plus_IZR in A by lra. rewrite Rabs_pos_eq in A by lra. lra. }
  apply Z.even_spec in Ev. destruct Ev as [k Hk]. rewrite Hk. exists k.
  rewrite mult_IZR, b2_plus1. ring.
Qed.

(** * Error-free transformations *)

Definition nr (emin : Z) (x : R) := flt emin p x.

Lemma choice_even : forall x, negb (Z.even x) = negb (negb (Z.even (- (x + 1)))).
Proof. intros x. rewrite Z.even_opp, Z.even_add. destruct (Z.even x); reflexivity. Qed.

Lemma nr_mult : forall e s x, (e + p <= s + 1)%Z -> mult s x -> nr e x = rd x.
Proof.
  intros e s x He Hx. destruct (Req_dec x 0) as [->|N].
  { rewrite rd_0. unfold nr, flt. apply round_0. auto with typeclass_instances. }
  apply round_FLT_FLX. apply Rle_trans with (b2 s); [ apply bpow_le; lia | ].
  apply mult_ge; assumption.
Qed.

Lemma F_FLT : forall e s x, (e + p <= s + 1)%Z -> mult s x -> F x ->
  generic_format radix2 (FLT_exp e p) x.
Proof.
  intros e s x He Hx HF. destruct (Req_dec x 0) as [->|N]; [ apply generic_format_0 | ].
  apply generic_format_FLT_FLX; [ | exact HF ].
  apply Rle_trans with (b2 s); [ apply bpow_le; lia | apply mult_ge; assumption ].
Qed.

Lemma common : forall x y, F x -> F y -> exists s, mult s x /\ mult s y.
Proof.
  intros x y Hx Hy. destruct (F_some x Hx) as [s Hs], (F_some y Hy) as [t Ht].
  exists (Z.min s t). split; [ apply (mult_le s) | apply (mult_le t) ]; auto; lia.
Qed.

Ltac mlt := repeat first [ assumption | apply rd_mult | apply mult_add | apply mult_sub | apply mult_opp ].

Lemma two_sum_exact : forall a b, F a -> F b ->
  @two_sum R (NumF p) a b = (rd (a + b), a + b - rd (a + b)).
Proof.
  intros a b Ha Hb. destruct (common a b Ha Hb) as [s [Ma Mb]].
  unfold two_sum. cbn [nadd nsub NumF]. f_equal.
  set (e := Z.min 0 (s - p)).
  assert (He : (e + p <= s + 1)%Z) by (unfold e; lia).
  pose proof (TwoSum_correct e p (fun z => negb (Z.even z)) ltac:(lia) ltac:(unfold e; lia) choice_even
    a b (F_FLT e s a He Ma Ha) (F_FLT e s b He Mb Hb)) as H.
  change (round radix2 (FLT_exp e p) (Znearest (fun z : Z => negb (Z.even z)))) with (nr e) in H.
  repeat match type of H with
  | context [nr e ?x] =>
    lazymatch x with context [nr e _] => fail | _ => rewrite (nr_mult e s x He) in H by mlt end
  end.
  lra.
Qed.

Lemma fast_two_sum_exact : forall a b, F a -> F b -> Rabs b <= Rabs a ->
  @fast_two_sum R (NumF p) a b = (rd (a + b), a + b - rd (a + b)).
Proof.
  intros a b Ha Hb Hab. destruct (common a b Ha Hb) as [s [Ma Mb]].
  unfold fast_two_sum. cbn [nadd nsub NumF]. f_equal.
  set (e := Z.min 0 (s - p)).
  assert (He : (e + p <= s + 1)%Z) by (unfold e; lia).
  pose proof (Fast2Sum_correct e p (fun z => negb (Z.even z)) ltac:(lia) ltac:(unfold e; lia) choice_even
    a b (F_FLT e s a He Ma Ha) (F_FLT e s b He Mb Hb) Hab) as H.
  change (round radix2 (FLT_exp e p) (Znearest (fun z : Z => negb (Z.even z)))) with (nr e) in H.
  repeat match type of H with
  | context [nr e ?x] =>
    lazymatch x with context [nr e _] => fail | _ => rewrite (nr_mult e s x He) in H by mlt end
  end.
  replace (rd (a - rd (a + b))) with (- rd (rd (a + b) - a)) in H
    by (rewrite <- rd_opp; f_equal; ring).
  unfold Rminus at 1. lra.
Qed.

Lemma two_diff_tail_exact : forall a b, F a -> F b ->
  @two_diff_tail R (NumF p) a b (rd (a - b)) = a - b - rd (a - b).
Proof.
  intros a b Ha Hb. pose proof (two_sum_exact a (- b) Ha (F_opp b Hb)) as H.
  unfold two_sum, two_diff_tail in *. cbn [nadd nsub NumF] in *.
  injection H as H. change (a + - b) with (a - b) in H. rewrite <- H.
  replace (rd (rd (a - b) - a)) with (- rd (a - rd (a - b))) by (rewrite <- rd_opp; f_equal; ring).
  do 2 f_equal; f_equal; try ring. do 2 f_equal. ring.
Qed.

Lemma two_diff_exact : forall a b, F a -> F b ->
  @two_diff R (NumF p) a b = (rd (a - b), a - b - rd (a - b)).
Proof.
  intros a b Ha Hb. unfold two_diff. cbn [nsub NumF].
  rewrite two_diff_tail_exact by assumption. reflexivity.
Qed.

(** The splitter *)
Lemma F_small_int : forall m s, (Z.abs m <= 2 ^ p)%Z -> F (IZR m * b2 s).
Proof.
  intros m s Hm. apply (F_mult _ s); [ exists m; reflexivity | ].
  rewrite Rabs_mult, (Rabs_pos_eq (b2 s)) by (apply Rlt_le, b2_pos).
  rewrite Z.add_comm, bpow_plus. apply Rmult_le_compat_r; [ apply Rlt_le, b2_pos | ].
  rewrite <- abs_IZR, b2_IZR by lia. apply IZR_le. exact Hm.
Qed.

Lemma F_IZR : forall m, (Z.abs m <= 1024)%Z -> F (IZR m).
Proof.
  intros m Hm. rewrite <- (Rmult_1_r (IZR m)). change 1 with (b2 0). apply F_small_int.
  pose proof (Z.pow_le_mono_r 2 10 p ltac:(lia) Hp). change (2 ^ 10)%Z with 1024%Z in *. lia.
Qed.

Lemma nofpos_F : forall m, (Zpos m <= 1024)%Z -> @nofpos R (NumF p) m = IZR (Zpos m).
Proof.
  induction m as [m IH|m IH|]; intros Hm; cbn [nofpos].
  - rewrite IH by lia. cbn [nadd n1 NumF].
    rewrite <- plus_IZR, (rd_id (IZR _)) by (apply F_IZR; lia).
    rewrite <- plus_IZR, rd_id by (apply F_IZR; lia). f_equal. lia.
  - rewrite IH by lia. cbn [nadd NumF]. rewrite <- plus_IZR, rd_id by (apply F_IZR; lia). f_equal. lia.
  - reflexivity.
Qed.

Lemma nofZ_F : forall m, (Z.abs m <= 1024)%Z -> @nofZ R (NumF p) m = IZR m.
Proof.
  intros [|m|m] Hm; cbn [nofZ]; [ reflexivity | apply nofpos_F; lia | ].
  rewrite nofpos_F by lia. reflexivity.
Qed.

Lemma doubling : forall n lo s,
  forp lo n (fun _ x => @nmul R (NumF p) x (@nofZ R (NumF p) 2)) (b2 s) = b2 (s + Z.of_nat n).
Proof.
  induction n as [|n IH]; intros lo s; cbn [forp].
  - f_equal. lia.
  - assert (E : @nmul R (NumF p) (b2 s) (@nofZ R (NumF p) 2) = b2 (s + 1)).
    { rewrite nofZ_F by lia. cbn [nmul NumF].
      replace (b2 s * 2) with (b2 (s + 1)) by (rewrite b2_plus1; ring).
      apply rd_id. apply (F_mult _ (s + 1)); [ apply mult_b2; lia | ].
      rewrite Rabs_pos_eq by (apply Rlt_le, b2_pos). apply bpow_le. lia. }
    rewrite E, IH. f_equal. lia.
Qed.

Definition half_digits : Z := p - Z.div2 p.

Ltac half_d := rewrite ?Z.div2_div; pose proof (Z.div_mod p 2 ltac:(lia));
  pose proof (Z.mod_pos_bound p 2 ltac:(lia)); lia.

Lemma splitter_eq : @rp_splitter R (NumF p) (Z.to_nat p) = b2 half_digits + 1.
Proof.
  unfold rp_splitter. change (@n1 R (NumF p)) with (b2 0) at 1. rewrite doubling.
  replace (0 + Z.of_nat ((Z.to_nat p + 1) / 2))%Z with half_digits.
  2:{ unfold half_digits. rewrite Z.div2_div, Nat2Z.inj_div, Nat2Z.inj_add, Z2Nat.id by lia.
      change (Z.of_nat 1) with 1%Z. change (Z.of_nat 2) with 2%Z.
      pose proof (Z.div_mod p 2 ltac:(lia)). pose proof (Z.mod_pos_bound p 2 ltac:(lia)).
      pose proof (Z.div_mod (p + 1) 2 ltac:(lia)). pose proof (Z.mod_pos_bound (p + 1) 2 ltac:(lia)). lia. }
  cbn [nadd n1 NumF]. apply rd_id. apply (F_mult _ 0).
  - apply mult_add; [ apply mult_b2; unfold half_digits; half_d | exists 1%Z; simpl; ring ].
  - rewrite Rabs_pos_eq by (pose proof (b2_pos half_digits); lra).
    replace (0 + p)%Z with (p - 1 + 1)%Z by lia. rewrite b2_plus1.
    assert (b2 half_digits <= b2 (p - 1)) by (apply bpow_le; unfold half_digits; half_d).
    assert (1 <= b2 (p - 1)) by (change 1 with (b2 0); apply bpow_le; lia). lra.
Qed.

Lemma two_product_exact : forall a b, F a -> F b ->
  @two_product R (NumF p) (Z.to_nat p) a b = (rd (a * b), a * b - rd (a * b)).
Proof.
  intros a b Ha Hb. destruct (common a b Ha Hb) as [s0 [Ma Mb]].
  set (s := Z.min 0 s0).
  apply (mult_le _ s) in Ma; [ | unfold s; lia ]. apply (mult_le _ s) in Mb; [ | unfold s; lia ].
  unfold two_product, split. rewrite splitter_eq. cbn [nadd nsub nmul NumF]. f_equal.
  set (e := (2 * s - 2 * p)%Z).
  assert (He : (e + p <= s + 1)%Z) by (unfold e, s; lia).
  assert (He2 : (e + p <= s + s + 1)%Z) by (unfold e, s; lia).
  destruct (Dekker radix2 e p (fun z => negb (Z.even z)) ltac:(lia) ltac:(unfold e, s; lia)
    b a (F_FLT e s b He Mb Hb) (F_FLT e s a He Ma Ha) (or_introl eq_refl)) as [H _].
  assert (H0 : b * a = 0 \/ b2 (e + 2 * p - 1) <= Rabs (b * a)).
  { destruct (Req_dec (b * a) 0) as [E|N]; [ left; exact E | right ].
    apply Rle_trans with (b2 (s + s)); [ apply bpow_le; unfold e; lia | ].
    apply mult_ge; [ apply mult_mul; assumption | exact N ]. }
  specialize (H H0). clear H0.
  change (round radix2 (FLT_exp e p) (Znearest (fun z : Z => negb (Z.even z)))) with (nr e) in H.
  fold half_digits in H.
  assert (MS : mult 0 (b2 half_digits + 1)).
  { apply mult_add; [ apply mult_b2; unfold half_digits; half_d | exists 1%Z; simpl; ring ]. }
  assert (C : forall x, mult s x -> mult s (x * (b2 half_digits + 1))).
  { intros x Hx. replace s with (s + 0)%Z by lia. apply mult_mul; assumption. }
  assert (D : forall x y, mult s x -> mult s y -> mult (s + s) (x * y)) by (intros; apply mult_mul; assumption).
  rewrite (nr_mult e s (b * (b2 half_digits + 1)) He), (nr_mult e s (a * (b2 half_digits + 1)) He) in H by (apply C; assumption).
  assert (MC : forall x, mult s x -> mult s (rd (x * (b2 half_digits + 1)))) by (intros; apply rd_mult, C; assumption).
  pose proof (MC a Ma) as MCa. pose proof (MC b Mb) as MCb. clear MC C.
  replace (rd ((b2 half_digits + 1) * a)) with (rd (a * (b2 half_digits + 1))) by (f_equal; ring).
  replace (rd ((b2 half_digits + 1) * b)) with (rd (b * (b2 half_digits + 1))) by (f_equal; ring).
  set (ca := rd (a * (b2 half_digits + 1))) in *. set (cb := rd (b * (b2 half_digits + 1))) in *.
  clearbody ca cb.
  rewrite (nr_mult e s (b - cb) He), (nr_mult e s (a - ca) He) in H by mlt.
  rewrite (nr_mult e s (rd (b - cb) + cb) He), (nr_mult e s (rd (a - ca) + ca) He) in H by mlt.
  replace (rd (ca - rd (ca - a))) with (rd (rd (a - ca) + ca)).
  2:{ replace (a - ca) with (- (ca - a)) by ring. rewrite rd_opp. f_equal. ring. }
  replace (rd (cb - rd (cb - b))) with (rd (rd (b - cb) + cb)).
  2:{ replace (b - cb) with (- (cb - b)) by ring. rewrite rd_opp. f_equal. ring. }
  assert (MHa : mult s (rd (rd (a - ca) + ca))) by mlt.
  assert (MHb : mult s (rd (rd (b - cb) + cb))) by mlt.
  set (ha := rd (rd (a - ca) + ca)) in *. set (hb := rd (rd (b - cb) + cb)) in *. clearbody ha hb.
  rewrite (nr_mult e s (b - hb) He), (nr_mult e s (a - ha) He) in H by mlt.
  assert (Mta : mult s (rd (a - ha))) by mlt. assert (Mtb : mult s (rd (b - hb))) by mlt.
  set (ta := rd (a - ha)) in *. set (tb := rd (b - hb)) in *. clearbody ta tb.
  pose proof (rd_mult _ _ (D _ _ MHb MHa)) as M1. pose proof (rd_mult _ _ (D _ _ MHb Mta)) as M2.
  pose proof (rd_mult _ _ (D _ _ Mtb MHa)) as M3. pose proof (rd_mult _ _ (D _ _ Mtb Mta)) as M4.
  pose proof (rd_mult _ _ (D _ _ Mb Ma)) as M5.
  rewrite (nr_mult e (s + s) (b * a) He2), (nr_mult e (s + s) (hb * ha) He2),
    (nr_mult e (s + s) (hb * ta) He2), (nr_mult e (s + s) (tb * ha) He2),
    (nr_mult e (s + s) (tb * ta) He2) in H by (apply D; assumption).
  rewrite (Rmult_comm ha hb), (Rmult_comm ta hb), (Rmult_comm ha tb), (Rmult_comm ta tb), (Rmult_comm a b).
  set (r := rd (b * a)) in *. set (q1 := rd (hb * ha)) in *. set (q2 := rd (hb * ta)) in *.
  set (q3 := rd (tb * ha)) in *. set (q4 := rd (tb * ta)) in *. clearbody r q1 q2 q3 q4.
  repeat match type of H with
  | context [nr e ?x] =>
    lazymatch x with context [nr e _] => fail | _ => rewrite (nr_mult e (s + s) x He2) in H by mlt end
  end.
  rewrite H.
  replace (- r + q1) with (- (r - q1)) by ring. rewrite (rd_opp (r - q1)).
  replace (- rd (r - q1) + q2) with (- (rd (r - q1) - q2)) by ring. rewrite (rd_opp (rd (r - q1) - q2)).
  replace (- rd (rd (r - q1) - q2) + q3) with (- (rd (rd (r - q1) - q2) - q3)) by ring.
  rewrite (rd_opp (rd (rd (r - q1) - q2) - q3)).
  match goal with |- ?x = r + ?y - r => replace y with x; [ ring | f_equal; ring ] end.
Qed.
End Prec.
