(** The exact-sign predicate with subnormal numbers: on a grid that is coarse enough no
    operation underflows. *)
From Coq Require Import Reals ZArith Bool Lia Lra List.
From Flocq Require Import Core.
From Verif Require Import Model_Base Model_Robust Spec_Robust Proof_Robust1 Proof_Robust2 Proof_Robust4 Proof_Robust5 Proof_Robust6.
Import ListNotations.
Open Scope R_scope.

Section Prec.
Variables e p : Z.
Hypothesis Hp : (10 <= p)%Z.
Notation F := (is_float p).
Notation rd := (fl p).
Notation u := (u p).
Notation NF := (NumF p).
Notation NT := (NumT e p).

Lemma flt_mult : forall t x, (e + p <= t + 1)%Z -> mult t x -> flt e p x = rd x.
Proof. intros t x Ht Hx. apply (nr_mult p e t); assumption. Qed.

Ltac mlt := repeat first [ assumption | apply rd_mult; [ exact Hp | ] | apply mult_add | apply mult_sub | apply mult_opp ].
Ltac tr t Ht :=
  repeat match goal with
  | |- context [flt e p ?x] =>
    lazymatch x with context [flt e p _] => fail | _ => rewrite (flt_mult t x Ht) by mlt end
  end.

Lemma two_sum_T : forall t a b, (e + p <= t + 1)%Z -> mult t a -> mult t b ->
  @two_sum R NT a b = @two_sum R NF a b /\ mult t (fst (@two_sum R NF a b)) /\ mult t (snd (@two_sum R NF a b)).
Proof.
  intros t a b Ht Ha Hb. unfold two_sum. cbn [nadd nsub NumT NumF fst snd].
  split; [ tr t Ht; reflexivity | ]. split; mlt.
Qed.
Lemma fast_two_sum_T : forall t a b, (e + p <= t + 1)%Z -> mult t a -> mult t b ->
  @fast_two_sum R NT a b = @fast_two_sum R NF a b /\
  mult t (fst (@fast_two_sum R NF a b)) /\ mult t (snd (@fast_two_sum R NF a b)).
Proof.
  intros t a b Ht Ha Hb. unfold fast_two_sum. cbn [nadd nsub NumT NumF fst snd].
  split; [ tr t Ht; reflexivity | ]. split; mlt.
Qed.
Lemma two_diff_tail_T : forall t a b x, (e + p <= t + 1)%Z -> mult t a -> mult t b -> mult t x ->
  @two_diff_tail R NT a b x = @two_diff_tail R NF a b x /\ mult t (@two_diff_tail R NF a b x).
Proof.
  intros t a b x Ht Ha Hb Hx. unfold two_diff_tail. cbn [nadd nsub NumT NumF].
  split; [ tr t Ht; reflexivity | ]. mlt.
Qed.
Lemma two_diff_T : forall t a b, (e + p <= t + 1)%Z -> mult t a -> mult t b ->
  @two_diff R NT a b = @two_diff R NF a b /\ mult t (fst (@two_diff R NF a b)) /\ mult t (snd (@two_diff R NF a b)).
Proof.
  intros t a b Ht Ha Hb. unfold two_diff. cbn [nsub NumT NumF fst snd].
  rewrite (flt_mult t (a - b) Ht) by mlt.
  assert (Mx : mult t (rd (a - b))) by mlt.
  destruct (two_diff_tail_T t a b (rd (a - b)) Ht Ha Hb Mx) as [E M]. rewrite E. repeat split; assumption.
Qed.
Lemma two_two_diff_T : forall t a1 a0 b1 b0, (e + p <= t + 1)%Z -> mult t a1 -> mult t a0 -> mult t b1 -> mult t b0 ->
  @two_two_diff R NT a1 a0 b1 b0 = @two_two_diff R NF a1 a0 b1 b0 /\
  Forall (mult t) (@two_two_diff R NF a1 a0 b1 b0).
Proof.
  intros t a1 a0 b1 b0 Ht H1 H2 H3 H4. unfold two_two_diff, two_one_diff.
  destruct (two_diff_T t a0 b0 Ht H2 H4) as [-> [M1 M2]].
  destruct (@two_diff R NF a0 b0) as [i x0]. cbn [fst snd] in *.
  destruct (two_sum_T t a1 i Ht H1 M1) as [-> [M3 M4]].
  destruct (@two_sum R NF a1 i) as [j z0]. cbn [fst snd] in *.
  destruct (two_diff_T t z0 b1 Ht M4 H3) as [-> [M5 M6]].
  destruct (@two_diff R NF z0 b1) as [i' x1]. cbn [fst snd] in *.
  destruct (two_sum_T t j i' Ht M3 M5) as [-> [M7 M8]].
  destruct (@two_sum R NF j i') as [x3 x2]. cbn [fst snd] in *.
  split; [ reflexivity | ]. repeat constructor; assumption.
Qed.

Lemma zeroelim_T : forall t h x, Forall (mult t) h -> mult t x -> Forall (mult t) (@zeroelim R NF h x).
Proof.
  intros t h x Hh Hx. unfold zeroelim. destruct (@neqb R NF x n0); [ exact Hh | ].
  apply Forall_app. split; [ exact Hh | constructor; [ exact Hx | constructor ] ].
Qed.

Lemma fes_loop_T : forall t fuel Q a b h, (e + p <= t + 1)%Z ->
  mult t Q -> Forall (mult t) a -> Forall (mult t) b -> Forall (mult t) h ->
  @fes_loop R NT fuel Q a b h = @fes_loop R NF fuel Q a b h /\
  forall r, @fes_loop R NF fuel Q a b h = Ok r -> mult t (fst r) /\ Forall (mult t) (snd r).
Proof.
  intros t fuel Q a b h Ht. revert Q a b h. induction fuel as [|fuel IH]; intros Q a b h HQ Ha Hb Hh.
  { cbn. split; [ reflexivity | discriminate ]. }
  cbn [fes_loop].
  assert (S : forall x a' b', mult t x -> Forall (mult t) a' -> Forall (mult t) b' ->
    (let (Qnew, hh) := @two_sum R NT Q x in @fes_loop R NT fuel Qnew a' b' (@zeroelim R NT h hh)) =
    (let (Qnew, hh) := @two_sum R NF Q x in @fes_loop R NF fuel Qnew a' b' (@zeroelim R NF h hh)) /\
    forall r, (let (Qnew, hh) := @two_sum R NF Q x in @fes_loop R NF fuel Qnew a' b' (@zeroelim R NF h hh)) = Ok r ->
      mult t (fst r) /\ Forall (mult t) (snd r)).
  { intros x a' b' Hx Ha' Hb'. destruct (two_sum_T t Q x Ht HQ Hx) as [-> [M1 M2]].
    destruct (@two_sum R NF Q x) as [Qn hh]. cbn [fst snd] in *.
    change (@zeroelim R NT h hh) with (@zeroelim R NF h hh).
    apply IH; auto. apply zeroelim_T; assumption. }
  destruct a as [|x a'], b as [|y b'].
  - split; [ reflexivity | ]. intros r E. injection E as <-. split; assumption.
  - inversion_clear Hb. apply S; auto.
  - inversion_clear Ha. apply S; auto.
  - change (@take_e R NT x y) with (@take_e R NF x y).
    inversion Ha; subst. inversion Hb; subst. destruct (@take_e R NF x y); apply S; auto.
Qed.

Lemma fes_T : forall t a b, (e + p <= t + 1)%Z -> Forall (mult t) a -> Forall (mult t) b ->
  @fast_expansion_sum R NT a b = @fast_expansion_sum R NF a b /\
  forall h, @fast_expansion_sum R NF a b = Ok h -> Forall (mult t) h.
Proof.
  intros t a b Ht Ha Hb. unfold fast_expansion_sum.
  destruct a as [|x a]; [ split; [ reflexivity | discriminate ] | ].
  destruct b as [|y b]; [ split; [ reflexivity | discriminate ] | ].
  assert (FIN : forall n Q a b h, mult t Q -> Forall (mult t) a -> Forall (mult t) b -> Forall (mult t) h ->
    (let* (Q, h) := @fes_loop R NT n Q a b h in
       Ok (if negb (@neqb R NT Q (@n0 R NT)) || (length h =? 0)%nat then h ++ [Q] else h)) =
    (let* (Q, h) := @fes_loop R NF n Q a b h in
       Ok (if negb (@neqb R NF Q (@n0 R NF)) || (length h =? 0)%nat then h ++ [Q] else h)) /\
    forall r, (let* (Q, h) := @fes_loop R NF n Q a b h in
       Ok (if negb (@neqb R NF Q (@n0 R NF)) || (length h =? 0)%nat then h ++ [Q] else h)) = Ok r -> Forall (mult t) r).
  { intros n Q a' b' h HQ Ha' Hb' Hh. destruct (fes_loop_T t n Q a' b' h Ht HQ Ha' Hb' Hh) as [E M]. rewrite E.
    split; [ reflexivity | ]. intros r Er.
    destruct (@fes_loop R NF n Q a' b' h) as [[Q2 h2]| | |] eqn:EL; cbn [bind] in Er; try discriminate.
    injection Er as <-. destruct (M _ eq_refl) as [M1 M2]. cbn [fst snd] in *.
    match goal with |- Forall _ (if ?b then _ else _) => destruct b end; [ | exact M2 ].
    apply Forall_app. split; [ exact M2 | constructor; [ exact M1 | constructor ] ]. }
  inversion Ha; subst. inversion Hb; subst.
  change (@take_e R NT) with (@take_e R NF).
  destruct (@take_e R NF x y).
  - destruct a as [|x2 a]; [ apply FIN; auto | ].
    match goal with H : Forall (mult t) (x2 :: a) |- _ => inversion H; subst end.
    destruct (@take_e R NF x2 y).
    + destruct (fast_two_sum_T t x2 x Ht) as [-> [M1 M2]]; auto.
      destruct (@fast_two_sum R NF x2 x) as [Qn hh]. cbn [fst snd] in *.
      change (@zeroelim R NT [] hh) with (@zeroelim R NF [] hh). apply FIN; auto. apply zeroelim_T; auto.
    + destruct (fast_two_sum_T t y x Ht) as [-> [M1 M2]]; auto.
      destruct (@fast_two_sum R NF y x) as [Qn hh]. cbn [fst snd] in *.
      change (@zeroelim R NT [] hh) with (@zeroelim R NF [] hh). apply FIN; auto. apply zeroelim_T; auto.
  - destruct b as [|y2 b]; [ apply FIN; auto | ].
    match goal with H : Forall (mult t) (y2 :: b) |- _ => inversion H; subst end.
    destruct (@take_e R NF x y2).
    + destruct (fast_two_sum_T t x y Ht) as [-> [M1 M2]]; auto.
      destruct (@fast_two_sum R NF x y) as [Qn hh]. cbn [fst snd] in *.
      change (@zeroelim R NT [] hh) with (@zeroelim R NF [] hh). apply FIN; auto. apply zeroelim_T; auto.
    + destruct (fast_two_sum_T t y2 y Ht) as [-> [M1 M2]]; auto.
      destruct (@fast_two_sum R NF y2 y) as [Qn hh]. cbn [fst snd] in *.
      change (@zeroelim R NT [] hh) with (@zeroelim R NF [] hh). apply FIN; auto. apply zeroelim_T; auto.
Qed.

(** * Constants *)
Hypothesis He : (e + 4 * p <= 0)%Z.

Lemma flt_F : forall t x, (e + p <= t + 1)%Z -> mult t x -> F x -> flt e p x = x.
Proof. intros t x Ht Hx HF. rewrite (flt_mult t) by assumption. apply rd_id. exact HF. Qed.

Lemma mult_IZR0 : forall m, mult 0 (IZR m).
Proof. intros m. exists m. simpl. ring. Qed.

Lemma nofpos_T : forall m, (Zpos m <= 1024)%Z -> @nofpos R NT m = IZR (Zpos m).
Proof.
  induction m as [m IH|m IH|]; intros Hm; cbn [nofpos].
  - rewrite IH by lia. cbn [nadd n1 NumT].
    rewrite <- plus_IZR, (flt_F 0 (IZR _)) by first [ lia | apply mult_IZR0 | apply F_IZR; lia ].
    rewrite <- plus_IZR, (flt_F 0) by first [ lia | apply mult_IZR0 | apply F_IZR; lia ]. f_equal. lia.
  - rewrite IH by lia. cbn [nadd NumT].
    rewrite <- plus_IZR, (flt_F 0) by first [ lia | apply mult_IZR0 | apply F_IZR; lia ]. f_equal. lia.
  - reflexivity.
Qed.
Lemma nofZ_T : forall m, (Z.abs m <= 1024)%Z -> @nofZ R NT m = IZR m.
Proof.
  intros [|m|m] Hm; cbn [nofZ]; [ reflexivity | apply nofpos_T; lia | ].
  rewrite nofpos_T by lia. reflexivity.
Qed.
Lemma doubling_T : forall n lo s, (0 <= s)%Z ->
  forp lo n (fun _ x => @nmul R NT x (@nofZ R NT 2)) (b2 s) = b2 (s + Z.of_nat n).
Proof.
  induction n as [|n IH]; intros lo s Hs; cbn [forp].
  - f_equal. lia.
  - assert (E : @nmul R NT (b2 s) (@nofZ R NT 2) = b2 (s + 1)).
    { rewrite nofZ_T by lia. cbn [nmul NumT].
      replace (b2 s * 2) with (b2 (s + 1)) by (rewrite b2_plus1; ring).
      apply (flt_F 0); [ lia | apply mult_b2; lia | ].
      apply (F_mult p Hp _ (s + 1)); [ apply mult_b2; lia | ].
      rewrite Rabs_pos_eq by (apply Rlt_le, b2_pos). apply bpow_le. lia. }
    rewrite E, IH by lia. f_equal. lia.
Qed.
Lemma splitter_T : @rp_splitter R NT (Z.to_nat p) = @rp_splitter R NF (Z.to_nat p).
Proof.
  unfold rp_splitter. change (@n1 R NT) with (b2 0) at 1. change (@n1 R NF) with (b2 0) at 1.
  rewrite doubling_T, (doubling p Hp) by lia. cbn [nadd n1 NumT NumF].
  apply (flt_mult 0); [ lia | ]. apply mult_add; [ apply mult_b2; lia | apply (mult_IZR0 1) ].
Qed.
Lemma splitter_mult : mult 0 (@rp_splitter R NF (Z.to_nat p)).
Proof.
  rewrite (splitter_eq p Hp). apply mult_add; [ apply mult_b2 | apply (mult_IZR0 1) ].
  unfold half_digits. rewrite Z.div2_div. pose proof (Z.div_mod p 2 ltac:(lia)).
  pose proof (Z.mod_pos_bound p 2 ltac:(lia)). lia.
Qed.

Lemma eps_T : @rp_epsilon R NT (b2 (1 - p)) = u.
Proof.
  rewrite <- (eps_eq p Hp). unfold rp_epsilon. rewrite nofZ_T, (nofZ_F p Hp) by lia. cbn [ndiv NumT NumF].
  apply (flt_mult (- p)); [ lia | ].
  exists 1%Z. replace (1 - p)%Z with (- p + 1)%Z by lia. rewrite b2_plus1. field.
Qed.
Lemma mult_u : mult (- p) u.
Proof. exists 1%Z. unfold Proof_Robust1.u. ring. Qed.

Lemma mul_u_T : forall k m,
  @nmul R NT (@nadd R NT (IZR k) (@nmul R NT (IZR m) u)) u
  = @nmul R NF (@nadd R NF (IZR k) (@nmul R NF (IZR m) u)) u /\
  mult (- p + - p) (@nmul R NF (@nadd R NF (IZR k) (@nmul R NF (IZR m) u)) u).
Proof.
  intros k m. cbn [nadd nmul NumT NumF].
  assert (M1 : mult (- p) (IZR m * u)).
  { replace (- p)%Z with (0 + - p)%Z by lia. apply mult_mul; [ apply mult_IZR0 | apply mult_u ]. }
  rewrite (flt_mult (- p) (IZR m * u)) by (auto; lia).
  assert (M2 : mult (- p) (IZR k + rd (IZR m * u))).
  { apply mult_add; [ apply (mult_le 0); [ lia | apply mult_IZR0 ] | apply rd_mult; auto ]. }
  rewrite (flt_mult (- p) (IZR k + _)) by (auto; lia).
  assert (M3 : mult (- p + - p) (rd (IZR k + rd (IZR m * u)) * u)).
  { apply mult_mul; [ apply rd_mult; auto | apply mult_u ]. }
  split; [ apply (flt_mult (- p + - p)); [ lia | exact M3 ] | apply rd_mult; auto ].
Qed.

Lemma A_T : @rp_A R NT (b2 (1 - p)) = @rp_A R NF (b2 (1 - p)) /\ mult (- p + - p) (@rp_A R NF (b2 (1 - p))).
Proof. unfold rp_A. rewrite !nofZ_T, !(nofZ_F p Hp), eps_T, (eps_eq p Hp) by lia. apply mul_u_T. Qed.
Lemma B_T : @rp_B R NT (b2 (1 - p)) = @rp_B R NF (b2 (1 - p)) /\ mult (- p + - p) (@rp_B R NF (b2 (1 - p))).
Proof. unfold rp_B. rewrite !nofZ_T, !(nofZ_F p Hp), eps_T, (eps_eq p Hp) by lia. apply mul_u_T. Qed.
Lemma res_T : @rp_result R NT (b2 (1 - p)) = @rp_result R NF (b2 (1 - p)) /\ mult (- p + - p) (@rp_result R NF (b2 (1 - p))).
Proof. unfold rp_result. rewrite !nofZ_T, !(nofZ_F p Hp), eps_T, (eps_eq p Hp) by lia. apply mul_u_T. Qed.
Lemma C_T : @rp_C R NT (b2 (1 - p)) = @rp_C R NF (b2 (1 - p)) /\ mult (- p + - p + - p) (@rp_C R NF (b2 (1 - p))).
Proof.
  unfold rp_C. rewrite !nofZ_T, !(nofZ_F p Hp), eps_T, (eps_eq p Hp) by lia.
  destruct (mul_u_T 9 64) as [-> M]. set (c := @nmul R NF _ _) in *.
  change (@nmul R NT c u) with (flt e p (c * u)). change (@nmul R NF c u) with (rd (c * u)).
  assert (M2 : mult (- p + - p + - p) (c * u)) by (apply mult_mul; [ exact M | apply mult_u ]).
  split; [ apply (flt_mult (- p + - p + - p)); [ lia | exact M2 ] | apply rd_mult; auto ].
Qed.

(** * The predicate *)
Variable s : Z.
Hypothesis Hs : (e + 4 * p <= 2 * s)%Z.
Hypothesis Hs0 : (s <= 0)%Z.

Lemma h1 : (e + p <= s + 1)%Z. Proof. lia. Qed.
Lemma h2 : (e + p <= s + s + 1)%Z. Proof. lia. Qed.

Lemma two_product_T : forall a b, mult s a -> mult s b ->
  @two_product R NT (Z.to_nat p) a b = @two_product R NF (Z.to_nat p) a b /\
  mult (s + s) (fst (@two_product R NF (Z.to_nat p) a b)) /\
  mult (s + s) (snd (@two_product R NF (Z.to_nat p) a b)).
Proof.
  intros a b Ha Hb. unfold two_product, split. rewrite splitter_T.
  pose proof splitter_mult as MS. set (S := @rp_splitter R NF (Z.to_nat p)) in *. clearbody S.
  cbn [nadd nsub nmul NumT NumF].
  assert (C : forall x, mult s x -> mult s (S * x)).
  { intros x Hx. replace s with (0 + s)%Z by lia. apply mult_mul; assumption. }
  rewrite (flt_mult s (S * a) h1), (flt_mult s (S * b) h1) by (apply C; assumption).
  pose proof (rd_mult p Hp _ _ (C a Ha)) as Ca. pose proof (rd_mult p Hp _ _ (C b Hb)) as Cb.
  set (ca := rd (S * a)) in *. set (cb := rd (S * b)) in *. clearbody ca cb.
  tr s h1.
  rewrite (flt_mult s (rd (ca - rd (ca - a))) h1) || idtac.
  assert (Mha : mult s (rd (ca - rd (ca - a)))) by mlt. assert (Mhb : mult s (rd (cb - rd (cb - b)))) by mlt.
  set (ha := rd (ca - rd (ca - a))) in *. set (hb := rd (cb - rd (cb - b))) in *. clearbody ha hb.
  assert (Mta : mult s (rd (a - ha))) by mlt. assert (Mtb : mult s (rd (b - hb))) by mlt.
  set (ta := rd (a - ha)) in *. set (tb := rd (b - hb)) in *. clearbody ta tb.
  assert (D : forall x y, mult s x -> mult s y -> mult (s + s) (x * y)) by (intros; apply mult_mul; assumption).
  rewrite (flt_mult (s + s) (a * b) h2), (flt_mult (s + s) (ha * hb) h2), (flt_mult (s + s) (ta * hb) h2),
    (flt_mult (s + s) (ha * tb) h2), (flt_mult (s + s) (ta * tb) h2) by (apply D; assumption).
  pose proof (rd_mult p Hp _ _ (D _ _ Ha Hb)). pose proof (rd_mult p Hp _ _ (D _ _ Mha Mhb)).
  pose proof (rd_mult p Hp _ _ (D _ _ Mta Mhb)). pose proof (rd_mult p Hp _ _ (D _ _ Mha Mtb)).
  pose proof (rd_mult p Hp _ _ (D _ _ Mta Mtb)).
  set (q0 := rd (a * b)) in *. set (q1 := rd (ha * hb)) in *. set (q2 := rd (ta * hb)) in *.
  set (q3 := rd (ha * tb)) in *. set (q4 := rd (ta * tb)) in *. clearbody q0 q1 q2 q3 q4.
  cbn [fst snd].
  split; [ tr (s + s)%Z h2; reflexivity | ]. split; mlt.
Qed.

Lemma estimate_T : forall l t, (e + p <= t + 1)%Z -> Forall (mult t) l ->
  @estimate R NT l = @estimate R NF l /\ forall r, @estimate R NF l = Ok r -> mult t r.
Proof.
  intros [|q l] t Ht Hl; [ split; [ reflexivity | discriminate ] | ]. unfold estimate.
  inversion Hl as [|? ? Hq Hl']; subst. clear Hl.
  assert (G : fold_left (@nadd R NT) l q = fold_left (@nadd R NF) l q /\ mult t (fold_left (@nadd R NF) l q)).
  { revert q Hq. induction Hl' as [|x l Hx Hl IH]; intros q Hq; cbn [fold_left]; [ auto | ].
    change (@nadd R NT q x) with (flt e p (q + x)). change (@nadd R NF q x) with (rd (q + x)).
    rewrite (flt_mult t (q + x) Ht) by mlt. apply IH. mlt. }
  destruct G as [G1 G2]. rewrite G1. split; [ reflexivity | ]. intros r Er. injection Er as <-. exact G2.
Qed.

Lemma filter_T : forall c d, mult (- p + - p + - p) c -> mult (s + s) d ->
  flt e p (c * d) = rd (c * d) /\ mult (- p + - p + - p + (s + s)) (rd (c * d)).
Proof.
  intros c d Hc Hd. assert (M : mult (- p + - p + - p + (s + s)) (c * d)) by (apply mult_mul; assumption).
  split; [ apply (flt_mult (- p + - p + - p + (s + s))); [ lia | exact M ] | apply rd_mult; auto ].
Qed.

Section Pts.
Variables ax ay bx by_ cx cy : R.
Hypothesis Max : mult s ax. Hypothesis May : mult s ay. Hypothesis Mbx : mult s bx.
Hypothesis Mby : mult s by_. Hypothesis Mcx : mult s cx. Hypothesis Mcy : mult s cy.

Lemma adapt_T : forall d, mult (s + s) d ->
  @orient2d_adapt R NT (Z.to_nat p) (b2 (1 - p)) (ax, ay) (bx, by_) (cx, cy) d =
  @orient2d_adapt R NF (Z.to_nat p) (b2 (1 - p)) (ax, ay) (bx, by_) (cx, cy) d.
Proof.
  intros d Hd. unfold orient2d_adapt, p2x, p2y. cbn [fst snd].
  destruct B_T as [-> MB]. destruct C_T as [-> MC]. destruct res_T as [-> MR].
  set (kB := @rp_B R NF (b2 (1 - p))) in *. set (kC := @rp_C R NF (b2 (1 - p))) in *. set (kR := @rp_result R NF (b2 (1 - p))) in *.
  clearbody kB kC kR.
  apply (mult_le _ (- p + - p + - p)) in MB, MR; try lia.
  assert (sub1 : forall x y, mult s x -> mult s y -> @nsub R NT x y = @nsub R NF x y /\ mult s (@nsub R NF x y)).
  { intros x y Hx Hy. cbn [nsub NumT NumF]. split; [ apply (flt_mult s _ h1) | ]; mlt. }
  destruct (sub1 ax cx Max Mcx) as [-> M1]. destruct (sub1 bx cx Mbx Mcx) as [-> M2].
  destruct (sub1 ay cy May Mcy) as [-> M3]. destruct (sub1 by_ cy Mby Mcy) as [-> M4].
  set (acx := @nsub R NF ax cx) in *. set (bcx := @nsub R NF bx cx) in *.
  set (acy := @nsub R NF ay cy) in *. set (bcy := @nsub R NF by_ cy) in *.
  destruct (two_diff_tail_T s ax cx acx h1 Max Mcx M1) as [-> T1].
  destruct (two_diff_tail_T s bx cx bcx h1 Mbx Mcx M2) as [-> T2].
  destruct (two_diff_tail_T s ay cy acy h1 May Mcy M3) as [-> T3].
  destruct (two_diff_tail_T s by_ cy bcy h1 Mby Mcy M4) as [-> T4].
  set (tax := @two_diff_tail R NF ax cx acx) in *. set (tbx := @two_diff_tail R NF bx cx bcx) in *.
  set (tay := @two_diff_tail R NF ay cy acy) in *. set (tby := @two_diff_tail R NF by_ cy bcy) in *.
  clearbody acx bcx acy bcy tax tbx tay tby.
  destruct (two_product_T acx bcy M1 M4) as [-> [P1 P2]]. destruct (@two_product R NF (Z.to_nat p) acx bcy) as [dl dlt].
  destruct (two_product_T acy bcx M3 M2) as [-> [P3 P4]]. destruct (@two_product R NF (Z.to_nat p) acy bcx) as [dr drt].
  destruct (two_product_T tax bcy T1 M4) as [-> [P5 P6]]. destruct (@two_product R NF (Z.to_nat p) tax bcy) as [s1 s0].
  destruct (two_product_T tay bcx T3 M2) as [-> [P7 P8]]. destruct (@two_product R NF (Z.to_nat p) tay bcx) as [t1 t0].
  destruct (two_product_T acx tby M1 T4) as [-> [P9 P10]]. destruct (@two_product R NF (Z.to_nat p) acx tby) as [s3 s2].
  destruct (two_product_T acy tbx M3 T2) as [-> [P11 P12]]. destruct (@two_product R NF (Z.to_nat p) acy tbx) as [t3 t2].
  destruct (two_product_T tax tby T1 T4) as [-> [P13 P14]]. destruct (@two_product R NF (Z.to_nat p) tax tby) as [s5 s4].
  destruct (two_product_T tay tbx T3 T2) as [-> [P15 P16]]. destruct (@two_product R NF (Z.to_nat p) tay tbx) as [t5 t4].
  cbn [fst snd] in *.
  destruct (two_two_diff_T (s + s) dl dlt dr drt h2) as [-> L1]; auto.
  destruct (two_two_diff_T (s + s) s1 s0 t1 t0 h2) as [-> L2]; auto.
  destruct (two_two_diff_T (s + s) s3 s2 t3 t2 h2) as [-> L3]; auto.
  destruct (two_two_diff_T (s + s) s5 s4 t5 t4 h2) as [-> L4]; auto.
  set (B := @two_two_diff R NF dl dlt dr drt) in *. set (U1 := @two_two_diff R NF s1 s0 t1 t0) in *.
  set (U2 := @two_two_diff R NF s3 s2 t3 t2) in *. set (U3 := @two_two_diff R NF s5 s4 t5 t4) in *.
  clearbody B U1 U2 U3.
  destruct (estimate_T B (s + s) h2 L1) as [-> ME]. destruct (@estimate R NF B) as [det| | |]; cbn [bind]; auto.
  specialize (ME det eq_refl).
  change (@nmul R NT kB d) with (flt e p (kB * d)). change (@nmul R NF kB d) with (rd (kB * d)).
  destruct (filter_T kB d MB Hd) as [-> _].
  change (@decided R NT) with (@decided R NF). change (@neqb R NT) with (@neqb R NF). change (@n0 R NT) with (@n0 R NF).
  destruct (@decided R NF det (rd (kB * d))); auto.
  match goal with |- (if ?b then _ else _) = _ => destruct b end; auto.
  change (@nabs R NT det) with (@nabs R NF det).
  assert (Mabs : mult (s + s) (@nabs R NF det)) by (rewrite (nabs_F p); apply mult_abs; exact ME).
  assert (EB : @nadd R NT (@nmul R NT kC d) (@nmul R NT kR (@nabs R NF det)) = @nadd R NF (@nmul R NF kC d) (@nmul R NF kR (@nabs R NF det))).
  { cbn [nadd nmul NumT NumF]. destruct (filter_T kC d MC Hd) as [-> W1]. destruct (filter_T kR _ MR Mabs) as [-> W2].
    apply (flt_mult (- p + - p + - p + (s + s))); [ lia | mlt ]. }
  rewrite EB. clear EB.
  assert (ED : @nadd R NT det (@nsub R NT (@nadd R NT (@nmul R NT acx tby) (@nmul R NT bcy tax)) (@nadd R NT (@nmul R NT acy tbx) (@nmul R NT bcx tay))) =
    @nadd R NF det (@nsub R NF (@nadd R NF (@nmul R NF acx tby) (@nmul R NF bcy tax)) (@nadd R NF (@nmul R NF acy tbx) (@nmul R NF bcx tay)))).
  { cbn [nadd nsub nmul NumT NumF].
    assert (D : forall x y, mult s x -> mult s y -> mult (s + s) (x * y)) by (intros; apply mult_mul; assumption).
    rewrite !(flt_mult (s + s) (_ * _) h2) by (apply D; assumption).
    pose proof (rd_mult p Hp _ _ (D _ _ M1 T4)). pose proof (rd_mult p Hp _ _ (D _ _ M4 T1)).
    pose proof (rd_mult p Hp _ _ (D _ _ M3 T2)). pose proof (rd_mult p Hp _ _ (D _ _ M2 T3)).
    tr (s + s)%Z h2. reflexivity. }
  rewrite ED. clear ED.
  match goal with |- (if ?b then _ else _) = _ => destruct b end; auto.
  destruct (fes_T (s + s) B U1 h2 L1 L2) as [-> G1]. destruct (@fast_expansion_sum R NF B U1) as [C1| | |]; cbn [bind]; auto.
  unfold fits at 1 4. destruct (length C1 <=? 8)%nat; cbn [bind]; auto.
  destruct (fes_T (s + s) C1 U2 h2 (G1 _ eq_refl) L3) as [-> G2]. destruct (@fast_expansion_sum R NF C1 U2) as [C2| | |]; cbn [bind]; auto.
  unfold fits at 1 3. destruct (length C2 <=? 12)%nat; cbn [bind]; auto.
  destruct (fes_T (s + s) C2 U3 h2 (G2 _ eq_refl) L4) as [-> G3]. reflexivity.
Qed.

Lemma orient2d_T : ieee_orient2d e p (ax, ay) (bx, by_) (cx, cy) = float_orient2d p (ax, ay) (bx, by_) (cx, cy).
Proof.
  unfold ieee_orient2d, float_orient2d, robust_orient2d, p2x, p2y. cbn [fst snd].
  destruct A_T as [-> MA]. set (kA := @rp_A R NF (b2 (1 - p))) in *. clearbody kA.
  apply (mult_le _ (- p + - p + - p)) in MA; [ | lia ].
  assert (EP : forall x y z w, mult s x -> mult s y -> mult s z -> mult s w ->
    @nmul R NT (@nsub R NT x y) (@nsub R NT z w) = @nmul R NF (@nsub R NF x y) (@nsub R NF z w) /\
    mult (s + s) (@nmul R NF (@nsub R NF x y) (@nsub R NF z w))).
  { intros x y z w Hx Hy Hz Hw. cbn [nmul nsub NumT NumF]. tr s h1.
    assert (M : mult (s + s) (rd (x - y) * rd (z - w))) by (apply mult_mul; mlt).
    split; [ apply (flt_mult (s + s) _ h2 M) | apply rd_mult; auto ]. }
  destruct (EP ax cx by_ cy Max Mcx Mby Mcy) as [-> M1]. destruct (EP ay cy bx cx May Mcy Mbx Mcx) as [-> M2].
  set (dl := @nmul R NF (@nsub R NF ax cx) _) in *. set (dr := @nmul R NF (@nsub R NF ay cy) _) in *. clearbody dl dr.
  assert (E1 : @nsub R NT dl dr = @nsub R NF dl dr) by (cbn [nsub NumT NumF]; apply (flt_mult (s + s) _ h2); mlt).
  assert (E2 : @nadd R NT dl dr = @nadd R NF dl dr) by (cbn [nadd NumT NumF]; apply (flt_mult (s + s) _ h2); mlt).
  assert (E3 : @nsub R NT (@nopp R NT dl) dr = @nsub R NF (@nopp R NF dl) dr) by (cbn [nsub nopp NumT NumF]; apply (flt_mult (s + s) _ h2); mlt).
  rewrite E1, E2, E3.
  assert (M3 : mult (s + s) (@nadd R NF dl dr)) by (cbn [nadd NumF]; mlt).
  assert (M4 : mult (s + s) (@nsub R NF (@nopp R NF dl) dr)) by (cbn [nsub nopp NumF]; mlt).
  rewrite !adapt_T by assumption.
  assert (E4 : forall x, mult (s + s) x -> @nmul R NT kA x = @nmul R NF kA x).
  { intros x Hx. destruct (filter_T kA x MA Hx) as [W _]. exact W. }
  rewrite !E4 by assumption. reflexivity.
Qed.
End Pts.
End Prec.

Lemma ieee_ok : forall emin p s a b c, (10 <= p)%Z -> (emin + 4 * p <= 0)%Z -> (emin + 4 * p <= 2 * s)%Z ->
  grid_point p s a -> grid_point p s b -> grid_point p s c ->
  exists r, ieee_orient2d emin p a b c = Ok r /\ same_sign r (det2 a b c).
Proof.
  intros emin p s0 [ax ay] [bx by_] [cx cy] Hp He Hs
    [Fax [Fay [m1 [m2 [Ea1 Ea2]]]]] [Fbx [Fby [m3 [m4 [Eb1 Eb2]]]]] [Fcx [Fcy [m5 [m6 [Ec1 Ec2]]]]].
  cbn [fst snd] in *. set (s := Z.min s0 0).
  assert (M : forall x, (exists m, x = IZR m * b2 s0) -> mult s x).
  { intros x Hx. apply (mult_le s0); [ unfold s; lia | exact Hx ]. }
  rewrite (orient2d_T emin p Hp He s) by (unfold s in *; try lia; apply M; eauto).
  apply orient2d_ok; assumption.
Qed.
