(** The exact-sign predicate. *)
From Coq Require Import Reals ZArith Bool Lia Lra List.
From Flocq Require Import Core.
From Verif Require Import Model_Base Model_Robust Spec_Robust Proof_Robust1 Proof_Robust2 Proof_Robust4 Proof_Robust5.
Import ListNotations.
Open Scope R_scope.

Section Prec.
Variable p : Z.
Hypothesis Hp : (10 <= p)%Z.
Notation F := (is_float p).
Notation rd := (fl p).
Notation u := (u p).

Lemma F_const : forall k m e s, (0 <= k)%Z -> (0 <= m)%Z -> (0 <= e <= 6)%Z ->
  (2 * k <= 2 ^ e)%Z -> (m <= 8)%Z ->
  F ((IZR k + IZR m * b2 e * u) * b2 s).
Proof.
  intros k m e s Hk Hm He Hb Hm8. apply (F_mult p Hp _ (e - p + s)).
  - apply mult_mul; [ | exists 1%Z; ring ]. apply mult_add.
    + apply (mult_le 0); [ lia | ]. exists k. simpl. ring.
    + exists m. unfold Proof_Robust1.u. rewrite Rmult_assoc, <- bpow_plus. f_equal.
  - pose proof (b2_pos s) as P1. pose proof (u_pos p) as P2. pose proof (b2_pos e) as P3.
    replace (e - p + s + p)%Z with (e + s)%Z by lia. rewrite bpow_plus.
    apply IZR_le in Hk, Hm, Hm8, Hb. rewrite mult_IZR, <- b2_IZR in Hb by lia.
    assert (G : 0 <= IZR m * b2 e * u) by (apply Rmult_le_pos; [ apply Rmult_le_pos | ]; lra).
    rewrite Rabs_pos_eq by (apply Rmult_le_pos; lra).
    apply Rmult_le_compat_r; [ lra | ].
    pose proof (u_small p Hp).
    assert (IZR m * u <= 1 / 2) by nra. nra.
Qed.

Lemma eps_eq : @rp_epsilon R (NumF p) (b2 (1 - p)) = u.
Proof.
  unfold rp_epsilon. rewrite (nofZ_F p Hp) by lia. cbn [ndiv NumF].
  replace (b2 (1 - p) / 2) with u.
  - apply rd_id. apply (F_mult p Hp _ (- p)); [ exists 1%Z; unfold Proof_Robust1.u; ring | ].
    unfold Proof_Robust1.u. rewrite Rabs_pos_eq by (apply Rlt_le, b2_pos). apply bpow_le. lia.
  - unfold Proof_Robust1.u. replace (1 - p)%Z with (- p + 1)%Z by lia. rewrite b2_plus1. field.
Qed.

(** The bounds are exact *)
Lemma F_u : forall m e, (0 <= m <= 8)%Z -> (0 <= e <= 6)%Z -> F (IZR m * b2 e * u).
Proof.
  intros m e Hm He. unfold Proof_Robust1.u. rewrite Rmult_assoc, <- bpow_plus. apply F_small_int; [ exact Hp | ].
  pose proof (Z.pow_le_mono_r 2 10 p ltac:(lia) Hp). change (2 ^ 10)%Z with 1024%Z in *. lia.
Qed.

Lemma mul_u : forall k m e, (0 <= k)%Z -> (0 <= m)%Z -> (0 <= e <= 6)%Z -> (2 * k <= 2 ^ e)%Z -> (m <= 8)%Z ->
  @nmul R (NumF p) (@nadd R (NumF p) (IZR k) (@nmul R (NumF p) (IZR m * b2 e) u)) u
  = (IZR k + IZR m * b2 e * u) * u.
Proof.
  intros k m e H1 H2 H3 H4 H5. cbn [nadd nmul NumF].
  rewrite (rd_id p (IZR m * b2 e * u)) by (apply F_u; lia).
  rewrite (rd_id p (IZR k + _)).
  - apply rd_id. apply F_const; assumption.
  - rewrite <- (Rmult_1_r (IZR k + _)). apply (F_const k m e 0); assumption.
Qed.

Lemma A_eq : @rp_A R (NumF p) (b2 (1 - p)) = (3 + 16 * u) * u.
Proof.
  unfold rp_A. rewrite !(nofZ_F p Hp), eps_eq by lia.
  replace 16 with (IZR 2 * b2 3) by (simpl; lra). apply mul_u; lia.
Qed.
Lemma B_eq : @rp_B R (NumF p) (b2 (1 - p)) = (2 + 12 * u) * u.
Proof.
  unfold rp_B. rewrite !(nofZ_F p Hp), eps_eq by lia.
  replace 12 with (IZR 3 * b2 2) by (simpl; lra). apply mul_u; lia.
Qed.
Lemma res_eq : @rp_result R (NumF p) (b2 (1 - p)) = (3 + 8 * u) * u.
Proof.
  unfold rp_result. rewrite !(nofZ_F p Hp), eps_eq by lia.
  replace 8 with (IZR 1 * b2 3) by (simpl; lra). apply mul_u; lia.
Qed.
Lemma C_eq : @rp_C R (NumF p) (b2 (1 - p)) = (9 + 64 * u) * u * u.
Proof.
  unfold rp_C. rewrite !(nofZ_F p Hp), eps_eq by lia.
  replace 64 with (IZR 2 * b2 5) by (simpl; lra). rewrite mul_u by lia. cbn [nmul NumF].
  apply rd_id. rewrite Rmult_assoc. unfold Proof_Robust1.u at 2 3. rewrite <- bpow_plus.
  apply F_const; lia.
Qed.

Lemma decided_true : forall d b, @decided R (NumF p) d b = true -> b <= Rabs d.
Proof.
  intros d b. unfold decided. cbn [nleb nopp NumF].
  destruct (Rle_dec b d), (Rle_dec b (- d)); cbn; intros E; try discriminate;
    unfold Rabs; destruct (Rcase_abs d); lra.
Qed.

Lemma nabs_F : forall x, @nabs R (NumF p) x = Rabs x.
Proof.
  intros x. unfold nabs. cbn [nltb nopp n0 NumF]. unfold Rabs.
  destruct (Rlt_dec x 0), (Rcase_abs x); lra.
Qed.

Lemma four_expansion : forall x0 x1 x2 x3, F x0 -> F x1 -> F x2 -> F x3 ->
  NA (Rabs x0) x1 -> NA (Rabs x0 + Rabs x1) x2 -> NA (Rabs x0 + Rabs x1 + Rabs x2) x3 ->
  expansion p [x0; x1; x2; x3].
Proof.
  intros x0 x1 x2 x3 F0 F1 F2 F3 N1 N2 N3.
  pose proof (Rabs_pos x0). pose proof (Rabs_pos x1). pose proof (Rabs_pos x2).
  split; [ discriminate | ]. split.
  - intros x [<-|[<-|[<-|[<-|[]]]]]; assumption.
  - cbn [I4]. rewrite Rplus_0_l.
    pose proof (NA_F p x0 F0) as N0.
    repeat split; apply NA_I4; auto; lra.
Qed.

Lemma good_expansion : forall t n h, good_sum p t n h -> expansion p h.
Proof. intros t n h [H _]. exact H. Qed.

Lemma fits_ok : forall n (h : list R), (length h <= n)%nat -> fits n h = Ok h.
Proof. intros n h Hh. unfold fits. apply Nat.leb_le in Hh. rewrite Hh. reflexivity. Qed.

Section Main.
Variables ax ay bx by_ cx cy : R.
Hypothesis Fax : F ax. Hypothesis Fay : F ay. Hypothesis Fbx : F bx.
Hypothesis Fby : F by_. Hypothesis Fcx : F cx. Hypothesis Fcy : F cy.

Lemma tail_F : forall x y, F x -> F y -> F (x - y - rd (x - y)).
Proof. intros x y Hx Hy. apply (err_F p Hp x (- y)); [ exact Hx | apply F_opp; exact Hy ]. Qed.

Lemma adapt_ok : forall s, 0 < s ->
  Rabs (rd (rd (ax - cx) * rd (by_ - cy))) + Rabs (rd (rd (ay - cy) * rd (bx - cx))) <= (1 + u) * s ->
  exists r, @orient2d_adapt R (NumF p) (Z.to_nat p) (b2 (1 - p)) (ax, ay) (bx, by_) (cx, cy) s = Ok r /\
    same_sign r (det2 (ax, ay) (bx, by_) (cx, cy)).
Proof.
  intros s Ps Hs. unfold orient2d_adapt, p2x, p2y, det2. cbn [fst snd].
  rewrite B_eq, C_eq, res_eq.
  change (@nsub R (NumF p) ax cx) with (rd (ax - cx)). change (@nsub R (NumF p) bx cx) with (rd (bx - cx)).
  change (@nsub R (NumF p) ay cy) with (rd (ay - cy)). change (@nsub R (NumF p) by_ cy) with (rd (by_ - cy)).
  pose proof (stageB p Hp ax ay bx by_ cx cy s Ps Hs) as SB.
  pose proof (stage0 p Hp ax ay bx by_ cx cy) as S0.
  pose proof (stageC p Hp ax ay bx by_ cx cy s Ps Hs) as SC.
  pose proof (D_split p ax ay bx by_ cx cy) as DS.
  rewrite !(two_diff_tail_exact p Hp) by assumption.
  pose proof (tail_F ax cx Fax Fcx) as Ft1. pose proof (tail_F bx cx Fbx Fcx) as Ft2.
  pose proof (tail_F ay cy Fay Fcy) as Ft3. pose proof (tail_F by_ cy Fby Fcy) as Ft4.
  assert (Fa1 : F (rd (ax - cx))) by (apply F_rd, Hp). assert (Fa2 : F (rd (bx - cx))) by (apply F_rd, Hp).
  assert (Fa3 : F (rd (ay - cy))) by (apply F_rd, Hp). assert (Fa4 : F (rd (by_ - cy))) by (apply F_rd, Hp).
  set (D := (ax - cx) * (by_ - cy) - (ay - cy) * (bx - cx)) in *.
  set (acx := rd (ax - cx)) in *. set (bcx := rd (bx - cx)) in *.
  set (acy := rd (ay - cy)) in *. set (bcy := rd (by_ - cy)) in *.
  set (tax := ax - cx - acx) in *. set (tbx := bx - cx - bcx) in *.
  set (tay := ay - cy - acy) in *. set (tby := by_ - cy - bcy) in *.
  clearbody acx bcx acy bcy tax tbx tay tby D.
  rewrite !(two_product_exact p Hp) by assumption.
  destruct (two_two_diff_ok p Hp acx bcy acy bcx) as [x0 [x1 [x2 [x3 [EB [SumB [F0 [F1 [F2 [F3 [N1 [N2 [N3 HV]]]]]]]]]]]]]; try assumption.
  cbn zeta in EB. rewrite EB. unfold estimate. cbn [fold_left bind nadd NumF].
  pose proof (est_err p Hp x0 x1 x2 x3 N2 N3 F0 F1 F2 F3 HV) as Hdet. cbn zeta in Hdet. rewrite SumB in Hdet.
  pose proof (four_expansion x0 x1 x2 x3 F0 F1 F2 F3 N1 N2 N3) as XB.
  set (det := rd (rd (rd (x0 + x1) + x2) + x3)) in *. clearbody det.
  specialize (SB det Hdet). specialize (S0 det Hdet). specialize (SC det Hdet). cbn zeta in SC.
  cbn [nmul nadd nsub n0 NumF]. rewrite nabs_F, !neqb_F.
  destruct (@decided R (NumF p) det (rd ((2 + 12 * u) * u * s))) eqn:E1.
  { exists det. split; [ reflexivity | ]. apply SB. apply decided_true. exact E1. }
  destruct (Req_EM_T tax 0) as [Z1|Z1], (Req_EM_T tay 0) as [Z2|Z2], (Req_EM_T tbx 0) as [Z3|Z3],
    (Req_EM_T tby 0) as [Z4|Z4]; cbn [andb];
    try (exists det; split; [ reflexivity | apply S0; assumption ]).
  all: clear SB S0.
  all: match goal with |- context [@decided R (NumF p) ?d ?b] => destruct (@decided R (NumF p) d b) eqn:E2 end;
    [ eexists; split; [ reflexivity | ]; apply SC; apply decided_true; exact E2 | ].
  all: clear SC E1 E2.
  all: destruct (two_two_diff_ok p Hp tax bcy tay bcx) as [y0 [y1 [y2 [y3 [EY [SumY [G0 [G1 [G2 [G3 [O1 [O2 [O3 _]]]]]]]]]]]]]; try assumption;
    cbn zeta in EY; rewrite EY;
    pose proof (four_expansion y0 y1 y2 y3 G0 G1 G2 G3 O1 O2 O3) as XY;
    destruct (two_two_diff_ok p Hp acx tby acy tbx) as [z0 [z1 [z2 [z3 [EZ [SumZ [K0 [K1 [K2 [K3 [P1 [P2 [P3 _]]]]]]]]]]]]]; try assumption;
    cbn zeta in EZ; rewrite EZ;
    pose proof (four_expansion z0 z1 z2 z3 K0 K1 K2 K3 P1 P2 P3) as XZ;
    destruct (two_two_diff_ok p Hp tax tby tay tbx) as [w0 [w1 [w2 [w3 [EW [SumW [L0 [L1 [L2 [L3 [Q1 [Q2 [Q3 _]]]]]]]]]]]]]; try assumption;
    cbn zeta in EW; rewrite EW;
    pose proof (four_expansion w0 w1 w2 w3 L0 L1 L2 L3 Q1 Q2 Q3) as XW;
    destruct (fes_ok p Hp _ _ XB XY) as [C1 [EC1 GC1]]; rewrite EC1; cbn [bind];
    rewrite (fits_ok 8) by (destruct GC1 as [_ [_ [GL _]]]; cbn [length] in GL; lia); cbn [bind];
    destruct (fes_ok p Hp _ _ (good_expansion _ _ _ GC1) XZ) as [C2 [EC2 GC2]]; rewrite EC2; cbn [bind];
    pose proof GC1 as [_ [SC1 [LC1 _]]]; pose proof GC2 as [_ [SC2 [LC2 _]]]; cbn [length] in LC1, LC2;
    rewrite (fits_ok 12) by lia; cbn [bind];
    destruct (fes_ok p Hp _ _ (good_expansion _ _ _ GC2) XW) as [C3 [EC3 GC3]]; rewrite EC3; cbn [bind];
    pose proof GC3 as [_ [SC3 [LC3 _]]]; cbn [length] in LC3;
    rewrite (fits_ok 16) by lia; cbn [bind];
    destruct (last_sign p _ _ _ GC3) as [r [Er Sr]]; exists r; (split; [ exact Er | ]);
    match type of Sr with same_sign _ ?t => replace D with t; [ exact Sr | ] end;
    rewrite SC2, SC1; cbn [rsum]; lra.
Qed.

Theorem orient2d_ok :
  exists r, float_orient2d p (ax, ay) (bx, by_) (cx, cy) = Ok r /\
    same_sign r (det2 (ax, ay) (bx, by_) (cx, cy)).
Proof.
  unfold float_orient2d, robust_orient2d, p2x, p2y. cbn [fst snd]. rewrite A_eq.
  pose proof adapt_ok as AD.
  pose proof (stageA p Hp ax ay bx by_ cx cy) as SA. cbn zeta in SA.
  cbn [nsub nmul nadd nltb nleb n0 nopp NumF].
  pose proof (rd_sign p Hp (rd (ax - cx) * rd (by_ - cy))) as S1.
  pose proof (rd_sign p Hp (rd (ay - cy) * rd (bx - cx))) as S2.
  pose proof (same_sign_mul _ _ _ _ (rd_sign p Hp (ax - cx)) (rd_sign p Hp (by_ - cy))) as S3.
  pose proof (same_sign_mul _ _ _ _ (rd_sign p Hp (ay - cy)) (rd_sign p Hp (bx - cx))) as S4.
  unfold det2 in *. cbn [fst snd] in *.
  set (dl := rd (rd (ax - cx) * rd (by_ - cy))) in *. set (dr := rd (rd (ay - cy) * rd (bx - cx))) in *.
  pose proof (rd_sign p Hp (dl - dr)) as S5.
  assert (easy : same_sign (dl - dr) ((ax - cx) * (by_ - cy) - (ay - cy) * (bx - cx)) ->
    exists r, Ok (rd (dl - dr)) = Ok r /\ same_sign r ((ax - cx) * (by_ - cy) - (ay - cy) * (bx - cx))).
  { intros H. exists (rd (dl - dr)). split; [ reflexivity | ]. unfold same_sign in *. tauto. }
  unfold same_sign in S1, S2, S3, S4.
  assert (DL : (0 < dl <-> 0 < (ax - cx) * (by_ - cy)) /\ (dl < 0 <-> (ax - cx) * (by_ - cy) < 0) /\ (dl = 0 <-> (ax - cx) * (by_ - cy) = 0)) by tauto.
  assert (DR : (0 < dr <-> 0 < (ay - cy) * (bx - cx)) /\ (dr < 0 <-> (ay - cy) * (bx - cx) < 0) /\ (dr = 0 <-> (ay - cy) * (bx - cx) = 0)) by tauto.
  set (X := (ax - cx) * (by_ - cy)) in *. set (Y := (ay - cy) * (bx - cx)) in *.
  assert (filter : forall s, s = rd (Rabs dl + Rabs dr) -> 0 < Rabs dl + Rabs dr ->
    exists r, (if @decided R (NumF p) (rd (dl - dr)) (rd ((3 + 16 * u) * u * s)) then Ok (rd (dl - dr))
      else @orient2d_adapt R (NumF p) (Z.to_nat p) (b2 (1 - p)) (ax, ay) (bx, by_) (cx, cy) s) = Ok r /\ same_sign r (X - Y)).
  { intros s -> Hpos.
    assert (Ps : 0 < rd (Rabs dl + Rabs dr)).
    { destruct (rd_sign p Hp (Rabs dl + Rabs dr)) as [[_ W] _]. apply W, Hpos. }
    assert (Hs : Rabs dl + Rabs dr <= (1 + u) * rd (Rabs dl + Rabs dr)).
    { pose proof (rd_up' p Hp (Rabs dl + Rabs dr)) as W.
      rewrite (Rabs_pos_eq (Rabs dl + Rabs dr)), (Rabs_pos_eq (rd _)) in W by lra. exact W. }
    destruct (@decided R (NumF p) (rd (dl - dr)) (rd ((3 + 16 * u) * u * rd (Rabs dl + Rabs dr)))) eqn:E.
    - eexists. split; [ reflexivity | ]. apply (SA _ Ps Hs). apply decided_true. exact E.
    - apply AD; assumption. }
  destruct (Rlt_dec 0 dl) as [P|P].
  - destruct (Rle_dec dr 0) as [P2|P2].
    + apply easy. apply same_cases. left. destruct (Rle_lt_or_eq_dec _ _ P2); split; [ lra | | lra | ]; intuition lra.
    + apply filter; rewrite !Rabs_pos_eq by lra; [ reflexivity | lra ].
  - destruct (Rlt_dec dl 0) as [P1|P1].
    + destruct (Rle_dec 0 dr) as [P2|P2].
      * apply easy. apply same_cases. right; left. destruct (Rle_lt_or_eq_dec _ _ P2); split; [ lra | | lra | ]; intuition lra.
      * apply filter; rewrite !Rabs_left by lra; [ f_equal; ring | lra ].
    + assert (Z : dl = 0) by lra. apply easy. apply same_cases.
      destruct (Rtotal_order dr 0) as [W|[W|W]]; [ left | right; right | right; left ]; split; intuition lra.
Qed.
End Main.
End Prec.
