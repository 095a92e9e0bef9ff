(** fast_expansion_sum, continued: the loops. *)
From Coq Require Import Reals ZArith Bool Lia Lra List.
From Flocq Require Import Core.
From Verif Require Import Model_Base Model_Robust Spec_Robust Proof_Robust1 Proof_Robust2 Proof_Robust3.
Import ListNotations.
Open Scope R_scope.

Section Prec.
Variable p : Z.
Hypothesis Hp : (10 <= p)%Z.
Notation F := (is_float p).
Notation rd := (fl p).
Notation ST := (ST p).

Lemma step_ST : forall Q H E G e re rf, ST Q H E G (e :: re) rf ->
  (forall g, In g rf -> g <> 0 -> Rabs e <= Rabs g) ->
  ST (rd (Q + e)) (H + Rabs (Q + e - rd (Q + e))) (E + Rabs e) G re rf.
Proof.
  intros Q H E G e re rf st order. set (h := Q + e - rd (Q + e)).
  pose proof (Rabs_pos e) as Pe. pose proof (Rabs_pos h) as Ph.
  assert (TQ : Rabs (rd (Q + e)) <= E + Rabs e + G + (H + Rabs h)).
  { pose proof (st_Qb _ _ _ _ _ _ _ st). replace (rd (Q + e)) with (Q + e + - h) by (unfold h; ring).
    pose proof (Rabs_triang (Q + e) (- h)). pose proof (Rabs_triang Q e). rewrite Rabs_Ropp in *. lra. }
  assert (Ebnd : forall g, In g rf -> g <> 0 -> E + Rabs e <= 2 * Rabs g).
  { intros g Hg Ng. destruct (Req_dec e 0) as [->|Ne].
    - rewrite Rabs_R0, Rplus_0_r. apply (st_Ef _ _ _ _ _ _ _ st); auto.
    - pose proof (I4_lt _ _ _ (st_E _ _ _ _ _ _ _ st) (st_Ie _ _ _ _ _ _ _ st) (or_introl eq_refl) Ne).
      specialize (order g Hg Ng). lra. }
  destruct (Req_dec h 0) as [E0|N].
  - pose proof (step_exact p Q H E G e re rf st E0) as JQ.
    rewrite E0, Rabs_R0, Rplus_0_r in *.
    destruct st. constructor; auto; try lra.
    + apply F_rd, Hp.
    + intros x Hx. apply st_re. right; exact Hx.
    + pose proof (b2_pos (3 - p)). nra.
    + apply st_Ie.
    + intros g Hg Ng. apply st_Ge; [ right; exact Hg | exact Ng ].
    + apply st_Je.
    + apply JL_make. intros a g b Er. apply (J_incl _ _ (b ++ e :: re)).
      * intros x Hx. rewrite in_app_iff in *. cbn [In]. tauto.
      * apply (JL_get _ _ _ _ _ _ st_Jf Er).
  - pose proof (step_inexact p Hp Q H E G e re rf st N) as JQ.
    pose proof (H'_e p Hp Q H E G e re rf st N) as HH. fold h in HH.
    pose proof (step_same p Hp Q H E G e re rf st N) as Js.
    pose proof (step_other p Hp Q H E G e re rf st order N) as Jo.
    destruct st. constructor; auto; try lra.
    + apply F_rd, Hp.
    + intros x Hx. apply st_re. right; exact Hx.
    + unfold tau in HH. pose proof (b2_pos (3 - p)). nra.
    + apply st_Ie.
    + intros g Hg Ng. apply st_Ge; [ right; exact Hg | exact Ng ].
    + apply JL_make. exact Js.
    + apply JL_make. exact Jo.
Qed.

(** The comparison of the merge *)
Lemma take_e_true : forall x y, @take_e R (NumF p) x y = true -> Rabs x <= Rabs y.
Proof.
  intros x y. unfold take_e. cbn [nltb nopp NumF].
  destruct (Rlt_dec x y), (Rlt_dec (- x) y); cbn; intros E; try discriminate;
    unfold Rabs; destruct (Rcase_abs x), (Rcase_abs y); lra.
Qed.
Lemma take_e_false : forall x y, @take_e R (NumF p) x y = false -> Rabs y <= Rabs x.
Proof.
  intros x y. unfold take_e. cbn [nltb nopp NumF].
  destruct (Rlt_dec x y), (Rlt_dec (- x) y); cbn; intros E; try discriminate;
    unfold Rabs; destruct (Rcase_abs x), (Rcase_abs y); lra.
Qed.

Lemma order_head : forall S x y l, 0 <= S -> I4 S (y :: l) -> Rabs x <= Rabs y ->
  forall g, In g (y :: l) -> g <> 0 -> Rabs x <= Rabs g.
Proof.
  intros S x y l HS [_ HI] Hxy g [<-|Hg] Ng; [ exact Hxy | ].
  pose proof (Rabs_pos y).
  pose proof (I4_lt l (S + Rabs y) g ltac:(lra) HI Hg Ng). lra.
Qed.

Lemma rsum_app : forall a b, rsum (a ++ b) = rsum a + rsum b.
Proof. induction a as [|x a IH]; intros b; cbn [app rsum]; [ ring | rewrite IH; ring ]. Qed.
Lemma asum_app : forall a b, asum (a ++ b) = asum a + asum b.
Proof. induction a as [|x a IH]; intros b; cbn [app asum]; [ ring | rewrite IH; ring ]. Qed.

Lemma neqb_F : forall x y, @neqb R (NumF p) x y = if Req_EM_T x y then true else false.
Proof.
  intros x y. unfold neqb. cbn [nleb NumF].
  destruct (Rle_dec x y), (Rle_dec y x), (Req_EM_T x y); cbn; auto; lra.
Qed.

(** Writing one error *)
Lemma zeroelim_ok : forall h hh, I4 0 h -> (forall x, In x h -> F x) -> F hh ->
  (exists t, mult t hh /\ 4 * asum h < 3 * b2 t) ->
  let h' := @zeroelim R (NumF p) h hh in
  I4 0 h' /\ (forall x, In x h' -> F x) /\ asum h' = asum h + Rabs hh /\ rsum h' = rsum h + hh /\
  (length h' <= length h + 1)%nat.
Proof.
  intros h hh HI HF Fh Ht. unfold zeroelim. rewrite neqb_F. cbn [n0 NumF].
  destruct (Req_EM_T hh 0) as [->|N]; cbn zeta.
  - rewrite Rabs_R0. repeat split; auto; try lra. lia.
  - rewrite I4_app, asum_app, rsum_app, app_length. cbn [I4 asum rsum length].
    rewrite Rplus_0_l. repeat split; auto; try lra; try lia.
    intros x Hx. apply in_app_iff in Hx. destruct Hx as [Hx|[<-|[]]]; auto.
Qed.

Definition out_ok (n : nat) (total : R) (r : R * list R) : Prop :=
  let (Q, h) := r in
  F Q /\ (forall x, In x h -> F x) /\ I4 0 (h ++ [Q]) /\ rsum h + Q = total /\
  (length h <= n)%nat.

Lemma fes_loop_ok : forall fuel Q E G e f h,
  (length e + length f < fuel)%nat ->
  ST Q (asum h) E G e f -> I4 0 h -> (forall x, In x h -> F x) ->
  exists r, @fes_loop R (NumF p) fuel Q e f h = Ok r /\
    out_ok (length h + length e + length f) (Q + rsum h + rsum e + rsum f) r.
Proof.
  induction fuel as [|fuel IH]; intros Q E G e f h Hf st HI HF; [ lia | ].
  (* taking from e *)
  assert (TE : forall x e' f0, ST Q (asum h) E G (x :: e') f0 ->
      (length e' + length f0 < fuel)%nat ->
      (forall g, In g f0 -> g <> 0 -> Rabs x <= Rabs g) ->
      exists r, (let (Qnew, hh) := @two_sum R (NumF p) Q x in
                 @fes_loop R (NumF p) fuel Qnew e' f0 (@zeroelim R (NumF p) h hh)) = Ok r /\
        out_ok (length h + length (x :: e') + length f0) (Q + rsum h + rsum (x :: e') + rsum f0) r).
  { intros x e' f0 st0 Hl order.
    assert (FQ : F Q) by apply (st_Q _ _ _ _ _ _ _ st0).
    assert (Fx : F x) by (apply (st_re _ _ _ _ _ _ _ st0); left; reflexivity).
    rewrite (two_sum_exact p Hp Q x) by assumption.
    pose proof (step_out p Hp Q (asum h) E G x e' f0 st0) as [t [_ [Mt Bt]]].
    destruct (zeroelim_ok h (Q + x - rd (Q + x)) HI HF (err_F p Hp Q x FQ Fx)
      (ex_intro _ t (conj Mt Bt))) as [Z1 [Z2 [Z3 [Z4 Z5]]]]. cbn zeta in *.
    pose proof (step_ST _ _ _ _ _ _ _ st0 order) as st1. rewrite <- Z3 in st1.
    destruct (IH _ _ _ _ _ _ Hl st1 Z1 Z2) as [r [R1 R2]].
    exists r. split; [ exact R1 | ]. destruct r as [Q2 h2]. cbn [out_ok] in *.
    destruct R2 as [A1 [A2 [A3 [A4 A5]]]]. repeat split; auto.
    - rewrite A4, Z4. cbn [rsum]. ring.
    - cbn [length]. lia. }
  (* taking from f *)
  assert (TF : forall y e0 f', ST Q (asum h) E G e0 (y :: f') ->
      (length e0 + length f' < fuel)%nat ->
      (forall g, In g e0 -> g <> 0 -> Rabs y <= Rabs g) ->
      exists r, (let (Qnew, hh) := @two_sum R (NumF p) Q y in
                 @fes_loop R (NumF p) fuel Qnew e0 f' (@zeroelim R (NumF p) h hh)) = Ok r /\
        out_ok (length h + length e0 + length (y :: f')) (Q + rsum h + rsum e0 + rsum (y :: f')) r).
  { intros x e' f0 st0 Hl order. apply ST_sym in st0.
    assert (FQ : F Q) by apply (st_Q _ _ _ _ _ _ _ st0).
    assert (Fx : F x) by (apply (st_re _ _ _ _ _ _ _ st0); left; reflexivity).
    rewrite (two_sum_exact p Hp Q x) by assumption.
    pose proof (step_out p Hp Q (asum h) G E x f0 e' st0) as [t [_ [Mt Bt]]].
    destruct (zeroelim_ok h (Q + x - rd (Q + x)) HI HF (err_F p Hp Q x FQ Fx)
      (ex_intro _ t (conj Mt Bt))) as [Z1 [Z2 [Z3 [Z4 Z5]]]]. cbn zeta in *.
    pose proof (step_ST _ _ _ _ _ _ _ st0 order) as st1. rewrite <- Z3 in st1. apply ST_sym in st1.
    destruct (IH _ _ _ _ _ _ Hl st1 Z1 Z2) as [r [R1 R2]].
    exists r. split; [ exact R1 | ]. destruct r as [Q2 h2]. cbn [out_ok] in *.
    destruct R2 as [A1 [A2 [A3 [A4 A5]]]]. repeat split; auto.
    - rewrite A4, Z4. cbn [rsum]. ring.
    - cbn [length]. lia. }
  cbn [fes_loop]. destruct e as [|x e'], f as [|y f']; cbn [length] in *.
  - exists (Q, h). split; [ reflexivity | ]. cbn [out_ok rsum].
    pose proof (st_J _ _ _ _ _ _ _ st) as JQ. apply J_weak in JQ.
    repeat split; auto; try lra; try lia.
    + apply (st_Q _ _ _ _ _ _ _ st).
    + rewrite I4_app. cbn [I4]. rewrite Rplus_0_l. repeat split; auto.
  - apply TF; auto; [ cbn [length]; lia | intros g [] ].
  - apply TE; auto; [ cbn [length]; lia | intros g [] ].
  - destruct (@take_e R (NumF p) x y) eqn:ET.
    + apply TE; auto; [ cbn [length]; lia | ]. apply take_e_true in ET.
      apply (order_head G); auto; [ apply (st_G _ _ _ _ _ _ _ st) | apply (st_If _ _ _ _ _ _ _ st) ].
    + apply TF; auto; [ cbn [length]; lia | ]. apply take_e_false in ET.
      apply (order_head E); auto; [ apply (st_E _ _ _ _ _ _ _ st) | apply (st_Ie _ _ _ _ _ _ _ st) ].
Qed.

(** The state after the first component *)
Lemma ST_init : forall x e f, F x -> (forall y, In y e -> F y) -> (forall y, In y f -> F y) ->
  I4 0 (x :: e) -> I4 0 f -> (forall g, In g f -> g <> 0 -> Rabs x <= Rabs g) ->
  ST x 0 (Rabs x) 0 e f.
Proof.
  intros x e f Fx Fe Ff Ie If order. pose proof (Rabs_pos x).
  assert (JF : forall g r, F g -> J 0 g r).
  { intros g r Fg. destruct (NA_F p g Fg) as [s [M B]]. exists s. split; [ exact M | left; lra ]. }
  constructor; auto; try lra.
  - pose proof (b2_pos (3 - p)). nra.
  - cbn [I4] in Ie. rewrite Rplus_0_l in Ie. apply Ie.
  - intros g Hg Ng. specialize (order g Hg Ng). pose proof (Rabs_pos g). lra.
  - intros g Hg Ng. pose proof (Rabs_pos g). lra.
  - apply JL_make. intros a g b ->. apply JF, Fe. apply in_app_iff. right; left; reflexivity.
  - apply JL_make. intros a g b ->. apply JF, Ff. apply in_app_iff. right; left; reflexivity.
Qed.

Lemma fast_two_sum_ok : forall x Q, F x -> F Q -> x = 0 \/ Rabs Q <= Rabs x ->
  @fast_two_sum R (NumF p) x Q = @two_sum R (NumF p) Q x.
Proof.
  intros x Q Fx FQ [->|Hle].
  - rewrite (two_sum_exact p Hp Q 0 FQ Fx). unfold fast_two_sum. cbn [nadd nsub NumF].
    rewrite Rplus_0_l, Rplus_0_r, !(rd_id p Q FQ), Rminus_0_r, (rd_id p Q FQ), (Rminus_diag_eq Q Q) by reflexivity.
    rewrite rd_0. reflexivity.
  - rewrite (two_sum_exact p Hp Q x FQ Fx), (fast_two_sum_exact p Hp x Q Fx FQ Hle).
    rewrite (Rplus_comm x Q). reflexivity.
Qed.

Lemma I4_next : forall x y l, I4 0 (x :: y :: l) -> y = 0 \/ Rabs x <= Rabs y.
Proof.
  intros x y l [_ HI]. destruct (Req_dec y 0) as [E|N]; [ left; exact E | right ].
  pose proof (Rabs_pos x).
  pose proof (I4_lt (y :: l) (0 + Rabs x) y ltac:(lra) HI (or_introl eq_refl) N). lra.
Qed.

Definition finish (r : result (R * list R)) : result (list R) :=
  let* (Q, h) := r in
  Ok (if negb (@neqb R (NumF p) Q 0) || (length h =? 0)%nat then h ++ [Q] else h).

Lemma fes_first : forall x e y f, F x -> F y -> (forall z, In z e -> F z) -> (forall z, In z f -> F z) ->
  I4 0 (x :: e) -> I4 0 (y :: f) ->
  @fast_expansion_sum R (NumF p) (x :: e) (y :: f) =
  if @take_e R (NumF p) x y
  then finish (@fes_loop R (NumF p) (length e + length (y :: f) + 1) x e (y :: f) [])
  else finish (@fes_loop R (NumF p) (length (x :: e) + length f + 1) y (x :: e) f []).
Proof.
  intros x e y f Fx Fy Fe Ff Ie If. unfold fast_expansion_sum.
  destruct (@take_e R (NumF p) x y) eqn:T1.
  - apply take_e_true in T1. destruct e as [|x2 e]; [ reflexivity | ].
    assert (Fx2 : F x2) by (apply Fe; left; reflexivity).
    replace (length (x2 :: e) + length (y :: f) + 1)%nat with (S (length e + S (length f) + 1)) by (cbn [length]; lia).
    cbn [fes_loop]. destruct (@take_e R (NumF p) x2 y) eqn:T2.
    + rewrite fast_two_sum_ok by (auto; apply (I4_next x x2 e Ie)).
      destruct (@two_sum R (NumF p) x x2) as [Qn hh]. reflexivity.
    + rewrite fast_two_sum_ok by (auto; right; exact T1).
      destruct (@two_sum R (NumF p) x y) as [Qn hh]. cbn [length].
      replace (S (length e) + length f + 1)%nat with (length e + S (length f) + 1)%nat by lia. reflexivity.
  - apply take_e_false in T1. destruct f as [|y2 f].
    { cbn [length]. destruct (@take_e R (NumF p) x y); reflexivity || idtac. }
    assert (Fy2 : F y2) by (apply Ff; left; reflexivity).
    replace (length (x :: e) + length (y2 :: f) + 1)%nat with (S (length e + S (length f) + 1)) by (cbn [length]; lia).
    cbn [fes_loop]. destruct (@take_e R (NumF p) x y2) eqn:T2.
    + rewrite fast_two_sum_ok by (auto; right; exact T1).
      destruct (@two_sum R (NumF p) y x) as [Qn hh]. reflexivity.
    + rewrite fast_two_sum_ok by (auto; apply (I4_next y y2 f If)).
      destruct (@two_sum R (NumF p) y y2) as [Qn hh]. cbn [length].
      replace (S (length e) + length f + 1)%nat with (length e + S (length f) + 1)%nat by lia. reflexivity.
Qed.

Lemma zeroelim_nz : forall h hh, Forall (fun x => x <> 0) h ->
  Forall (fun x => x <> 0) (@zeroelim R (NumF p) h hh).
Proof.
  intros h hh Hh. unfold zeroelim. rewrite neqb_F. cbn [n0 NumF].
  destruct (Req_EM_T hh 0) as [E|N]; [ exact Hh | ]. apply Forall_app. split; [ exact Hh | ].
  constructor; [ exact N | constructor ].
Qed.

Lemma fes_loop_nz : forall fuel Q e f h r, Forall (fun x => x <> 0) h ->
  @fes_loop R (NumF p) fuel Q e f h = Ok r -> Forall (fun x => x <> 0) (snd r).
Proof.
  induction fuel as [|fuel IH]; intros Q e f h r Hh E; [ discriminate | ].
  cbn [fes_loop] in E. destruct e as [|x e], f as [|y f].
  - injection E as <-. exact Hh.
  - destruct (@two_sum R (NumF p) Q y). apply IH in E; [ exact E | apply zeroelim_nz, Hh ].
  - destruct (@two_sum R (NumF p) Q x). apply IH in E; [ exact E | apply zeroelim_nz, Hh ].
  - destruct (@take_e R (NumF p) x y).
    + destruct (@two_sum R (NumF p) Q x). apply IH in E; [ exact E | apply zeroelim_nz, Hh ].
    + destruct (@two_sum R (NumF p) Q y). apply IH in E; [ exact E | apply zeroelim_nz, Hh ].
Qed.

(** An expansion: floats with the invariant, not empty *)
Definition expansion (l : list R) : Prop := l <> [] /\ (forall x, In x l -> F x) /\ I4 0 l.

Definition good_sum (total : R) (n : nat) (h : list R) : Prop :=
  expansion h /\ rsum h = total /\ (length h <= n)%nat /\
  (exists l x, h = l ++ [x] /\ (x = 0 -> l = [])).

Lemma finish_good : forall total n r, out_ok n total r -> Forall (fun x => x <> 0) (snd r) ->
  exists h, finish (Ok r) = Ok h /\ good_sum total (n + 1) h.
Proof.
  intros total n [Q h] [FQ [Fh [HI [HS HL]]]] Hnz. cbn [snd] in Hnz. unfold finish. cbn [bind].
  eexists. split; [ reflexivity | ]. rewrite neqb_F. unfold good_sum, expansion.
  destruct (Req_EM_T Q 0) as [->|N]; cbn [negb orb].
  - destruct h as [|x h]; cbn [length Nat.eqb].
    + cbn [app rsum] in *. repeat split; auto; try lra; try discriminate.
      * intros y [<-|[]]. exact FQ.
      * apply HI.
      * cbn [length]. lia.
      * exists [], 0. split; auto.
    + rewrite I4_app in HI. repeat split; try apply HI; auto; try discriminate; try lra.
      * cbn [length] in *. lia.
      * destruct (exists_last (l := x :: h) ltac:(discriminate)) as [l [z E]]. exists l, z.
        split; [ exact E | ]. intros ->. exfalso. rewrite E, Forall_app in Hnz. destruct Hnz as [_ Hz].
        inversion Hz. auto.
  - repeat split; auto.
    + destruct h; discriminate.
    + intros y Hy. apply in_app_iff in Hy. destruct Hy as [Hy|[<-|[]]]; auto.
    + rewrite rsum_app. cbn [rsum]. lra.
    + rewrite app_length. cbn [length]. lia.
    + exists h, Q. split; [ reflexivity | intros; contradiction ].
Qed.

Lemma fes_ok : forall e f, expansion e -> expansion f ->
  exists h, @fast_expansion_sum R (NumF p) e f = Ok h /\
    good_sum (rsum e + rsum f) (length e + length f) h.
Proof.
  intros e f [Ne [Fe Ie]] [Nf [Ff If]]. destruct e as [|x e]; [ congruence | ].
  destruct f as [|y f]; [ congruence | ].
  assert (Fx : F x) by (apply Fe; left; reflexivity). assert (Fy : F y) by (apply Ff; left; reflexivity).
  assert (Fe' : forall z, In z e -> F z) by (intros; apply Fe; right; assumption).
  assert (Ff' : forall z, In z f -> F z) by (intros; apply Ff; right; assumption).
  rewrite fes_first by assumption.
  destruct (@take_e R (NumF p) x y) eqn:T.
  - apply take_e_true in T.
    destruct (fes_loop_ok (length e + length (y :: f) + 1) x (Rabs x) 0 e (y :: f) []) as [r [E1 E2]].
    + lia.
    + apply ST_init; auto. apply (order_head 0); auto. lra.
    + exact I.
    + intros z [].
    + rewrite E1. pose proof (fes_loop_nz _ _ _ _ _ _ (Forall_nil _) E1) as Hz.
      destruct (finish_good _ _ _ E2 Hz) as [h [H1 H2]]. exists h. split; [ exact H1 | ].
      cbn [rsum length] in *. replace (x + rsum e + (y + rsum f)) with (x + 0 + rsum e + (y + rsum f)) by ring.
      replace (S (length e) + S (length f))%nat with (0 + length e + S (length f) + 1)%nat by lia. exact H2.
  - apply take_e_false in T.
    destruct (fes_loop_ok (length (x :: e) + length f + 1) y 0 (Rabs y) (x :: e) f []) as [r [E1 E2]].
    + lia.
    + apply ST_sym. apply ST_init; auto. apply (order_head 0); auto. lra.
    + exact I.
    + intros z [].
    + rewrite E1. pose proof (fes_loop_nz _ _ _ _ _ _ (Forall_nil _) E1) as Hz.
      destruct (finish_good _ _ _ E2 Hz) as [h [H1 H2]]. exists h. split; [ exact H1 | ].
      cbn [rsum length] in *. replace (x + rsum e + (y + rsum f)) with (y + 0 + (x + rsum e) + rsum f) by ring.
      replace (S (length e) + S (length f))%nat with (0 + S (length e) + length f + 1)%nat by lia. exact H2.
Qed.

Lemma rsum_asum : forall l, Rabs (rsum l) <= asum l.
Proof.
  induction l as [|x l IH]; cbn [rsum asum]; [ rewrite Rabs_R0; lra | ].
  pose proof (Rabs_triang x (rsum l)). lra.
Qed.

(** The last component of a sum has its sign *)
Lemma last_sign : forall total n h, good_sum total n h ->
  exists x, back h = Ok x /\ same_sign x total.
Proof.
  intros total n h [[_ [_ HI]] [HS [_ [l [x [-> Hx]]]]]].
  exists x. split.
  { unfold back. rewrite rev_app_distr. reflexivity. }
  rewrite rsum_app in HS. cbn [rsum] in HS. rewrite I4_app in HI. destruct HI as [_ [[s [M B]] _]].
  destruct (Req_dec x 0) as [E|N].
  - rewrite (Hx E) in HS. cbn [rsum] in HS. unfold same_sign. repeat split; intros; lra.
  - pose proof (mult_ge s x M N). pose proof (rsum_asum l). pose proof (b2_pos s).
    assert (Rabs (rsum l) < Rabs x) by lra.
    unfold same_sign. unfold Rabs in *. destruct (Rcase_abs (rsum l)), (Rcase_abs x); repeat split; intros; lra.
Qed.
End Prec.
