(** fast_expansion_sum is exact and keeps the invariant of expansions. *)
From Coq Require Import Reals ZArith Bool Lia Lra List.
From Flocq Require Import Core.
From Verif Require Import Model_Base Model_Robust Spec_Robust Proof_Robust1 Proof_Robust2.
Import ListNotations.
Open Scope R_scope.

(** The exact exponent of a nonzero number *)
Lemma valuation : forall s x, mult s x -> x <> 0 ->
  exists t, mult t x /\ forall r, mult r x -> (r <= t)%Z.
Proof.
  intros s x [m ->] Hx.
  assert (G : forall n m s, (Z.abs m <= Z.of_nat n)%Z -> m <> 0%Z ->
    exists t, mult t (IZR m * b2 s) /\ forall r, mult r (IZR m * b2 s) -> (r <= t)%Z).
  { induction n as [|n IH]; intros k e Hk Hn; [ lia | ].
    destruct (Z.even k) eqn:Ek.
    - apply Z.even_spec in Ek. destruct Ek as [q ->].
      destruct (IH q (e + 1)%Z ltac:(lia) ltac:(lia)) as [t Ht]. exists t.
      replace (IZR (2 * q) * b2 e) with (IZR q * b2 (e + 1)) by (rewrite b2_plus1, mult_IZR; ring).
      exact Ht.
    - exists e. split; [ exists k; reflexivity | ]. intros r Hr.
      destruct (Z.le_gt_cases r e) as [L|L]; [ exact L | exfalso ].
      apply (mult_le _ (e + 1)) in Hr; [ | lia ]. destruct Hr as [j Hj].
      rewrite b2_plus1 in Hj. replace (IZR j * (2 * b2 e)) with (IZR (2 * j) * b2 e) in Hj by (rewrite mult_IZR; ring).
      apply Rmult_eq_reg_r in Hj; [ | pose proof (b2_pos e); lra ]. apply eq_IZR in Hj. subst k.
      rewrite Z.even_mul in Ek. discriminate. }
  apply (G (Z.to_nat (Z.abs m))); [ lia | ]. intros ->. apply Hx. simpl. ring.
Qed.

Section Prec.
Variable p : Z.
Hypothesis Hp : (10 <= p)%Z.
Notation F := (is_float p).
Notation rd := (fl p).

(** What lies at x is separated from the sum H of the errors already output, or nearly so and
    then all that is left is well above *)
Definition J (H x : R) (rest : list R) : Prop :=
  exists s, mult s x /\
    (2 * H < b2 s \/ (4 * H < 3 * b2 s /\ forall g, In g rest -> mult (s + 2) g)).

Lemma J_incl : forall H x r r', incl r' r -> J H x r -> J H x r'.
Proof.
  intros H x r r' Hi [s [M [A|[B C]]]]; exists s; (split; [ exact M | ]); [ left; exact A | right ].
  split; [ exact B | intros g Hg; apply C, Hi, Hg ].
Qed.
Lemma J_weak : forall H x r, J H x r -> exists s, mult s x /\ 4 * H < 3 * b2 s.
Proof.
  intros H x r [s [M [A|[B _]]]]; exists s; (split; [ exact M | ]); [ pose proof (b2_pos s); lra | exact B ].
Qed.
Lemma J_0 : forall H r, J H 0 r.
Proof. intros H r. destruct (NA_0 H) as [s [M A]]. exists s. split; [ exact M | left; exact A ]. Qed.

Fixpoint JL (H : R) (l other : list R) : Prop :=
  match l with [] => True | g :: l => J H g (l ++ other) /\ JL H l other end.

Record ST (Q H E G : R) (re rf : list R) : Prop := {
  st_Q : F Q;
  st_re : forall x, In x re -> F x;
  st_rf : forall x, In x rf -> F x;
  st_E : 0 <= E;
  st_G : 0 <= G;
  st_H : 0 <= H;
  st_Qb : Rabs Q <= E + G + H;
  st_Hb : H <= b2 (3 - p) * (E + G);
  st_Ie : I4 E re;
  st_If : I4 G rf;
  st_Ef : forall g, In g rf -> g <> 0 -> E <= 2 * Rabs g;
  st_Ge : forall g, In g re -> g <> 0 -> G <= 2 * Rabs g;
  st_J : J H Q (re ++ rf);
  st_Je : JL H re rf;
  st_Jf : JL H rf re
}.

Lemma ST_sym : forall Q H E G re rf, ST Q H E G re rf -> ST Q H G E rf re.
Proof.
  intros Q H E G re rf [ ]. constructor; auto; try lra.
  apply (J_incl _ _ (re ++ rf)); [ | assumption ].
  intros x Hx. rewrite in_app_iff in *. tauto.
Qed.

Definition tau := b2 (3 - p).
Lemma tau_pos : 0 < tau. Proof. apply b2_pos. Qed.
Lemma tau_small : 128 * tau <= 1.
Proof.
  unfold tau. assert (b2 (3 - p) <= b2 (-7)) by (apply bpow_le; lia).
  replace (b2 (-7)) with (/ 128) in H by reflexivity. lra.
Qed.

Lemma I4_in : forall l S g, 0 <= S -> I4 S l -> In g l -> exists s, mult s g /\ 4 * S < 3 * b2 s.
Proof.
  induction l as [|x l IH]; intros S g HS HI Hin; [ destruct Hin | ].
  destruct Hin as [->|Hin]; cbn [I4] in HI; destruct HI as [H1 H2].
  - exact H1.
  - destruct (IH (S + Rabs x) g) as [s [M B]]; auto.
    + pose proof (Rabs_pos x). lra.
    + exists s. split; [ exact M | ]. pose proof (Rabs_pos x). lra.
Qed.

Lemma I4_lt : forall l S g, 0 <= S -> I4 S l -> In g l -> g <> 0 -> 4 * S < 3 * Rabs g.
Proof.
  intros l S g HS HI Hin Hg. destruct (I4_in l S g HS HI Hin) as [s [M B]].
  pose proof (mult_ge s g M Hg). lra.
Qed.

(** Splitting a list at a member *)
Lemma JL_make : forall H l o, (forall a g b, l = a ++ g :: b -> J H g (b ++ o)) -> JL H l o.
Proof.
  intros H l. induction l as [|x l IH]; intros o Hl; cbn [JL]; [ exact I | ]. split.
  - apply (Hl [] x l eq_refl).
  - apply IH. intros a g b ->. apply (Hl (x :: a) g b eq_refl).
Qed.
Lemma JL_get : forall H l o a g b, JL H l o -> l = a ++ g :: b -> J H g (b ++ o).
Proof.
  intros H l. induction l as [|x l IH]; intros o a g b HJ E; [ destruct a; discriminate | ].
  cbn [JL] in HJ. destruct HJ as [H1 H2]. destruct a as [|y a]; cbn in E; injection E as -> ->.
  - exact H1.
  - apply (IH o a); auto.
Qed.

Section Step.
Variables (Q H E G e : R) (re rf : list R).
Hypothesis st : ST Q H E G (e :: re) rf.
Hypothesis order : forall g, In g rf -> g <> 0 -> Rabs e <= Rabs g.
Let V := Q + e.
Let h := V - rd V.

Lemma step_Fe : F e.
Proof. apply (st_re _ _ _ _ _ _ st). left; reflexivity. Qed.

Lemma step_out : exists t, mult t V /\ mult t h /\ 4 * H < 3 * b2 t.
Proof.
  destruct st. cbn [JL] in st_Je0. destruct st_Je0 as [Je _].
  apply J_weak in Je. apply J_weak in st_J0.
  destruct Je as [s1 [M1 B1]], st_J0 as [s2 [M2 B2]].
  assert (Mt : mult (Z.min s1 s2) V).
  { apply mult_add; [ apply (mult_le s2) | apply (mult_le s1) ]; auto; lia. }
  exists (Z.min s1 s2). split; [ exact Mt | ]. split.
  - apply mult_sub; [ exact Mt | apply rd_mult; [ exact Hp | exact Mt ] ].
  - destruct (Z.min_spec s1 s2) as [[_ ->]|[_ ->]]; assumption.
Qed.

Lemma step_exact : h = 0 -> J H (rd V) (re ++ rf).
Proof.
  intros Hh. assert (EV : rd V = V) by (unfold h in Hh; lra). rewrite EV.
  destruct st. cbn [JL] in st_Je0. destruct st_Je0 as [[s1 [M1 B1]] _].
  destruct st_J0 as [s2 [M2 B2]]. destruct B2 as [A2|[B2 C2]].
  - destruct (Z.le_gt_cases s2 s1) as [L|L].
    + exists s2. split; [ apply mult_add; [ exact M2 | apply (mult_le s1); auto ] | left; exact A2 ].
    + exists s1. split; [ apply mult_add; [ apply (mult_le s2); auto; lia | exact M1 ] | exact B1 ].
  - exists s2. split.
    + apply mult_add; [ exact M2 | apply (mult_le (s2 + 2)); [ lia | apply C2; left; reflexivity ] ].
    + right. split; [ exact B2 | ]. intros g Hg. apply C2. right. exact Hg.
Qed.

Hypothesis hne : h <> 0.

Lemma e_ne : e <> 0.
Proof.
  intros E0. apply hne. unfold h, V. rewrite E0, Rplus_0_r. rewrite rd_id; [ ring | apply (st_Q _ _ _ _ _ _ st) ].
Qed.

Lemma H_small : 4 * H < 3 * Rabs h.
Proof. destruct step_out as [t [_ [M B]]]. pose proof (mult_ge t h M hne). lra. Qed.

Lemma E_e : 4 * E < 3 * Rabs e.
Proof.
  destruct st. apply (I4_lt (e :: re) E e); auto; [ left; reflexivity | apply e_ne ].
Qed.
Lemma G_e : G <= 2 * Rabs e.
Proof. destruct st. apply st_Ge0; [ left; reflexivity | apply e_ne ]. Qed.

Lemma H_e : H <= 3 * tau * Rabs e.
Proof.
  pose proof (st_Hb _ _ _ _ _ _ st) as B. fold tau in B. pose proof tau_pos. pose proof E_e. pose proof G_e.
  pose proof (Rabs_pos e). nra.
Qed.

Lemma V_e : Rabs V <= 4 * Rabs e.
Proof.
  pose proof (Rabs_triang Q e) as T. fold V in T. pose proof (st_Qb _ _ _ _ _ _ st).
  pose proof E_e. pose proof G_e. pose proof H_e. pose proof tau_small. pose proof tau_pos. pose proof (Rabs_pos e). nra.
Qed.

Lemma h_e : 2 * Rabs h <= tau * Rabs e.
Proof.
  pose proof (rd_err p Hp V) as R. rewrite Rabs_minus_sym in R. fold h in R.
  pose proof V_e. unfold u, tau in *. replace (3 - p)%Z with (- p + 1 + 2)%Z by lia.
  rewrite b2_plus2, b2_plus1. pose proof (b2_pos (- p)). nra.
Qed.

Lemma H'_e : H + Rabs h <= tau * Rabs e.
Proof. pose proof H_small. pose proof h_e. pose proof (Rabs_pos h). lra. Qed.

Lemma step_sep : forall s, 2 * Rabs h < b2 s -> 2 * (H + Rabs h) < b2 s.
Proof. intros s Hs. destruct step_out as [t [_ [M B]]]. apply (gap t); auto. Qed.

Lemma step_inexact : J (H + Rabs h) (rd V) (re ++ rf).
Proof.
  destruct (rd_nonadj p Hp V) as [s [M B]]; [ intros E0; apply hne; unfold h; lra | ].
  exists s. split; [ exact M | left ]. apply step_sep. rewrite Rabs_minus_sym in B. exact B.
Qed.

(** Components left in the same list are far above *)
Lemma step_same : forall a g b, re = a ++ g :: b -> J (H + Rabs h) g (b ++ rf).
Proof.
  intros a g b Er. destruct st. cbn [I4] in st_Ie0. destruct st_Ie0 as [_ I].
  destruct (I4_in re (E + Rabs e) g) as [s [M B]]; auto.
  - pose proof (Rabs_pos e). lra.
  - rewrite Er. apply in_app_iff. right. left. reflexivity.
  - exists s. split; [ exact M | left ]. pose proof H'_e. pose proof tau_small. pose proof tau_pos.
    pose proof (Rabs_pos e). pose proof (b2_pos s). nra.
Qed.

(** Components left in the other list *)
Lemma step_other : forall a g b, rf = a ++ g :: b -> J (H + Rabs h) g (b ++ re).
Proof.
  intros a g b Er. destruct (Req_dec g 0) as [->|Hg]; [ apply J_0 | ].
  assert (Hin : In g rf) by (rewrite Er; apply in_app_iff; right; left; reflexivity).
  pose proof (order g Hin Hg) as Heg.
  pose proof (st_rf _ _ _ _ _ _ st g Hin) as Fg.
  pose proof (st_G _ _ _ _ _ _ st) as PG. pose proof (st_E _ _ _ _ _ _ st) as PE.
  pose proof (st_H _ _ _ _ _ _ st) as PH.
  destruct (I4_in rf G g PG (st_If _ _ _ _ _ _ st) Hin) as [sg [Msg Bsg]].
  destruct (F_expo p g Fg Hg) as [su [Msu [_ Bsu]]].
  destruct (valuation su g Msu Hg) as [s [Ms Max]].
  assert (Bg : Rabs g < b2 (s + p)).
  { apply Rlt_le_trans with (1 := Bsu). apply bpow_le. pose proof (Max su Msu). lia. }
  assert (BG : 4 * G < 3 * b2 s).
  { pose proof (bpow_le radix2 sg s (Max sg Msg)). lra. }
  exists s. split; [ exact Ms | ].
  destruct (Rlt_dec (2 * Rabs h) (b2 s)) as [L|L]; [ left; apply step_sep; exact L | right ].
  apply Rnot_lt_le in L.
  assert (BV : b2 (s + p - 1) <= Rabs V).
  { destruct (Rle_lt_dec (b2 (s + p - 1)) (Rabs V)) as [Y|Y]; [ exact Y | exfalso ].
    replace (s + p - 1)%Z with (s - 1 + p)%Z in Y by lia. apply rd_half in Y; [ | exact Hp ].
    rewrite Rabs_minus_sym in Y. fold h in Y.
    replace s with (s - 1 + 1)%Z in L by lia. rewrite b2_plus1 in L. pose proof (b2_pos (s - 1)). lra. }
  pose proof V_e as Ve.
  assert (Ps : 0 < b2 s) by apply b2_pos.
  assert (Big : 16 * b2 s <= Rabs e).
  { assert (X : b2 (s + 6) <= b2 (s + p - 1)) by (apply bpow_le; lia).
    rewrite bpow_plus in X. replace (b2 6) with 64 in X by reflexivity. lra. }
  destruct (st_Ie _ _ _ _ _ _ st) as [[l [Ml Bl]] Ire].
  pose proof (st_Hb _ _ _ _ _ _ st) as Hb. fold tau in Hb.
  pose proof tau_pos as Pt. pose proof tau_small as St.
  pose proof e_ne as Ne.
  split.
  - (* 4 H' < 3 2^s *)
    assert (P2 : b2 (s + p) = b2 s * b2 p) by apply bpow_plus.
    destruct (Rlt_dec (b2 (s + p)) (Rabs V)) as [C|C].
    + (* V above the binade of g *)
      assert (hV : Rabs h <= Rabs V - b2 (s + p)).
      { destruct (Rle_lt_dec 0 V) as [W|W].
        - rewrite (Rabs_pos_eq V) in * by exact W.
          pose proof (rd_near p Hp V (b2 (s + p))) as N. rewrite Rabs_minus_sym in N. fold h in N.
          rewrite (Rabs_minus_sym (b2 _)), (Rabs_pos_eq (V - _)) in N by lra. apply N.
          apply (F_mult p Hp _ (s + p)); [ apply mult_b2; lia | ].
          rewrite Rabs_pos_eq by (apply Rlt_le, b2_pos). apply bpow_le. lia.
        - rewrite (Rabs_left V) in * by exact W.
          pose proof (rd_near p Hp V (- b2 (s + p))) as N. rewrite Rabs_minus_sym in N. fold h in N.
          rewrite (Rabs_pos_eq (- b2 _ - _)) in N by lra. 
          replace (- V - b2 (s + p)) with (- b2 (s + p) - V) by ring. apply N.
          apply F_opp. apply (F_mult p Hp _ (s + p)); [ apply mult_b2; lia | ].
          rewrite Rabs_pos_eq by (apply Rlt_le, b2_pos). apply bpow_le. lia. }
      assert (TV : Rabs V <= Rabs e + E + G + H).
      { pose proof (Rabs_triang Q e) as T. fold V in T. pose proof (st_Qb _ _ _ _ _ _ st). lra. }
      (* |e| against 2^(s+p) *)
      assert (eg : Rabs e <= b2 (s + p) - b2 s).
      { assert (M : mult s (b2 (s + p) - Rabs g)).
        { apply mult_sub; [ apply mult_b2; lia | apply mult_abs; exact Ms ]. }
        apply mult_ge in M; [ | lra ]. rewrite Rabs_pos_eq in M by lra. lra. }
      destruct (Z.le_gt_cases l s) as [Ll|Ll].
      * assert (El : 4 * E < 3 * b2 s) by (pose proof (bpow_le radix2 l s Ll); lra). nra.
      * (* l > s *)
        assert (el : Rabs e <= b2 (s + p) - b2 l).
        { assert (Llp : (l < s + p)%Z).
          { apply (lt_bpow radix2). pose proof (mult_ge l e Ml Ne). lra. }
          assert (M : mult l (b2 (s + p) - Rabs e)).
          { apply mult_sub; [ apply mult_b2; lia | apply mult_abs; exact Ml ]. }
          apply mult_ge in M; [ | lra ]. rewrite Rabs_pos_eq in M by lra. lra. }
        destruct (Z.eq_dec l (s + 1)) as [->|Hl].
        -- rewrite b2_plus1 in *. nra.
        -- exfalso. assert (X : 4 * b2 s <= b2 l) by (rewrite <- b2_plus2; apply bpow_le; lia). nra.
    + (* V in the binade of g: a tie *)
      apply Rnot_lt_le in C.
      destruct (Rle_lt_or_eq_dec _ _ C) as [C1|C1].
      2:{ exfalso. apply hne. unfold h. rewrite rd_id; [ ring | ].
          assert (FB : F (b2 (s + p))).
          { apply (F_mult p Hp _ (s + p)); [ apply mult_b2; lia | ].
            rewrite Rabs_pos_eq by (apply Rlt_le, b2_pos). apply bpow_le. lia. }
          unfold Rabs in C1. destruct (Rcase_abs V); [ | rewrite C1; exact FB ].
          replace V with (- b2 (s + p)) by lra. apply F_opp. exact FB. }
      pose proof (rd_half p Hp V s C1) as Hh. rewrite Rabs_minus_sym in Hh. fold h in Hh.
      assert (Hh2 : 2 * Rabs h = b2 s) by lra.
      assert (H4 : 4 * H < b2 s); [ | lra ].
      destruct (Z.le_gt_cases l (s + 1)) as [Ll|Ll].
      * assert (El : 4 * E < 6 * b2 s).
        { pose proof (bpow_le radix2 l (s + 1) Ll) as X. rewrite b2_plus1 in X. lra. }
        nra.
      * assert (Me : mult s e) by (apply (mult_le l); [ lia | exact Ml ]).
        assert (MV : mult s (rd V)).
        { apply rd_cexp. destruct (expo p V) as [c [Hc Ec]]; [ intros V0; rewrite V0, Rabs_R0 in BV; pose proof (b2_pos (s + p - 1)); lra | ].
          rewrite Ec. destruct Hc as [Hc1 Hc2].
          assert (b2 (c + p - 1) < b2 (s + p)) as X1 by lra. apply lt_bpow in X1.
          assert (b2 (s + p - 1) < b2 (c + p)) as X2 by lra. apply lt_bpow in X2. lia. }
        assert (NQ : ~ mult s Q).
        { intros MQ. assert (Mh : mult s h) by (apply mult_sub; [ apply mult_add; assumption | exact MV ]).
          apply mult_ge in Mh; [ | exact hne ]. lra. }
        destruct (st_J _ _ _ _ _ _ st) as [sq [Mq [A|[B Cr]]]].
        -- assert (Lq : (sq <= s - 1)%Z).
           { destruct (Z.le_gt_cases s sq) as [Y|Y]; [ | lia ]. exfalso. apply NQ. apply (mult_le sq); auto. }
           pose proof (bpow_le radix2 sq (s - 1) Lq) as X.
           replace s with (s - 1 + 1)%Z by lia. rewrite b2_plus1. lra.
        -- assert (Lq : (sq + 2 <= s)%Z).
           { apply Max. apply Cr. right. apply in_app_iff. right. exact Hin. }
           pose proof (bpow_le radix2 (sq + 2) s Lq) as X. rewrite b2_plus2 in X. lra.
  - intros g2 Hg2.
    assert (Up : forall s2, mult s2 g2 -> 4 * (16 * b2 s) < 3 * b2 s2 -> mult (s + 2) g2).
    { intros s2 M2 B2. apply (mult_le s2); [ | exact M2 ].
      assert (b2 (s + 2) < b2 s2) as X by (rewrite b2_plus2; lra). apply lt_bpow in X. lia. }
    apply in_app_iff in Hg2. destruct Hg2 as [Hg2|Hg2].
    + pose proof (st_If _ _ _ _ _ _ st) as I. rewrite Er, I4_app in I. destruct I as [_ [_ I]].
      pose proof (asum_pos a). pose proof (Rabs_pos g).
      destruct (I4_in b (G + asum a + Rabs g) g2) as [s2 [M2 B2]]; auto; [ lra | ].
      apply (Up s2 M2). lra.
    + pose proof (Rabs_pos e).
      destruct (I4_in re (E + Rabs e) g2) as [s2 [M2 B2]]; auto; [ lra | ].
      apply (Up s2 M2). lra.
Qed.
End Step.
End Prec.
