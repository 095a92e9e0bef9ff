(** Expansions: the sums of two_two_diff and of fast_expansion_sum are exact and their last
    component carries the sign. *)
From Coq Require Import Reals ZArith Bool Lia Lra List.
From Flocq Require Import Core.
From Verif Require Import Model_Base Model_Robust Spec_Robust Proof_Robust1.
Import ListNotations.
Open Scope R_scope.

(** A nonzero h separated from S leaves no room between 2|h| and a power of two for S *)
Lemma gap : forall t s S h, mult t h -> h <> 0 -> 4 * S < 3 * b2 t -> 2 * Rabs h < b2 s ->
  2 * (S + Rabs h) < b2 s.
Proof.
  intros t s S h Ht Hh HS Hs. pose proof (mult_ge t h Ht Hh) as Hge.
  assert (L : (t + 1 < s)%Z).
  { apply (lt_bpow radix2). rewrite b2_plus1. lra. }
  assert (M : mult (t + 1) (b2 s - 2 * Rabs h)).
  { apply mult_sub; [ apply mult_b2; lia | ]. destruct (mult_abs _ _ Ht) as [m Hm].
    exists m. rewrite Hm, b2_plus1. ring. }
  apply mult_ge in M; [ | lra ]. rewrite Rabs_pos_eq in M by lra. rewrite b2_plus1 in M. lra.
Qed.

(** Nonadjacency of x with what lies below *)
Definition NA (S x : R) : Prop := exists s, mult s x /\ 2 * S < b2 s.

Lemma NA_le : forall S S' x, S' <= S -> NA S x -> NA S' x.
Proof. intros S S' x H [s [H1 H2]]. exists s. split; [ exact H1 | lra ]. Qed.

Lemma NA_0 : forall S, NA S 0.
Proof.
  intros S. destruct (Rle_lt_dec S 0) as [L|L].
  - exists 0%Z. split; [ apply mult_0 | simpl; lra ].
  - exists (mag radix2 (2 * S) : Z). split; [ apply mult_0 | ].
    rewrite <- (Rabs_pos_eq (2 * S)) at 1 by lra. apply bpow_mag_gt.
Qed.

Section Prec.
Variable p : Z.
Hypothesis Hp : (10 <= p)%Z.
Notation F := (is_float p).
Notation rd := (fl p).

Lemma NA_F : forall x, F x -> NA 0 x.
Proof.
  intros x H. destruct (F_some p x H) as [s Hs]. exists s. split; [ exact Hs | ].
  pose proof (b2_pos s). lra.
Qed.

Lemma NA_round : forall x, NA (Rabs (x - rd x)) (rd x).
Proof.
  intros x. destruct (Req_dec (rd x) x) as [E|N].
  - rewrite Rminus_diag_eq, Rabs_R0 by (symmetry; exact E). apply NA_F, F_rd, Hp.
  - destruct (rd_nonadj p Hp x N) as [s Hs]. exists s. rewrite Rabs_minus_sym. exact Hs.
Qed.

Lemma err_F : forall a b, F a -> F b -> F (a + b - rd (a + b)).
Proof.
  intros a b Ha Hb. pose proof (two_sum_exact p Hp a b Ha Hb) as H. unfold two_sum in H.
  injection H as H. rewrite <- H. apply F_rd, Hp.
Qed.
Lemma err_mul_F : forall a b, F a -> F b -> F (a * b - rd (a * b)).
Proof.
  intros a b Ha Hb. pose proof (two_product_exact p Hp a b Ha Hb) as H. unfold two_product, split in H.
  injection H as H. rewrite <- H. apply F_rd, Hp.
Qed.

Lemma err_le : forall Q e, F Q -> Rabs (Q + e - rd (Q + e)) <= Rabs e.
Proof.
  intros Q e HQ. pose proof (rd_near p Hp (Q + e) Q HQ) as H. rewrite Rabs_minus_sym.
  replace (Q - (Q + e)) with (- e) in H by ring. rewrite Rabs_Ropp in H. exact H.
Qed.

(** One addition of a growing expansion *)
Lemma grow : forall S Q e, 0 <= S -> F Q -> F e -> NA S Q -> NA S e ->
  let h := Q + e - rd (Q + e) in
  NA S h /\ NA (S + Rabs h) (rd (Q + e)) /\
  (forall x, NA S x -> NA (Rabs e) x -> NA (S + Rabs h) x).
Proof.
  intros S Q e HS FQ Fe [s1 [M1 B1]] [s2 [M2 B2]] h.
  assert (Mt : exists t, mult t (Q + e) /\ 2 * S < b2 t).
  { exists (Z.min s1 s2). split.
    - apply mult_add; [ apply (mult_le s1) | apply (mult_le s2) ]; auto; lia.
    - destruct (Z.min_spec s1 s2) as [[_ ->]|[_ ->]]; assumption. }
  destruct Mt as [t [MV Bt]].
  assert (Mh : mult t h) by (apply mult_sub; [ exact MV | apply rd_mult; [ exact Hp | exact MV ] ]).
  split; [ exists t; split; assumption | ]. pose proof (b2_pos t) as Pt.
  destruct (Req_dec h 0) as [E|N].
  - rewrite E, Rabs_R0, Rplus_0_r. split; [ | intros; assumption ].
    exists t. split; [ apply rd_mult; assumption | exact Bt ].
  - assert (G : forall x, NA (Rabs h) x -> NA (S + Rabs h) x).
    { intros x [s [Ms Bs]]. exists s. split; [ exact Ms | ]. apply (gap t); auto. lra. }
    split; [ apply G, NA_round | ].
    intros x _ Hx. apply G. apply (NA_le (Rabs e)); [ apply err_le; exact FQ | exact Hx ].
Qed.

(** * The invariant of expansions *)
Fixpoint I4 (S : R) (l : list R) : Prop :=
  match l with
  | [] => True
  | x :: l => (exists s, mult s x /\ 4 * S < 3 * b2 s) /\ I4 (S + Rabs x) l
  end.

Fixpoint rsum (l : list R) : R := match l with [] => 0 | x :: l => x + rsum l end.
Fixpoint asum (l : list R) : R := match l with [] => 0 | x :: l => Rabs x + asum l end.

Lemma asum_pos : forall l, 0 <= asum l.
Proof. induction l as [|x l IH]; cbn [asum]; [ lra | pose proof (Rabs_pos x); lra ]. Qed.

Lemma I4_app : forall l S m, I4 S (l ++ m) <-> I4 S l /\ I4 (S + asum l) m.
Proof.
  induction l as [|x l IH]; intros S m; cbn [app I4 asum].
  - rewrite Rplus_0_r. tauto.
  - rewrite IH. replace (S + (Rabs x + asum l)) with (S + Rabs x + asum l) by ring. tauto.
Qed.

Lemma NA_I4 : forall S x, 0 <= S -> NA S x -> exists s, mult s x /\ 4 * S < 3 * b2 s.
Proof. intros S x HS [s [M B]]. exists s. split; [ exact M | pose proof (b2_pos s); lra ]. Qed.

Lemma two_two_diff_ok : forall A1 A2 B1 B2, F A1 -> F A2 -> F B1 -> F B2 ->
  let a := rd (A1 * A2) in let b := rd (B1 * B2) in
  exists x0 x1 x2 x3,
    @two_two_diff R (NumF p) a (A1 * A2 - a) b (B1 * B2 - b) = [x0; x1; x2; x3] /\
    x0 + x1 + x2 + x3 = A1 * A2 - B1 * B2 /\
    F x0 /\ F x1 /\ F x2 /\ F x3 /\
    NA (Rabs x0) x1 /\ NA (Rabs x0 + Rabs x1) x2 /\ NA (Rabs x0 + Rabs x1 + Rabs x2) x3 /\
    (exists V, x3 = rd V /\ x2 = V - x3).
Proof.
  intros A1 A2 B1 B2 FA1 FA2 FB1 FB2 a b.
  set (a0 := A1 * A2 - a). set (b0 := B1 * B2 - b).
  assert (Fa : F a) by (apply F_rd, Hp). assert (Fb : F b) by (apply F_rd, Hp).
  assert (Fa0 : F a0) by (apply err_mul_F; assumption).
  assert (Fb0 : F b0) by (apply err_mul_F; assumption).
  assert (NAa : NA (Rabs a0) a) by apply NA_round.
  assert (NAb : NA (Rabs b0) b) by apply NA_round.
  assert (Ea : A1 * A2 = a + a0) by (unfold a0; ring).
  assert (Eb : B1 * B2 = b + b0) by (unfold b0; ring).
  rewrite Ea, Eb. clearbody a0 b0 a b. clear Ea Eb.
  unfold two_two_diff, two_one_diff.
  rewrite (two_diff_exact p Hp a0 b0) by assumption.
  assert (Fnb0 : F (- b0)) by (apply F_opp; assumption).
  assert (Fnb : F (- b)) by (apply F_opp; assumption).
  destruct (grow 0 (- b0) a0 (Rle_refl 0) Fnb0 Fa0 (NA_F _ Fnb0) (NA_F _ Fa0)) as [_ [G1 G2]].
  destruct (grow 0 a0 (- b0) (Rle_refl 0) Fa0 Fnb0 (NA_F _ Fa0) (NA_F _ Fnb0)) as [_ [_ G3]].
  cbn zeta in *. rewrite (Rplus_comm (- b0) a0) in *. change (a0 + - b0) with (a0 - b0) in *.
  rewrite Rabs_Ropp, !Rplus_0_l in *.
  set (i := rd (a0 - b0)) in *. set (x0 := a0 - b0 - i) in *.
  assert (Fi : F i) by (apply F_rd, Hp).
  assert (Fx0 : F x0) by (apply (err_F a0 (- b0)); assumption).
  assert (N1 : NA (Rabs x0) a) by (apply G2; [ apply NA_F; exact Fa | exact NAa ]).
  assert (N2 : NA (Rabs x0) b) by (apply G3; [ apply NA_F; exact Fb | exact NAb ]).
  assert (S0 : a0 - b0 = i + x0) by (unfold x0; ring). clearbody x0. clear G2 G3.
  rewrite (two_sum_exact p Hp a i) by assumption.
  destruct (grow (Rabs x0) a i (Rabs_pos x0) Fa Fi N1 G1) as [G2 [G3 _]]. cbn zeta in *.
  set (j := rd (a + i)) in *. set (z0 := a + i - j) in *.
  assert (Fj : F j) by (apply F_rd, Hp).
  assert (Fz0 : F z0) by (apply (err_F a i); assumption).
  assert (S1 : a + i = j + z0) by (unfold z0; ring). clearbody z0 j. clear G1 N1 Fi.
  rewrite (two_diff_exact p Hp z0 b) by assumption.
  assert (N2' : NA (Rabs x0) (- b)).
  { destruct N2 as [s [M B]]. exists s. split; [ apply mult_opp; exact M | exact B ]. }
  destruct (grow (Rabs x0) (- b) z0 (Rabs_pos x0) Fnb Fz0 N2' G2) as [H1 [H2 H3]]. cbn zeta in *.
  rewrite (Rplus_comm (- b) z0) in *. change (z0 + - b) with (z0 - b) in *.
  set (i' := rd (z0 - b)) in *. set (x1 := z0 - b - i') in *.
  assert (Fi' : F i') by (apply F_rd, Hp).
  assert (Fx1 : F x1) by (apply (err_F z0 (- b)); assumption).
  assert (S2 : z0 - b = i' + x1) by (unfold x1; ring). clearbody x1 i'.
  assert (N3 : NA (Rabs x0 + Rabs x1) j).
  { pose proof (Rabs_pos x0). pose proof (Rabs_pos z0).
    apply H3; [ apply (NA_le (Rabs x0 + Rabs z0)) | apply (NA_le (Rabs x0 + Rabs z0)) ]; auto; lra. }
  rewrite (two_sum_exact p Hp j i') by assumption.
  assert (P : 0 <= Rabs x0 + Rabs x1) by (pose proof (Rabs_pos x0); pose proof (Rabs_pos x1); lra).
  destruct (grow _ j i' P Fj Fi' N3 H2) as [K1 [K2 _]]. cbn zeta in *.
  exists x0, x1, (j + i' - rd (j + i')), (rd (j + i')).
  split; [ reflexivity | ]. split; [ lra | ].
  repeat split; auto.
  - apply err_F; assumption.
  - apply F_rd, Hp.
  - exists (j + i'). split; reflexivity.
Qed.
End Prec.
