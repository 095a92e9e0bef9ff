(** Statements of C54 in the vocabulary of Spec_Robust. *)
From Coq Require Import Reals ZArith Bool Lia Lra List.
From Flocq Require Import Core.
From Verif Require Import Model_Base Model_Robust Spec_Robust Proof_Robust1 Proof_Robust6 Proof_Robust7.
Open Scope R_scope.

Lemma float_sign : forall p a b c, (10 <= p)%Z ->
  float_point p a -> float_point p b -> float_point p c ->
  exists r, float_orient2d p a b c = Ok r /\ same_sign r (det2 a b c).
Proof.
  intros p [ax ay] [bx by_] [cx cy] Hp [H1 H2] [H3 H4] [H5 H6]. apply orient2d_ok; assumption.
Qed.

Lemma double_sign : forall a b c, grid_point 53 (-431) a -> grid_point 53 (-431) b -> grid_point 53 (-431) c ->
  exists r, ieee_orient2d (-1074) 53 a b c = Ok r /\ same_sign r (det2 a b c).
Proof. intros a b c. apply ieee_ok; lia. Qed.

Lemma single_sign : forall a b c, grid_point 24 (-26) a -> grid_point 24 (-26) b -> grid_point 24 (-26) c ->
  exists r, ieee_orient2d (-149) 24 a b c = Ok r /\ same_sign r (det2 a b c).
Proof. intros a b c. apply ieee_ok; lia. Qed.

Lemma grid_int : forall p s x y, (10 <= p)%Z -> (s <= 0)%Z -> (Z.abs x <= 1024)%Z -> (Z.abs y <= 1024)%Z ->
  grid_point p s (IZR x, IZR y).
Proof.
  intros p s x y Hp Hs Hx Hy. split; [ | split ]; cbn [fst snd].
  - apply F_IZR; assumption.
  - apply F_IZR; assumption.
  - destruct (mult_le 0 s (IZR x) Hs) as [m Hm]; [ exists x; simpl; ring | ].
    destruct (mult_le 0 s (IZR y) Hs) as [n Hn]; [ exists y; simpl; ring | ].
    exists m, n. split; assumption.
Qed.

Lemma tiny_zero : flt (-1074) 53 (b2 (-1200)) = 0.
Proof.
  unfold flt. apply (round_N_small radix2 (FLT_exp (-1074) 53) _ (b2 (-1200)) (-1199)).
  - rewrite Rabs_pos_eq by (apply Rlt_le, b2_pos). split; [ apply bpow_le; lia | apply bpow_lt; lia ].
  - unfold FLT_exp. lia.
Qed.

Lemma ieee_tiny : is_ieee (-1074) 53 (b2 (-600)).
Proof. apply generic_format_bpow. unfold FLT_exp. lia. Qed.

Lemma underflow : exists a b c,
  is_ieee (-1074) 53 (fst a) /\ is_ieee (-1074) 53 (snd a) /\
  is_ieee (-1074) 53 (fst b) /\ is_ieee (-1074) 53 (snd b) /\
  is_ieee (-1074) 53 (fst c) /\ is_ieee (-1074) 53 (snd c) /\
  0 < det2 a b c /\ ieee_orient2d (-1074) 53 a b c = Ok 0.
Proof.
  exists (b2 (-600), 0), (0, b2 (-600)), (0, 0). cbn [fst snd].
  assert (Z : is_ieee (-1074) 53 0) by apply generic_format_0.
  assert (I : forall x, is_ieee (-1074) 53 x -> flt (-1074) 53 x = x).
  { intros x Hx. apply round_generic; [ apply valid_rnd_N | exact Hx ]. }
  pose proof ieee_tiny as T.
  repeat split; auto.
  - unfold det2. cbn [fst snd]. pose proof (b2_pos (-600)). nra.
  - unfold ieee_orient2d, robust_orient2d, p2x, p2y. cbn [fst snd].
    cbn [nsub nmul nltb n0 NumT].
    rewrite !Rminus_0_r, (I _ T), (I _ Z), <- bpow_plus, Rmult_0_l.
    change (-600 + -600)%Z with (-1200)%Z. rewrite tiny_zero, (I _ Z), Rminus_0_r, (I _ Z).
    destruct (Rlt_dec 0 0); [ lra | reflexivity ].
Qed.
