(** The collocation matrices of averaged knots are nonsingular; what follows for interpolation. *)
From Coq Require Import List Arith ZArith Reals Lia Lra Bool.
From Verif Require Import Model_Base Model_Knots Model_Basis Model_Curve Model_Interp Model_Surface Model_Skin
  Spec_Base Spec_Basis Spec_Eval Spec_Knots Spec_Interp Spec_Surface Spec_Skin Spec_Solve
  Proof_Base Proof_Blossom Proof_Basis Proof_Ders Proof_Eval Proof_PropBasis Proof_Ctor Proof_Curve Proof_Builders
  Proof_Trim Proof_Band Proof_Interp Proof_Interp2 Proof_Interp3 Proof_Interp4 Proof_Skin1 Proof_Skin3 Proof_SW Proof_Surface.
Import ListNotations.
Local Open Scope R_scope.

(** Parameters from the first to the last knot, one inside each basis function. *)
Lemma averages_inside eps (u : list R) p k : (1 <= p)%nat -> (p < length u)%nat -> strictly_increasing u ->
  @build_simple_mult_flat_knots R (NumR eps) u p = Ok k ->
  (forall i, (p <= i < length u)%nat -> kn k i < kn k (S i)) /\
  (forall i, (i <= p)%nat -> kn k i = kn u 0) /\
  (forall i, (length u <= i <= length u + p)%nat -> kn k i = kn u (length u - 1)) /\
  forall i, (0 < i < length u - 1)%nat -> kn k i < kn u i < kn k (i + p + 1).
Proof.
  intros Hp Hl Hs E.
  destruct (build_simple_spec eps u p Hp ltac:(lia) Hs) as (k' & Ek' & (Lk & Hnd & Ka & Kb & _) & Kav & Kst).
  rewrite E in Ek'. injection Ek' as <-.
  split; [exact Kst|]. split; [exact Ka|]. split; [exact Kb|].
  assert (Pp : 0 < INR p) by (apply lt_0_INR; lia).
  assert (Hcst : forall c, c = sumn p (fun _ => c) / INR p) by (intros c; rewrite sumn_const; field; lra).
  assert (Hlt : forall f g, (forall i, (i < p)%nat -> f i < g i) -> sumn p f / INR p < sumn p g / INR p).
  { intros f g Hfg. apply Rmult_lt_compat_r; [apply Rinv_0_lt_compat; auto|].
    apply (sumn_lt p f g 0); [|lia|apply Hfg; lia]. intros i Hi. left. apply Hfg, Hi. }
  intros i Hi. split.
  - destruct (Nat.le_gt_cases i p) as [H|H].
    + rewrite Ka by lia. apply Hs; lia.
    + replace i with ((i - p) + p)%nat at 1 by lia. rewrite Kav by lia. unfold avg. rewrite (Hcst (kn u i)).
      apply Hlt. intros j Hj. apply Hs; lia.
  - destruct (Nat.le_gt_cases (length u) (i + p + 1)) as [H|H].
    + rewrite Kb by lia. apply Hs; lia.
    + replace (i + p + 1)%nat with ((i + 1) + p)%nat by lia. rewrite Kav by lia. unfold avg. rewrite (Hcst (kn u i)).
      apply Hlt. intros j Hj. apply Hs; lia.
Qed.

Section AtR.
Variable eps : R.
Local Hint Extern 0 (Num R) => exact (NumR eps) : typeclass_instances.

Lemma rv_CV k n p x (P : nat -> R) : knots_ok k n p -> evaluable eps k n p -> kn k p <= x <= kn k n ->
  sumn n (fun j => rv eps k n p x 0 j * P j) = CV k n p 0 P x.
Proof.
  intros Hk Hd Hx. set (Q := map (fun j (_ : nat) => P j) (seq 0 n) : list (pt R)).
  assert (LQ : length Q = n) by (unfold Q; rewrite map_length, seq_length; reflexivity).
  assert (HQ : forall j, (j < n)%nat -> pole Q 0 j = P j).
  { intros j Hj. unfold pole, Q. rewrite nth_map_seq by exact Hj. reflexivity. }
  destruct (rv_eval eps k n p Hk x 0 Q Hx LQ Hd) as (q & E & V).
  destruct (CV_eval eps k n p Q x 0 Hk LQ Hd Hx ltac:(lia)) as (q' & E' & V').
  rewrite E in E'. injection E' as <-. specialize (V 0%nat). specialize (V' 0%nat). rewrite V in V'.
  rewrite (sumn_ext n (fun j => rv eps k n p x 0 j * P j) (fun j => rv eps k n p x 0 j * pole Q 0 j)) by (intros; rewrite HQ by assumption; reflexivity).
  rewrite V'. destruct (spn_ok eps k n p Hk x Hx) as (_ & Hr & Hsp & _).
  rewrite !(CV_at k n p 0 _ x _ Hk Hr Hsp). apply PS_ext. intros i Hi. apply HQ. lia.
Qed.

Lemma averages_interlaced (u : list R) p k : (1 <= p)%nat -> (p < length u)%nat -> strictly_increasing u ->
  build_simple_mult_flat_knots u p = Ok k -> interlaced k p u.
Proof.
  intros Hp Hl Hs E. destruct (averages_inside eps u p k Hp Hl Hs E) as (K1 & _ & _ & K2).
  destruct (build_simple_spec eps u p Hp ltac:(lia) Hs) as (k' & Ek' & Hc & _).
  rewrite E in Ek'. injection Ek' as <-. split; [exact Hs|]. split; [exact Hc|]. split; assumption.
Qed.

Lemma interlaced_knots k p u : (1 <= p)%nat -> (p < length u)%nat -> interlaced k p u ->
  knots_ok k (length u) p /\ forall x, In x u -> kn k p <= x <= kn k (length u).
Proof.
  intros Hp Hl (Hs & (Lk & Hnd & Ka & Kb & _) & Kst & _). split.
  - split; [exact Lk|]. split; [lia|]. split; [exact Hnd|].
    replace (length u) with (S (length u - 1)) at 2 by lia. apply Kst; lia.
  - intros x Hx. destruct (In_nth u x 0 Hx) as (i & Hi & <-). change (nth i u 0) with (kn u i).
    rewrite (Ka p), (Kb (length u)) by lia. split; apply (strict_mono u Hs); lia.
Qed.

Lemma interlaced_nonsingular k p u : (1 <= p)%nat -> (p < length u)%nat -> interlaced k p u ->
  evaluable eps k (length u) p ->
  nonsingular (length u) (fun i j => rv eps k (length u) p (nth i u 0) 0 j).
Proof.
  intros Hp Hl Hi Hd x Hx. destruct (interlaced_knots k p u Hp Hl Hi) as (Hk & Hin).
  destruct Hi as (Hs & (Lk & Hnd & Ka & Kb & _) & Kst & Kin).
  apply (schoenberg_whitney k (length u) p Hk Hp Kst) with (u := kn u).
  - intros i Hi. rewrite !Ka by lia. reflexivity.
  - intros i Hi. rewrite !Kb by lia. reflexivity.
  - intros i Hi. apply Hs; lia.
  - rewrite Ka by lia. reflexivity.
  - rewrite Kb by lia. reflexivity.
  - exact Kin.
  - intros i Hi. rewrite <- rv_CV; [|exact Hk|exact Hd|apply Hin, nth_In, Hi]. apply Hx, Hi.
Qed.

Lemma nonsingular_ext n A B : (forall i j, (i < n)%nat -> (j < n)%nat -> A i j = B i j) -> nonsingular n A -> nonsingular n B.
Proof.
  intros H HA x Hx. apply HA. intros i Hi. rewrite <- (Hx i Hi). apply sumn_ext. intros j Hj. rewrite H by assumption. reflexivity.
Qed.

Lemma interlaced_unique k p u (P P' : list (pt R)) c : (1 <= p)%nat -> (p < length u)%nat -> interlaced k p u ->
  evaluable eps k (length u) p -> length P = length u -> length P' = length u ->
  (forall x, In x u -> exists z z', eval_value x k P p 0 = Ok z /\ eval_value x k P' p 0 = Ok z' /\ z c = z' c) ->
  forall i, (i < length u)%nat -> nth i P (fun _ => 0) c = nth i P' (fun _ => 0) c.
Proof.
  intros Hp Hl Hi Hd LP LP' H i Hii. destruct (interlaced_knots k p u Hp Hl Hi) as (Hk & Hin).
  apply Rminus_diag_uniq.
  apply (interlaced_nonsingular k p u Hp Hl Hi Hd (fun i => nth i P (fun _ => 0) c - nth i P' (fun _ => 0) c)); [|exact Hii].
  clear i Hii. intros i Hii. set (x := nth i u 0).
  destruct (H x) as (z & z' & E & E' & Hz); [apply nth_In, Hii|].
  assert (Hx : kn k p <= x <= kn k (length u)) by (apply Hin, nth_In, Hii).
  destruct (rv_eval eps k _ p Hk x 0 P Hx LP Hd) as (q & Eq & V). destruct (rv_eval eps k _ p Hk x 0 P' Hx LP' Hd) as (q' & Eq' & V').
  rewrite E in Eq. injection Eq as <-. rewrite E' in Eq'. injection Eq' as <-. rewrite V, V' in Hz.
  rewrite (sumn_ext _ _ (fun j => rv eps k (length u) p x 0 j * pole P c j - rv eps k (length u) p x 0 j * pole P' c j))
    by (intros; unfold pole; ring).
  rewrite sumn_minus. lra.
Qed.

Lemma build_poles_returns sparse dim (Q : list (pt R)) k p u : complete_solver sparse -> 0 <= eps -> (1 <= p)%nat ->
  (p < length u)%nat -> interlaced k p u -> evaluable eps k (length u) p -> length Q = length u ->
  exists P, build_poles sparse dim 1 (map (fun q => [q]) Q) k u p = Ok P /\ length P = length u.
Proof.
  intros (_ & Hco) He Hp Hl Hi Hd LQ. destruct (interlaced_knots k p u Hp Hl Hi) as (Hk & Hin).
  assert (LP : forall P, build_poles sparse dim 1 (map (fun q => [q]) Q) k u p = Ok P -> length P = length u).
  { intros P EP. unfold build_poles in EP. apply bind_inv in EP as (X & _ & EP). injection EP as <-.
    etransitivity; [apply poles_length|]. rewrite map_length. lia. }
  enough (exists P, build_poles sparse dim 1 (map (fun q => [q]) Q) k u p = Ok P) as (P & EP) by eauto.
  clear LP. unfold build_poles. rewrite map_length, LQ, Nat.mul_1_r. set (Q' := map (fun q => [q]) Q).
  assert (Hc : forall b, In b (map (rhs_column Q') (seq 0 dim)) -> length b = length u).
  { intros b Hb. apply in_map_iff in Hb as (c & <- & _). unfold rhs_column. rewrite map_length.
    etransitivity; [apply (concat_len Q' 1); intros q Hq; apply in_map_iff in Hq as (x & <- & _); reflexivity|].
    unfold Q'. rewrite map_length. lia. }
  destruct (collocation_cases eps k _ p Hk sparse 1 u (map (rhs_column Q') (seq 0 dim)) He (le_n 1) Hd ltac:(lia) Hin Hc)
    as [(X & ->)|(N & -> & HR & HC & HV)]; [eexists; reflexivity|].
  destruct (mapM_all_ok (sparse N) (map (rhs_column Q') (seq 0 dim))) as (X & EX).
  - intros b Hb. apply Hco; [congruence|rewrite HR; auto|]. rewrite HR.
    apply nonsingular_ext with (2 := interlaced_nonsingular k p u Hp Hl Hi Hd). intros i j Hii Hj.
    specialize (HV i 0%nat j Hii ltac:(lia)). rewrite Nat.mul_1_l, Nat.add_0_r in HV. symmetry. exact HV.
  - rewrite EX. eexists. reflexivity.
Qed.

Lemma interpolate_returns sparse dim (Q : list (pt R)) (u : list R) p : complete_solver sparse -> 0 <= eps ->
  (1 <= p <= 24)%nat -> (p < length Q)%nat -> length u = length Q -> strictly_increasing u ->
  exists c, interpolate sparse dim Q u p = Ok c.
Proof.
  intros Hco He Hp HpQ Lu Hs. unfold interpolate.
  destruct (build_simple_spec eps u p ltac:(lia) ltac:(lia) Hs) as (k & Ek & (Lk & Hnd & _) & _).
  rewrite Ek. cbn [bind]. pose proof (averages_interlaced u p k ltac:(lia) ltac:(lia) Hs Ek) as Hi.
  destruct (build_poles_returns sparse dim Q k p u) as (P & EP & LP); auto; try lia.
  { left. lia. }
  rewrite EP. cbn [bind]. rewrite (mk_curve_accepts eps) by (rewrite ?LP; auto; lia). eexists. reflexivity.
Qed.
End AtR.
