(** Transformed poles give the transformed curve or surface. *)
From Coq Require Import List Arith ZArith Reals Lia Lra Bool.
From Verif Require Import Model_Base Model_Vec Model_Basis Model_Rational Model_Curve Model_Surface Model_Motion Model_Transform
  Spec_Base Spec_Basis Spec_Eval Spec_Class Spec_Surface Spec_Transform
  Proof_Base Proof_Blossom Proof_Basis Proof_Ders Proof_Eval Proof_PropBasis Proof_Interp Proof_Curve Proof_PropSurface.
From Verif Require Proof_Skin2 Proof_Build.
From Verif Require Import Proof_Connect2.
Import ListNotations.
Local Open Scope R_scope.

(** Weighted sums of the poles *)
Definition comb (N : nat) (B : nat -> R) (P : list (pt R)) (c : nat) : R := sumn N (fun l => B l * polec P c l).

Lemma comb_lin N B P P' dim (A : nat -> nat -> R) (tw : nat -> R) i :
  (forall l, (l < N)%nat -> polec P' i l = sumn dim (fun e => A i e * polec P e l) + tw l) ->
  comb N B P' i = sumn dim (fun e => A i e * comb N B P e) + sumn N (fun l => B l * tw l).
Proof.
  intros H. unfold comb. rewrite (sumn_ext N _ (fun l => sumn dim (fun e => A i e * (B l * polec P e l)) + B l * tw l)).
  - rewrite sumn_plus. f_equal. rewrite sumn_swap. apply sumn_ext. intros e He. apply sumn_scal.
  - intros l Hl. rewrite H by exact Hl. rewrite Rmult_plus_distr_l, <- sumn_scal. f_equal. apply sumn_ext. intros; ring.
Qed.

Lemma comb_affine N B P P' dim A t i : sumn N B = 1 ->
  (forall l, (l < N)%nat -> polec P' i l = image dim A t (nth l P (fun _ => 0)) i) ->
  comb N B P' i = image dim A t (comb N B P) i.
Proof.
  intros HB H. rewrite (comb_lin N B P P' dim A (fun _ => t i)) by exact H. unfold image. f_equal.
  rewrite (sumn_ext N _ (fun l => t i * B l)) by (intros; ring). rewrite sumn_scal, HB. ring.
Qed.

Lemma comb_pos N B P c : (forall l, (l < N)%nat -> 0 <= B l) -> sumn N B = 1 ->
  (forall l, (l < N)%nat -> 0 < polec P c l) -> 0 < comb N B P c.
Proof.
  intros H0 H1 HP. destruct (Rle_lt_dec (comb N B P c) 0) as [Hle|]; [|assumption]. exfalso.
  assert (Hz : forall l, (l < N)%nat -> B l = 0).
  { intros l Hl. assert (Hn : forall j, (j < N)%nat -> 0 <= B j * polec P c j).
    { intros j Hj. apply Rmult_le_pos; [auto|left; auto]. }
    assert (Ht : B l * polec P c l <= comb N B P c).
    { apply (sumn_ge_one N (fun j => B j * polec P c j)); assumption. }
    pose proof (H0 l Hl). pose proof (HP l Hl). nra. }
  rewrite (sumn_zero N B Hz) in H1. lra.
Qed.

Lemma comb_rational N B P P' dim A t i : comb N B P dim <> 0 ->
  (forall l, (l < N)%nat -> polec P' dim l = polec P dim l) ->
  (forall l, (l < N)%nat -> polec P' i l = sumn dim (fun e => A i e * polec P e l) + t i * polec P dim l) ->
  comb N B P' i / comb N B P' dim = image dim A t (fun e => comb N B P e / comb N B P dim) i.
Proof.
  intros Hd Hw H. rewrite (comb_lin N B P P' dim A (fun l => t i * polec P dim l)) by exact H.
  replace (comb N B P' dim) with (comb N B P dim) by (apply sumn_ext; intros l Hl; rewrite Hw by exact Hl; reflexivity).
  unfold image. rewrite (sumn_ext N _ (fun l => t i * (B l * polec P dim l))) by (intros; ring).
  rewrite sumn_scal. fold (comb N B P dim).
  rewrite (sumn_ext dim (fun e => A i e * (comb N B P e / comb N B P dim)) (fun e => / comb N B P dim * (A i e * comb N B P e)))
    by (intros; unfold Rdiv; ring).
  rewrite sumn_scal. field. exact Hd.
Qed.

Section AtR.
Variable eps : R.
Local Hint Extern 0 (Num R) => exact (NumR eps) : typeclass_instances.

(** Transformed poles *)
Lemma poles_moved dim trf A t (P : list (pt R)) : affine dim trf A t ->
  exists P', mapM trf P = Ok P' /\ length P' = length P /\
    forall i l, (i < dim)%nat -> (l < length P)%nat -> polec P' i l = image dim A t (nth l P (fun _ => 0)) i.
Proof.
  intros HA. induction P as [|x P IH]; cbn [mapM].
  - exists []. split; [reflexivity|]. split; [reflexivity|]. intros i l _ Hl. simpl in Hl. lia.
  - destruct (HA x) as (y & -> & Hy). cbn [bind]. destruct IH as (P' & -> & HL & HP). cbn [bind].
    exists (y :: P'). split; [reflexivity|]. split; [simpl; congruence|].
    intros i [|l] Hi Hl; [apply Hy; exact Hi|]. apply HP; [exact Hi|simpl in Hl; lia].
Qed.

Lemma weighted_moved dim trf A t (P : list (pt R)) : affine dim trf A t -> positive_weights dim P ->
  exists P', (let (poles, ws) := separate_weights dim P in
              let* poles := mapM trf poles in add_weights_coord dim poles ws) = Ok P' /\ length P' = length P /\
    (forall l, (l < length P)%nat -> polec P' dim l = polec P dim l) /\
    forall i l, (i < dim)%nat -> (l < length P)%nat ->
      polec P' i l = sumn dim (fun e => A i e * polec P e l) + t i * polec P dim l.
Proof.
  intros HA HW. unfold separate_weights.
  destruct (poles_moved dim trf A t (map (weight_projection dim) P) HA) as (P1 & -> & HL & HP). cbn [bind].
  rewrite map_length in HL, HP. unfold add_weights_coord. rewrite map_length, HL, Nat.eqb_refl.
  eexists. split; [reflexivity|]. rewrite map_length, combine_length, map_length, HL, Nat.min_id. split; [reflexivity|].
  assert (HN : forall l c, (l < length P)%nat ->
    polec (map (fun qw => add_weight dim (fst qw) (snd qw)) (combine P1 (map (weight dim) P))) c l =
    if (c =? dim)%nat then polec P dim l else polec P1 c l * polec P dim l).
  { intros l c Hl. unfold polec.
    set (f := fun qw : pt R * R => add_weight dim (fst qw) (snd qw)).
    rewrite (nth_indep (map f _) _ (f (fun _ : nat => 0, weight dim (fun _ => 0))))
      by (rewrite map_length, combine_length, map_length; lia).
    rewrite (map_nth f), combine_nth by (rewrite map_length; exact HL). rewrite (map_nth (weight dim)).
    unfold f, add_weight, weight. cbn [fst snd].
    destruct (c =? dim)%nat; reflexivity. }
  split.
  - intros l Hl. rewrite HN, Nat.eqb_refl by exact Hl. reflexivity.
  - intros i l Hi Hl. rewrite HN by exact Hl. destruct (Nat.eqb_spec i dim); [lia|]. rewrite HP by assumption.
    assert (Hp : 0 < polec P dim l) by (apply HW, nth_In; exact Hl).
    rewrite (nth_indep _ _ (weight_projection dim (fun _ => 0))) by (rewrite map_length; exact Hl). rewrite map_nth.
    unfold image. rewrite Rmult_plus_distr_r. f_equal. rewrite Rmult_comm, <- sumn_scal. apply sumn_ext. intros e He.
    unfold weight_projection. destruct (neqb _ _) eqn:E; [apply (neqb_R eps) in E; unfold polec in Hp; cbn in E; lra|].
    unfold polec in *. cbn. field. lra.
Qed.

(** Curves *)
Lemma value_comb (c : curve R) u : 0 <= eps -> curve_fit eps c ->
  kn (c_knots c) (c_deg c) <= u <= kn (c_knots c) (length (c_poles c)) ->
  out_of_bounds c u = false /\
  exists q, eval_value u (c_knots c) (c_poles c) (c_deg c) 0 = Ok q /\
    forall i, q i = comb (length (c_poles c)) (fun j => Nbas (kn (c_knots c)) (length (c_poles c)) (c_deg c) j u) (c_poles c) i.
Proof.
  intros He (Hk & Hev & Hlo & Hhi) Hu. split.
  - destruct (oob_spec eps c u) as [H|]; [lra|reflexivity].
  - destruct (eval_value_correct eps _ _ _ (c_poles c) u Hk eq_refl Hev Hu) as (q & E & V). exists q. split; [exact E|exact V].
Qed.

Lemma fit_copy (c : curve R) P : length P = length (c_poles c) -> curve_fit eps c ->
  copyPoles c P = Ok (mk (c_deg c) P (c_knots c) (c_lo c) (c_hi c)) /\ curve_fit eps (mk (c_deg c) P (c_knots c) (c_lo c) (c_hi c)).
Proof. intros HL H. unfold copyPoles, curve_fit in *. cbn [c_deg c_poles c_knots c_lo c_hi]. rewrite HL, Nat.eqb_refl. auto. Qed.

Lemma proj_val dim (q : pt R) : q dim <> 0 -> forall i, weight_projection dim q i = q i / q dim.
Proof. intros Hq i. unfold weight_projection. destruct (neqb _ _) eqn:E; [apply (neqb_R eps) in E; cbn in E; lra|reflexivity]. Qed.

Lemma carry_curve dim trf A t c : 0 <= eps -> affine dim trf A t -> curve_fit eps c ->
  exists c', transform_curve trf c = Ok c' /\ carried eps dim (image dim A t) (Curve_ c) (Curve_ c').
Proof.
  intros He HA HF. unfold transform_curve. destruct (poles_moved dim trf A t (c_poles c) HA) as (P' & -> & HL & HP). cbn [bind].
  destruct (fit_copy c P' HL HF) as (-> & HF'). eexists. split; [reflexivity|]. split; [cbn; repeat split; auto|].
  intros (u, v) Hu. cbn [admits fst] in Hu. cbn [point_at fst]. unfold value.
  destruct (value_comb c u He HF Hu) as (O1 & q & E & V).
  assert (Hu' : kn (c_knots c) (c_deg c) <= u <= kn (c_knots c) (length P')) by (rewrite HL; exact Hu).
  destruct (value_comb _ u He HF' Hu') as (O2 & q' & E' & V'). rewrite O1, O2.
  exists q, q'. split; [exact E|]. split; [exact E'|]. intros i Hi. rewrite V'. cbn [c_deg c_poles c_knots]. rewrite HL.
  destruct HF as (Hk & _).
  rewrite (comb_affine _ _ (c_poles c) P' dim A t i); [|apply (Nbas_sum eps); assumption|intros; apply HP; assumption].
  unfold image. f_equal. apply sumn_ext. intros e _. rewrite V. reflexivity.
Qed.

Lemma carry_rational dim trf A t c : 0 <= eps -> affine dim trf A t -> curve_fit eps c -> positive_weights dim (c_poles c) ->
  exists c', transform_rational dim trf c = Ok c' /\ carried eps dim (image dim A t) (Rational_ c) (Rational_ c').
Proof.
  intros He HA HF HW. destruct (weighted_moved dim trf A t (c_poles c) HA HW) as (P' & E0 & HL & Hw & HP).
  unfold transform_rational. destruct (separate_weights dim (c_poles c)) as (ps, ws).
  apply bind_inv in E0 as (ps' & -> & E0). cbn [bind]. rewrite E0. cbn [bind].
  destruct (fit_copy c P' HL HF) as (-> & HF'). eexists. split; [reflexivity|]. split; [cbn; repeat split; auto|].
  intros (u, v) Hu. cbn [admits fst] in Hu. cbn [point_at fst]. unfold rational_value, eval_rational_value.
  destruct (value_comb c u He HF Hu) as (O1 & q & E & V).
  assert (Hu' : kn (c_knots c) (c_deg c) <= u <= kn (c_knots c) (length P')) by (rewrite HL; exact Hu).
  destruct (value_comb _ u He HF' Hu') as (O2 & q' & E' & V'). rewrite O1, O2.
  cbn [eval_rational_rec Nat.eqb]. rewrite E. cbn [c_deg c_poles c_knots] in E', V' |- *. rewrite E'. cbn [bind].
  eexists _, _. split; [reflexivity|]. split; [reflexivity|]. intros i Hi. destruct HF as (Hk & _). rewrite HL in V'.
  set (B := fun j => Nbas (kn (c_knots c)) (length (c_poles c)) (c_deg c) j u) in *.
  assert (HD : 0 < comb (length (c_poles c)) B (c_poles c) dim).
  { apply comb_pos; [intros; apply (Nbas_nonneg eps); assumption|apply (Nbas_sum eps); assumption|].
    intros l Hl. apply HW, nth_In; exact Hl. }
  assert (HD' : comb (length (c_poles c)) B P' dim = comb (length (c_poles c)) B (c_poles c) dim)
    by (apply sumn_ext; intros l Hl; rewrite Hw by exact Hl; reflexivity).
  rewrite proj_val by (rewrite V', HD'; lra). rewrite !V'.
  rewrite (comb_rational _ B (c_poles c) P' dim A t i); [|lra|exact Hw|intros; apply HP; assumption].
  unfold image. f_equal. apply sumn_ext. intros e _. rewrite proj_val by (rewrite V; lra). rewrite !V. reflexivity.
Qed.

(** Surfaces *)
Definition tB (s : surf R) (u v : R) (l : nat) : R :=
  Nbas (kn (s_ku s)) (s_nU s) (s_degU s) (l mod s_nU s) u * Nbas (kn (s_kv s)) (s_nV s) (s_degV s) (l / s_nU s) v.
Lemma mod_grid i a j : (i < a)%nat -> ((i + a * j) mod a = i /\ (i + a * j) / a = j)%nat.
Proof.
  intros H. split.
  - rewrite Nat.mul_comm, Nat.mod_add by lia. apply Nat.mod_small; exact H.
  - rewrite Nat.mul_comm, Nat.div_add by lia. rewrite Nat.div_small by exact H. reflexivity.
Qed.
Lemma nU_pos s : surface_ok s -> (0 < s_nU s)%nat.
Proof. intros ((_ & H & _) & _). lia. Qed.
Lemma tensor_comb s u v c : surface_ok s ->
  tensor (s_ku s) (s_nU s) (s_degU s) (s_kv s) (s_nV s) (s_degV s) (s_poles s) c u v = comb (s_nU s * s_nV s) (tB s u v) (s_poles s) c.
Proof.
  intros Hs. unfold comb, tensor. rewrite Proof_Skin2.sumn_grid by (apply nU_pos; exact Hs).
  apply sumn_ext. intros j Hj. apply sumn_ext. intros i Hi. unfold tB.
  destruct (mod_grid i (s_nU s) j Hi) as (-> & ->). reflexivity.
Qed.
Lemma tB_nonneg s u v l : surface_ok s -> in_surface s u v -> (l < s_nU s * s_nV s)%nat -> 0 <= tB s u v l.
Proof.
  intros Hs (Hu & Hv) Hl. pose proof (nU_pos s Hs) as Hp. destruct Hs as (Hku & Hkv & _). apply Rmult_le_pos.
  - apply (Nbas_nonneg eps); [exact Hku|exact Hu|apply Nat.mod_upper_bound; lia].
  - apply (Nbas_nonneg eps); [exact Hkv|exact Hv|apply Nat.div_lt_upper_bound; lia].
Qed.
Lemma tB_sum s u v : surface_ok s -> in_surface s u v -> sumn (s_nU s * s_nV s) (tB s u v) = 1.
Proof.
  intros Hs (Hu & Hv). rewrite Proof_Skin2.sumn_grid by (apply nU_pos; exact Hs). destruct Hs as (Hku & Hkv & _).
  rewrite (sumn_ext (s_nV s) _ (fun j => Nbas (kn (s_kv s)) (s_nV s) (s_degV s) j v)); [apply (Nbas_sum eps); assumption|].
  intros j Hj. rewrite (sumn_ext (s_nU s) _ (fun i => Nbas (kn (s_kv s)) (s_nV s) (s_degV s) j v * Nbas (kn (s_ku s)) (s_nU s) (s_degU s) i u)).
  - rewrite sumn_scal, (Nbas_sum eps) by assumption. ring.
  - intros i Hi. unfold tB. destruct (mod_grid i (s_nU s) j Hi) as (-> & ->). ring.
Qed.

Lemma fit_scopy (s : surf R) P : length P = length (s_poles s) -> surface_fit eps s ->
  exists s', surf_copyPoles s P = Ok s' /\ s_poles s' = P /\ surface_fit eps s' /\ same_frame (Surface_ s) (Surface_ s') /\
    s_nU s' = s_nU s /\ s_nV s' = s_nV s /\ (forall u v, tB s' u v = tB s u v) /\ (forall u v, in_surface s u v -> in_surface s' u v).
Proof.
  intros HL (H1 & H2 & H3). unfold surf_copyPoles. rewrite HL, Nat.eqb_refl. eexists. split; [reflexivity|]. unfold with_u.
  unfold surface_fit, surface_ok, grid_ok, natural_surface, evaluable_surface, in_surface, s_nU, s_nV, tB in *.
  cbn [s_poles s_degU s_degV s_ku s_kv s_u1 s_u2 s_v1 s_v2 same_frame]. rewrite HL. tauto.
Qed.

Lemma carry_surface dim trf A t s : 0 <= eps -> affine dim trf A t -> surface_fit eps s ->
  exists s', transform_surface trf s = Ok s' /\ carried eps dim (image dim A t) (Surface_ s) (Surface_ s').
Proof.
  intros He HA HF. unfold transform_surface. destruct (poles_moved dim trf A t (s_poles s) HA) as (P' & -> & HL & HP). cbn [bind].
  destruct (fit_scopy s P' HL HF) as (s' & -> & EP & HF' & HS & Hn & Hm & HB & Hin). exists s'. split; [reflexivity|]. split; [exact HS|].
  intros (u, v) Hu. cbn [admits fst snd] in Hu. cbn [point_at fst snd].
  destruct HF as (F1 & F2 & F3), HF' as (F1' & F2' & F3').
  destruct (surface_value eps s u v He F1 F2 F3 Hu) as (q & E & V).
  destruct (surface_value eps s' u v He F1' F2' F3' (Hin u v Hu)) as (q' & E' & V').
  exists q, q'. split; [exact E|]. split; [exact E'|]. intros i Hi. rewrite V', tensor_comb, EP, Hn, Hm, HB by exact F1'.
  rewrite (comb_affine _ _ (s_poles s) P' dim A t i); [|apply tB_sum; assumption|].
  - unfold image. f_equal. apply sumn_ext. intros e _. rewrite V, tensor_comb by exact F1. reflexivity.
  - intros l Hl. apply HP; [exact Hi|]. destruct F1 as (_ & _ & ->). exact Hl.
Qed.

Lemma carry_rational_surface dim trf A t s : 0 <= eps -> affine dim trf A t -> surface_fit eps s -> positive_weights dim (s_poles s) ->
  exists s', transform_rational_surface dim trf s = Ok s' /\ carried eps dim (image dim A t) (RationalSurface_ s) (RationalSurface_ s').
Proof.
  intros He HA HF HW. destruct (weighted_moved dim trf A t (s_poles s) HA HW) as (P' & E0 & HL & Hw & HP).
  unfold transform_rational_surface. destruct (separate_weights dim (s_poles s)) as (ps, ws).
  apply bind_inv in E0 as (ps' & -> & E0). cbn [bind]. rewrite E0. cbn [bind].
  destruct (fit_scopy s P' HL HF) as (s' & -> & EP & HF' & HS & Hn & Hm & HB & Hin). exists s'. split; [reflexivity|]. split; [exact HS|].
  intros (u, v) Hu. cbn [admits fst snd] in Hu. cbn [point_at fst snd].
  destruct HF as (F1 & F2 & F3), HF' as (F1' & F2' & F3').
  assert (HN : length (s_poles s) = (s_nU s * s_nV s)%nat) by apply F1.
  assert (HD : 0 < comb (s_nU s * s_nV s) (tB s u v) (s_poles s) dim).
  { apply comb_pos; [intros; apply tB_nonneg; assumption|apply tB_sum; assumption|].
    intros l Hl. apply HW, nth_In. rewrite HN. exact Hl. }
  assert (HD' : comb (s_nU s * s_nV s) (tB s u v) P' dim = comb (s_nU s * s_nV s) (tB s u v) (s_poles s) dim)
    by (apply sumn_ext; intros l Hl; rewrite Hw by (rewrite HN; exact Hl); reflexivity).
  pose proof (surface_rational_value eps dim s u v He F1 F2 F3 Hu) as X. unfold tns in X.
  destruct X as (q & E & V); [rewrite tensor_comb by exact F1; lra|].
  pose proof (surface_rational_value eps dim s' u v He F1' F2' F3' (Hin u v Hu)) as X. unfold tns in X.
  destruct X as (q' & E' & V'); [rewrite tensor_comb, EP, Hn, Hm, HB, HD' by exact F1'; lra|].
  exists q, q'. split; [exact E|]. split; [exact E'|]. intros i Hi. rewrite V' by exact Hi. rewrite !tensor_comb, EP, Hn, Hm, HB by exact F1'.
  rewrite (comb_rational _ _ (s_poles s) P' dim A t i);
    [|lra|intros l Hl; apply Hw; rewrite HN; exact Hl|intros l Hl; apply HP; [exact Hi|rewrite HN; exact Hl]].
  unfold image. f_equal. apply sumn_ext. intros e He'. rewrite V by exact He'. rewrite !tensor_comb by exact F1. reflexivity.
Qed.

Lemma carry_geom dim trf A t g : 0 <= eps -> affine dim trf A t -> fit eps dim g ->
  exists g', transform_geom dim trf g = Ok g' /\ carried eps dim (image dim A t) g g'.
Proof.
  intros He HA HF. destruct g as [c|c|s|s]; cbn [fit transform_geom] in *.
  - destruct (carry_curve dim trf A t c He HA HF) as (c' & -> & H). eexists; split; [reflexivity|exact H].
  - destruct HF as (HF & HW). destruct (carry_rational dim trf A t c He HA HF HW) as (c' & -> & H). eexists; split; [reflexivity|exact H].
  - destruct (carry_surface dim trf A t s He HA HF) as (c' & -> & H). eexists; split; [reflexivity|exact H].
  - destruct HF as (HF & HW). destruct (carry_rational_surface dim trf A t s He HA HF HW) as (c' & -> & H). eexists; split; [reflexivity|exact H].
Qed.

Lemma carry_map dim trf A t f g : 0 <= eps -> affine dim trf A t -> fit eps dim g ->
  (forall x i, (i < dim)%nat -> image dim A t x i = f x i) ->
  exists g', transform_geom dim trf g = Ok g' /\ carried eps dim f g g'.
Proof.
  intros He HA HF Hf. destruct (carry_geom dim trf A t g He HA HF) as (g' & E & HS & HC). exists g'. split; [exact E|]. split; [exact HS|].
  intros x Hx. destruct (HC x Hx) as (q & q' & E1 & E2 & H). exists q, q'. split; [exact E1|]. split; [exact E2|].
  intros i Hi. rewrite H, Hf by exact Hi. reflexivity.
Qed.

Lemma diag_image dim (d t x : pt R) i : (i < dim)%nat -> image dim (fun i e => if Nat.eqb i e then d i else 0) t x i = d i * x i + t i.
Proof.
  intros Hi. unfold image. f_equal. rewrite (sumn_single dim _ i); [rewrite Nat.eqb_refl; reflexivity|exact Hi|].
  intros e He Hne. destruct (Nat.eqb_spec i e); [congruence|ring].
Qed.

(** A map that is diagonal plus constant *)
Lemma carry_diag dim trf (f : pt R -> pt R) (d t : pt R) g : 0 <= eps -> fit eps dim g ->
  (forall x, exists y, trf x = Ok y /\ forall i, (i < dim)%nat -> y i = f x i) ->
  (forall x i, (i < dim)%nat -> f x i = d i * x i + t i) ->
  exists g', transform_geom dim trf g = Ok g' /\ carried eps dim f g g'.
Proof.
  intros He HF Ht Hf. apply (carry_map dim trf (fun i e => if Nat.eqb i e then d i else 0) t f g He); [|exact HF|].
  - intros x. destruct (Ht x) as (y & E & Hy). exists y. split; [exact E|]. intros i Hi. rewrite diag_image, Hy, Hf by exact Hi. reflexivity.
  - intros x i Hi. rewrite diag_image, Hf by exact Hi. reflexivity.
Qed.

Lemma carry_translate dim v g : 0 <= eps -> fit eps dim g ->
  exists g', translate_geom dim v g = Ok g' /\ carried eps dim (shift v) g g'.
Proof.
  intros He HF. apply (carry_diag dim _ (shift v) (fun _ => 1) v g He HF).
  - intros x. eexists. split; [reflexivity|]. intros i _. unfold translated, padd, shift. cbn. reflexivity.
  - intros x i _. unfold shift. ring.
Qed.

Lemma carry_scale dim s o g : 0 <= eps -> fit eps dim g ->
  exists g', scale_geom dim s o g = Ok g' /\ carried eps dim (dilate s o) g g'.
Proof.
  intros He HF. apply (carry_diag dim _ (dilate s o) (fun _ => s) (fun i => o i - s * o i) g He HF).
  - intros x. eexists. split; [reflexivity|]. intros i _. unfold scaled, padd, pscal, psub, dilate. cbn. ring.
  - intros x i _. unfold dilate. ring.
Qed.

Lemma carry_scale_coord dim s k o g : 0 <= eps -> fit eps dim g -> (k < dim)%nat ->
  exists g', scale_coord_geom dim s k o g = Ok g' /\ carried eps dim (stretch s k o) g g'.
Proof.
  intros He HF Hk.
  apply (carry_diag dim _ (stretch s k o) (fun i => if Nat.eqb i k then s else 1) (fun i => if Nat.eqb i k then o i - s * o i else 0) g He HF).
  - intros x. replace (k <? dim)%nat with true by (symmetry; apply Nat.ltb_lt; exact Hk).
    eexists. split; [reflexivity|]. intros i _. unfold scaled_coord, stretch. destruct (Nat.eqb i k); cbn; ring.
  - intros x i _. unfold stretch. destruct (Nat.eqb i k); ring.
Qed.

Lemma carry_rotate2 a g : 0 <= eps -> fit eps 2 g ->
  exists g', rotate_geom2 cos sin a g = Ok g' /\ carried eps 2 (turn2 a) g g'.
Proof.
  intros He HF.
  pose (A := fun i e : nat => match i, e with O, O => cos a | O, _ => - sin a | _, O => sin a | _, _ => cos a end).
  assert (HI : forall x i, (i < 2)%nat -> image 2 A (fun _ => 0) x i = turn2 a x i).
  { intros x i Hi. unfold image, A, turn2. destruct i as [|[|i]]; [| |lia]; cbn; ring. }
  apply (carry_map 2 _ A (fun _ => 0) (turn2 a) g He); [|exact HF|exact HI].
  intros x. eexists. split; [reflexivity|]. intros i Hi. rewrite HI by exact Hi.
  unfold rotate2, turn2. destruct i as [|[|i]]; [| |lia]; cbn; ring.
Qed.

Lemma carry_rotate3 a ax g : 0 <= eps -> fit eps 3 g -> 0 < dot3 ax ax ->
  exists g', rotate_geom3 sqrt cos sin a ax g = Ok g' /\ carried eps 3 (turn3 a (unit_of ax)) g g'.
Proof.
  intros He HF Hax. set (n := unit_of ax).
  pose (A := fun i e : nat => turn3 a n (fun j => if Nat.eqb j e then 1 else 0) i).
  assert (HI : forall x i, (i < 3)%nat -> image 3 A (fun _ => 0) x i = turn3 a n x i).
  { intros x i Hi. unfold image, A, turn3, cross3, dot3. destruct i as [|[|[|i]]]; [| | |lia]; cbn; ring. }
  assert (HN : norm sqrt 3 ax = sqrt (dot3 ax ax)).
  { rewrite (Proof_Build.norm_R eps). f_equal. unfold dot3. cbn. ring. }
  apply (carry_map 3 _ A (fun _ => 0) (turn3 a n) g He); [|exact HF|exact HI].
  intros x. unfold rotate3, adim. rewrite HN. pose proof (sqrt_lt_R0 _ Hax) as Hs.
  destruct (neqb _ _) eqn:E; [apply (neqb_R eps) in E; cbn in E; lra|]. cbn [bind].
  eexists. split; [reflexivity|]. intros i Hi. rewrite HI by exact Hi. unfold turn3, cross3, dot3, n, unit_of.
  unfold dot3 in *. set (r := sqrt _) in *.
  destruct i as [|[|[|i]]]; [| | |lia]; cbn; fold r; unfold Rdiv; ring.
Qed.

(** Derivatives of every order of curves: the linear part acts *)
Lemma rv_sum k n p u d : knots_ok k n p -> kn k p <= u <= kn k n -> (0 < d)%nat -> sumn n (fun j => rv eps k n p u d j) = 0.
Proof.
  intros Hk Hu Hd. destruct (spn_ok eps k n p Hk u Hu) as (_ & Hl & _ & Hst).
  destruct (Nat.le_gt_cases d p) as [Hdp|Hdp]; [|apply sumn_zero; intros; apply rv_big; exact Hdp].
  rewrite (sumn_window n 0 (S (spn eps k n p u))); [|lia|intros j Hj Hw; apply rv_high; lia].
  rewrite (sumn_ext _ _ (fun i => ffall p d * NH (kn k) (spn eps k n p u) (repeat (1, 0) d ++ repeat (u, 1) (p - d)) i)).
  - rewrite sumn_scal. destruct Hk as (Hlen & Hpn & Hnd & _).
    rewrite (NH_sum (kn k) (spn eps k n p u) (n + p)); [|intros x y H1 H2; apply Hnd; lia|exact Hst| |];
      try (rewrite app_length, !repeat_length; lia).
    destruct d as [|d]; [lia|]. simpl. ring.
  - intros j Hj. cbn [plus]. unfold rv. destruct (Nat.leb_spec j (spn eps k n p u)); [reflexivity|lia].
Qed.

Lemma carry_derivative dim trf A t c u d : 0 <= eps -> affine dim trf A t -> curve_fit eps c -> (0 < d)%nat ->
  kn (c_knots c) (c_deg c) <= u <= kn (c_knots c) (length (c_poles c)) ->
  exists c' q q', transform_curve trf c = Ok c' /\ value c u d = Ok q /\ value c' u d = Ok q' /\
    forall i, (i < dim)%nat -> q' i = sumn dim (fun e => A i e * q e).
Proof.
  intros He HA HF Hd Hu. unfold transform_curve. destruct (poles_moved dim trf A t (c_poles c) HA) as (P' & -> & HL & HP). cbn [bind].
  destruct (fit_copy c P' HL HF) as (-> & HF').
  assert (Hu' : kn (c_knots c) (c_deg c) <= u <= kn (c_knots c) (length P')) by (rewrite HL; exact Hu).
  destruct (value_comb c u He HF Hu) as (O1 & _). destruct (value_comb _ u He HF' Hu') as (O2 & _).
  destruct HF as (Hk & Hev & _).
  destruct (rv_eval eps _ _ _ Hk u d (c_poles c) Hu eq_refl Hev) as (q & E & V).
  destruct (rv_eval eps _ _ _ Hk u d P' Hu HL Hev) as (q' & E' & V').
  eexists _, q, q'. split; [reflexivity|]. unfold value. rewrite O1, O2. split; [exact E|]. split; [exact E'|].
  intros i Hi. rewrite V'.
  pose proof (comb_lin (length (c_poles c)) (rv eps (c_knots c) (length (c_poles c)) (c_deg c) u d) (c_poles c) P' dim A (fun _ => t i) i) as HC.
  unfold comb, polec in HC. unfold pole in V |- *. rewrite HC by (intros l Hl; apply HP; assumption).
  rewrite (sumn_ext _ (fun l => rv _ _ _ _ _ _ l * t i) (fun l => t i * rv eps (c_knots c) (length (c_poles c)) (c_deg c) u d l)) by (intros; ring).
  rewrite sumn_scal, rv_sum by assumption. rewrite Rmult_0_r, Rplus_0_r. apply sumn_ext. intros e _. rewrite V. reflexivity.
Qed.
End AtR.
