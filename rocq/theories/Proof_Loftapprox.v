(** Proofs about lofts approximated along a spine. *)
From Coq Require Import List Arith ZArith Reals Lia Lra Bool.
From Verif Require Import Model_Base Model_Knots Model_Math Model_Basis Model_Curve Model_Interp Model_Surface Model_Unify Model_Skin Model_Spine
  Spec_Base Spec_Basis Spec_Eval Spec_Knots Spec_Interp Spec_Surface Spec_Unify Spec_Approx Spec_Solve Spec_Skin Spec_Spine Spec_Loftapprox
  Proof_Base Proof_Eval Proof_Interp Proof_Interp3 Proof_Interp4 Proof_Ctor Proof_Builders Proof_Surface Proof_SurfEdit2 Proof_Surface2 Proof_Json Proof_Text Proof_Lsq
  Proof_Skin1 Proof_Skin2 Proof_Skin3 Proof_Skin6 Proof_Skin7 Proof_Skin9 Proof_Spine1 Proof_Spine2 Proof_Spine4 Proof_Spine5.
Import ListNotations.
Local Open Scope R_scope.

Section AtR.
Variable eps : R.
Local Hint Extern 0 (Num R) => exact (NumR eps) : typeclass_instances.

Lemma adim_station ts : (0 < length ts)%nat -> 0 <= eps -> eps < kn ts (length ts - 1) - kn ts 0 ->
  adimension ts = Ok (map (station ts) (seq 0 (length ts))).
Proof.
  intros L He Hd. unfold adimension. rewrite (back_nth ts 0), (front_nth ts 0) by lia. cbn [bind].
  change (nth (length ts - 1) ts 0) with (kn ts (length ts - 1)). change (nth 0 ts 0) with (kn ts 0). nsimp.
  set (d := kn ts (length ts - 1) - kn ts 0) in *. rewrite nabs_R, Rabs_right by lra. destruct (Rltb_spec eps d) as [_|]; [|lra].
  rewrite (mapM_ok _ (fun x => x / d)) by (intros x _; apply (divc_ok eps); lra). f_equal.
  apply (nth_ext _ _ 0 0); [rewrite !map_length, seq_length; reflexivity|]. intros i Hi. rewrite map_length in Hi.
  rewrite (nth_indep _ _ (0 / d)) by (rewrite map_length; exact Hi). rewrite (map_nth (fun x => x / d)), nth_map_seq by exact Hi. reflexivity.
Qed.


Lemma stations_nth ts j : (j < length ts)%nat -> nth j (stations ts) 0 = station ts j.
Proof. intros H. unfold stations. apply nth_map_seq. exact H. Qed.
Lemma stations_length ts : length (stations ts) = length ts.
Proof. unfold stations. rewrite map_length, seq_length. reflexivity. Qed.

(** What the function does once the sections and their feet are known. *)
Lemma loft_approx_unfold ldlt (extrema : curve R -> curve R -> result R) dt c0 rest spine (ku : list R) nu p q nv n_u : let cs := c0 :: rest in
  0 < eps -> loftable eps c0 cs -> (2 <= length cs)%nat -> (2 <= n_u)%nat -> knots_ok ku nu p ->
  c_lo c0 <= kn ku 0 -> kn ku (length ku - 1) <= c_hi c0 ->
  (forall m k us, common_form eps c0 cs m k us -> exists ts, feet_of extrema spine us ts /\ ordered_feet eps ts) ->
  exists m k us ts Q, common_form eps c0 cs m k us /\ feet_of extrema spine us ts /\ ordered_feet eps ts /\ unify_curves cs = Ok us /\ length ts = length cs /\
    length Q = (n_u * length cs)%nat /\
    (forall i j c, (i < n_u)%nat -> nth_error us j = Some c -> value c (even_param ku n_u i) 0 = Ok (nth (i + n_u * j) Q (fun _ => 0))) /\
    loft_approx_knots ldlt extrema dt cs spine ku p q nv n_u =
      (let* kv := build_simple_mult_flat_knots_range (station ts 0) (station ts (length cs - 1)) nv q in
       let* P := approx_grid ldlt dt Q ku kv (even_params ku n_u) (stations ts) p q in
       mk_surf P ku kv p q).
Proof.
  intros cs He Hl H2 Hnu Hk Hlo Hhi HF.
  destruct (unify_curves_all eps c0 rest He Hl) as (k & us & EU & LU & Fk & Lk & Hm & _ & V). fold cs in EU, LU, V, Hm.
  set (m := list_max (map c_deg cs)) in *.
  assert (CF : common_form eps c0 cs m k us).
  { split; [exact LU|]. intros j c Hj. destruct (V j c Hj) as (P' & N' & _ & L' & S'). exists P'. split; [exact N'|]. split; [exact L'|].
    intros x d Hx. destruct (S' x d Hx) as (_ & R). exact R. }
  destruct (HF m k us CF) as (ts & F1 & F2). assert (Lt : length us = length ts) by (clear - F1; induction F1; cbn [length]; congruence).
  assert (Us : forall j c, nth_error us j = Some c -> exists P, c = mk m P k (c_lo c0) (c_hi c0) /\ clamped_info eps m (P, k, m) /\ (length P + m + 1 = length k)%nat).
  { intros j c Hj. pose proof (nth_error_lt _ _ _ Hj) as Hlt. rewrite LU in Hlt.
    destruct (nth_error cs j) as [c1|] eqn:Ej; [|apply nth_error_None in Ej; lia].
    destruct (V j c1 Ej) as (P & N & C & L & _). exists P. rewrite Hj in N. injection N as ->. auto. }
  destruct (range_spec eps (kn ku 0) (kn ku (length ku - 1)) n_u) as (_ & HR). destruct (HR Hnu) as (u & EU2 & Lu & U0 & Ul & Ui & _).
  assert (Eu : u = even_params ku n_u).
  { apply (nth_ext _ _ 0 0); [unfold even_params; rewrite map_length, seq_length; exact Lu|]. intros i Hi. unfold even_params.
    rewrite nth_map_seq by lia. exact (Ui i ltac:(lia)). }
  assert (Lku : (0 < length ku)%nat) by (destruct Hk as (L & _); lia).
  assert (Hdom : kn ku 0 <= kn ku (length ku - 1)) by (apply Hk; lia).
  assert (Hev : forall i, (i < n_u)%nat -> kn ku 0 <= even_param ku n_u i <= kn ku (length ku - 1)).
  { intros i Hi. unfold even_param. set (h := kn ku (length ku - 1) - kn ku 0).
    assert (Hn1 : 0 < INR (n_u - 1)) by (apply lt_0_INR; lia). assert (Hi1 : 0 <= INR i <= INR (n_u - 1)) by (split; [apply pos_INR|apply le_INR; lia]).
    assert (T : 0 <= INR i / INR (n_u - 1) <= 1).
    { split; [apply Rle_mult_inv_pos; lra|]. apply (Rmult_le_reg_r (INR (n_u - 1))); [lra|]. unfold Rdiv. rewrite Rmult_assoc, Rinv_l by lra. lra. }
    replace (INR i * (h / INR (n_u - 1))) with (INR i / INR (n_u - 1) * h) by (field; lra). assert (0 <= h) by (unfold h; lra). unfold h in *. nra. }
  assert (HV : forall i j c, (i < n_u)%nat -> nth_error us j = Some c -> exists z, value c (even_param ku n_u i) 0 = Ok z).
  { intros i j c Hi Hj. destruct (Us j c Hj) as (P & -> & C & L). destruct (clamped_ok eps m P k He C) as (Kk & Kp & Kn).
    pose proof (Hev i Hi) as HE. rewrite (value_guard_eval eps) by (cbn [c_lo c_hi]; lra). cbn [c_knots c_poles c_deg].
    assert (D : eval_dom eps k (length P) m) by (left; unfold stack_max; lia).
    assert (HI : kn k m <= even_param ku n_u i <= kn k (length P)) by (rewrite Kp, Kn, Fk, Lk; lra).
    destruct (rv_eval eps k (length P) m Kk (even_param ku n_u i) 0 P HI eq_refl D) as (w & W & _). eauto. }
  assert (ES : mapM (fun c => mk_curve (c_poles c) (c_knots c) (c_deg c)) us = Ok us).
  { rewrite (mapM_ok _ (fun c => c)); [rewrite map_id; reflexivity|]. intros c Hc. apply In_nth_error in Hc as (j & Hj).
    destruct (Us j c Hj) as (P & -> & C & L). cbn [c_poles c_knots c_deg]. destruct (clamped_ok eps m P k He C) as ((K1 & K2 & K3 & _) & _).
    rewrite (mk_curve_accepts eps) by (auto; lia). rewrite <- Fk, <- Lk. reflexivity. }
  assert (EQ : exists Q, mapM (fun ix => let* s := get us (ix / n_u) in let* x := get u (ix mod n_u) in value s x 0) (seq 0 (n_u * length us)) = Ok Q).
  { apply mapM_all_ok. intros ix Hix. apply in_seq in Hix. assert (Hj : (ix / n_u < length us)%nat) by (apply Nat.div_lt_upper_bound; lia).
    destruct (nth_error us (ix / n_u)) as [c|] eqn:Ec; [|apply nth_error_None in Ec; lia]. rewrite (proj2 (get_some _ _ _) Ec). cbn [bind].
    assert (Hi : (ix mod n_u < n_u)%nat) by (apply Nat.mod_upper_bound; lia).
    rewrite (get_nth u _ 0) by lia. cbn [bind]. fold (kn u (ix mod n_u)). rewrite (Ui _ Hi). exact (HV _ _ c Hi Ec). }
  destruct EQ as (Q & EQ). exists m, k, us, ts, Q. split; [exact CF|]. split; [exact F1|]. split; [exact F2|]. split; [exact EU|]. split; [congruence|].
  destruct (mapM_nth _ _ _ EQ) as (LQ & NQ). rewrite seq_length, LU in LQ.
  split; [exact LQ|]. split.
  { intros i j c Hi Hj. pose proof (nth_error_lt _ _ _ Hj) as Hlt.
    assert (Hix : (i + n_u * j < n_u * length us)%nat) by (clear - Hi Hlt; nia).
    destruct (NQ (i + n_u * j)%nat (i + n_u * j)%nat) as (b & Nb & Eb).
    { rewrite (nth_error_nth' _ 0%nat) by (rewrite seq_length; exact Hix). rewrite seq_nth by exact Hix. reflexivity. }
    refine (eq_trans _ (f_equal Ok (eq_sym (nth_error_nth _ _ (fun _ => 0) Nb)))). refine (eq_trans _ Eb).
    replace ((i + n_u * j) / n_u)%nat with j by (rewrite Nat.mul_comm, Nat.div_add, Nat.div_small; lia).
    replace ((i + n_u * j) mod n_u)%nat with i by (rewrite Nat.mul_comm, Nat.mod_add, Nat.mod_small; lia).
    rewrite (proj2 (get_some _ _ _) Hj). cbn [bind]. rewrite (get_nth u _ 0) by lia. cbn [bind]. change (nth i u 0) with (kn u i). rewrite (Ui _ Hi). reflexivity. }
  unfold loft_approx_knots. destruct (Nat.ltb_spec (length cs) 2); [lia|]. rewrite EU. cbn [bind].
  rewrite (proj2 (mapM_ok_iff _ _ _) F1). cbn [bind]. rewrite (adim_station ts) by (try lia; try lra; apply F2). cbn [bind]. rewrite ES. cbn [bind].
  rewrite (front_nth ku 0), (back_nth ku 0) by lia. cbn [bind]. change (nth 0 ku 0) with (kn ku 0). change (nth (length ku - 1) ku 0) with (kn ku (length ku - 1)).
  rewrite EU2. cbn [bind]. rewrite EQ. cbn [bind]. fold (stations ts). rewrite (front_nth (stations ts) 0), (back_nth (stations ts) 0) by (rewrite stations_length; lia). cbn [bind].
  rewrite !stations_nth, stations_length by (rewrite ?stations_length; lia). rewrite <- Eu. replace (length ts) with (length cs) by congruence. reflexivity.
Qed.
End AtR.
