(** Lofts approximated along a spine: the surface carries the sections; when it is found. *)
From Coq Require Import List Arith ZArith Reals Lia Lra Bool.
From Verif Require Import Model_Base Model_Knots Model_Math Model_Basis Model_Curve Model_Interp Model_Surface Model_Unify Model_Skin Model_Spine
  Spec_Base Spec_Basis Spec_Eval Spec_Knots Spec_Interp Spec_Surface Spec_Unify Spec_Approx Spec_Solve Spec_Skin Spec_Spine Spec_Loftapprox
  Proof_Base Proof_Eval Proof_Interp Proof_Interp3 Proof_Interp4 Proof_Ctor Proof_Builders Proof_Surface Proof_SurfEdit Proof_SurfEdit2 Proof_Surface2 Proof_Surface3 Proof_Json Proof_Text Proof_Lsq
  Proof_Gauss Proof_Skin1 Proof_Skin2 Proof_Skin3 Proof_Skin6 Proof_Skin7 Proof_Skin9 Proof_Spine1 Proof_Spine2 Proof_Spine4 Proof_Spine5 Proof_Loftapprox Proof_Loftapprox2 Proof_Loftapprox3.
Import ListNotations.
Local Open Scope R_scope.

Lemma Forall2_pick {A B} (R : A -> B -> Prop) l : (forall a, In a l -> exists b, R a b) -> exists bs, Forall2 R l bs.
Proof.
  induction l as [|a l IH]; intros H; [exists []; constructor|]. destruct (H a (or_introl eq_refl)) as (b & Hb).
  destruct IH as (bs & Hbs); [intros x Hx; apply H; right; exact Hx|]. exists (b :: bs). constructor; assumption.
Qed.
Lemma Forall2_at {A B} (R : A -> B -> Prop) l bs d j a : Forall2 R l bs -> nth_error l j = Some a -> R a (nth j bs d).
Proof. intros F. revert j. induction F; intros [|j] Hj; try discriminate; [injection Hj as <-; assumption|]. apply IHF. exact Hj. Qed.

Section AtR.
Variable eps : R.
Local Hint Extern 0 (Num R) => exact (NumR eps) : typeclass_instances.

(** Every parameter of the first section corresponds to one of any other. *)
Lemma rescale_onto c0 c cs y : 0 < eps -> loftable eps c0 cs -> In c0 cs -> In c cs -> c_lo c0 <= y <= c_hi c0 ->
  exists x, c_lo c <= x <= c_hi c /\ rescale (c_knots c0) (c_knots c) x = y.
Proof.
  intros He Hl H0 Hc Hx. destruct (proj1 Hl c Hc) as ((CI & O1 & O2) & _). destruct (proj1 Hl c0 H0) as ((CI0 & O3 & O4) & _).
  pose proof (clamped_span eps _ _ _ He CI) as H1. pose proof (clamped_span eps _ _ _ He CI0) as H2.
  unfold rescale. rewrite O1, O2. rewrite O3, O4 in Hx.
  set (a := first_knot (c_knots c)) in *. set (b := last_knot (c_knots c)) in *. set (a0 := first_knot (c_knots c0)) in *. set (b0 := last_knot (c_knots c0)) in *.
  assert (T : 0 <= (y - a0) / (b0 - a0) <= 1).
  { split; [apply Rle_mult_inv_pos; lra|]. apply (Rmult_le_reg_r (b0 - a0)); [lra|]. unfold Rdiv. rewrite Rmult_assoc, Rinv_l by lra. lra. }
  exists (a + (y - a0) / (b0 - a0) * (b - a)). split; [split; nra|]. field. lra.
Qed.

Lemma loft_approx_exact ldlt (extrema : curve R -> curve R -> result R) dt c0 rest spine (ku : list R) nu p q n_u s : let cs := c0 :: rest in
  0 < eps -> exact_solver ldlt -> loftable eps c0 cs -> knots_ok ku nu p -> (p <= 12)%nat -> (q <= 12)%nat -> (q < length cs)%nat -> (2 <= n_u)%nat ->
  kn ku 0 = kn ku p -> kn ku (length ku - 1) = kn ku nu -> kn ku 0 = c_lo c0 -> kn ku (length ku - 1) = c_hi c0 ->
  (forall c, In c cs -> spanned eps dt ku nu p c0 c) -> resolve eps ku nu p (even_params ku n_u) ->
  (forall m k us, common_form eps c0 cs m k us -> exists ts, feet_of extrema spine us ts /\ ordered_feet eps ts) ->
  (forall ts kv, ordered_feet eps ts -> length ts = length cs ->
     (exists m k us, common_form eps c0 cs m k us /\ feet_of extrema spine us ts) ->
     build_simple_mult_flat_knots_range (station ts 0) (station ts (length cs - 1)) (length cs) q = Ok kv ->
     resolve eps kv (length cs) q (stations ts)) ->
  loft_approx_knots ldlt extrema dt cs spine ku p q (length cs) n_u = Ok s ->
  (2 <= length cs)%nat /\ s_degU s = p /\ s_degV s = q /\ s_ku s = ku /\ s_u1 s = c_lo c0 /\ s_u2 s = c_hi c0 /\
  exists m k us ts, common_form eps c0 cs m k us /\ feet_of extrema spine us ts /\ s_v1 s = station ts 0 /\ s_v2 s = station ts (length cs - 1) /\
    forall j c, nth_error cs j = Some c -> carries eps dt s c0 c (station ts j).
Proof.
  intros cs He Hex Hl Hk Hp Hq Hnv Hnu K0 K1 Hlo Hhi Hsp Hres HF Hrv E.
  assert (H2 : (2 <= length cs)%nat). { unfold loft_approx_knots in E. destruct (Nat.ltb_spec (length cs) 2); [discriminate|assumption]. }
  destruct (loft_approx_unfold eps ldlt extrema dt c0 rest spine ku nu p q (length cs) n_u He Hl H2 Hnu Hk ltac:(lra) ltac:(lra) HF) as (m & k & us & ts & Q & CF & F1 & F2 & _ & Lt & LQ & VQ & EE).
  fold cs in EE, Lt, LQ, CF. rewrite EE in E. clear EE. apply bind_inv in E as (kv & EK & E). apply bind_inv in E as (P & EP & E).
  apply mk_surf_inv in E. pose proof (station_span eps ts ltac:(lra) F2) as SS. rewrite Lt in SS.
  assert (Hab : station ts 0 < station ts (length cs - 1)) by lra.
  destruct (range_knots eps _ _ (length cs) q kv Hnv Hab EK) as (Hkv & Kvp & Kvn & Kv0 & Kvl & Kve & _).
  assert (Hev : evaluable2 eps ku nu p kv (length cs) q) by (left; lia).
  assert (Hdom : kn ku 0 <= kn ku (length ku - 1)) by (apply Hk; destruct Hk as (L & _); lia).
  assert (Hu : forall x, In x (even_params ku n_u) -> kn ku p <= x <= kn ku nu).
  { intros x Hx. apply evens_In in Hx as (i & Hi & ->). pose proof (even_in ku n_u i Hnu Hi Hdom). lra. }
  assert (Hv : forall x, In x (stations ts) -> kn kv q <= x <= kn kv (length cs)).
  { intros x Hx. apply stations_In in Hx as (j & Hj & ->). pose proof (station_in eps ts j ltac:(lra) F2 Hj). rewrite Lt in *. rewrite Kvp, Kvn. lra. }
  destruct (approx_grid_ok eps ku kv nu (length cs) p q Hk Hkv Hev ldlt dt Q _ _ P Hex Hu Hv EP) as (LP & _ & HP).
  split; [exact H2|]. split; [rewrite E; reflexivity|]. split; [rewrite E; reflexivity|]. split; [rewrite E; reflexivity|]. split; [rewrite E; exact Hlo|]. split; [rewrite E; exact Hhi|].
  exists m, k, us, ts. split; [exact CF|]. split; [exact F1|]. split; [rewrite E; exact Kv0|]. split; [rewrite E; exact Kvl|].
  destruct (Forall2_pick _ cs Hsp) as (Ps & FP).
  assert (HPj : forall j c, nth_error cs j = Some c -> length (nth j Ps []) = nu /\ forall x d, c_lo c <= x <= c_hi c -> exists z z',
    value c x d = Ok z /\ eval_value (rescale (c_knots c0) (c_knots c) x) ku (nth j Ps []) p d = Ok z' /\
    forall i, (i < dt)%nat -> ratio (c_knots c0) (c_knots c) ^ d * z' i = z i) by (intros j c Hj; exact (Forall2_at _ _ _ [] j c FP Hj)).
  assert (Rows : forall c, (c < dt)%nat -> forall a j, (a < nu)%nat -> (j < length cs)%nat ->
     sumn (length cs) (fun b => rv eps kv (length cs) q (nth j (stations ts) 0) 0 b * pole P c (a + nu * b)) = pole (nth j Ps []) c a).
  { intros c Hc. apply (lsq_rows eps ku kv nu (length cs) p q Hk Hkv Hev Q P (even_params ku n_u) (stations ts) c (fun j a => pole (nth j Ps []) c a)); try assumption.
    - rewrite stations_length. exact Lt.
    - apply Hrv; [exact F2|exact Lt| |exact EK]. exists m, k, us. auto.
    - intros P' LP'. exact (HP c P' Hc LP').
    - rewrite evens_length. intros i j Hi Hj. rewrite evens_nth by exact Hi.
      destruct (nth_error cs j) as [cj|] eqn:Ej; [|apply nth_error_None in Ej; lia].
      destruct CF as (LU & CF). destruct (CF j cj Ej) as (Pj & Nj & LPj & Vj). pose proof (VQ i j _ Hi Nj) as VQj.
      pose proof (even_in ku n_u i Hnu Hi Hdom) as HE.
      destruct (rescale_onto c0 cj cs (even_param ku n_u i) He Hl (or_introl eq_refl) (nth_error_In _ _ Ej) ltac:(lra)) as (x & Hx & Rx).
      destruct (Vj x 0%nat Hx) as (z & z' & Z & Z' & RZ). rewrite Rx in Z'. rewrite VQj in Z'. injection Z' as <-.
      destruct (HPj j cj Ej) as (LPs & VPs). destruct (VPs x 0%nat Hx) as (w & w' & W & W' & RW). rewrite W in Z. injection Z as <-. rewrite Rx in W'.
      assert (HI : kn ku p <= even_param ku n_u i <= kn ku nu) by lra.
      destruct (rv_eval eps ku nu p Hk _ 0 _ HI LPs (ev2_1 eps _ _ _ _ _ _ Hev)) as (w2 & W2 & V2). rewrite W' in W2. injection W2 as <-.
      specialize (RZ c). specialize (RW c Hc). cbn [pow] in RZ, RW. rewrite <- V2.
      rewrite Rmult_1_l in RW. rewrite RW, <- RZ. symmetry. apply Rmult_1_l. }
  intros j cj Hj x du Hx. pose proof (rescale_in eps c0 cj cs x He Hl (or_introl eq_refl) (nth_error_In _ _ Hj) Hx) as HR.
  assert (Hjl : (j < length cs)%nat) by (apply nth_error_Some; congruence).
  destruct (HPj j cj Hj) as (LPs & VPs). destruct (VPs x du Hx) as (w & w' & W & W' & RW).
  assert (HI : kn ku p <= rescale (c_knots c0) (c_knots cj) x <= kn ku nu) by lra.
  destruct (rv_eval eps ku nu p Hk _ du _ HI LPs (ev2_1 eps _ _ _ _ _ _ Hev)) as (w2 & W2 & V2). rewrite W' in W2. injection W2 as <-.
  pose proof (station_in eps ts j ltac:(lra) F2 ltac:(lia)) as HS. rewrite Lt in HS.
  assert (Hin : in_rect ku nu p kv (length cs) q (rescale (c_knots c0) (c_knots cj) x) (station ts j)) by (split; [exact HI|rewrite Kvp, Kvn; exact HS]).
  destruct (surf_rv eps ku kv nu (length cs) p q Hk Hkv Hev P _ _ du 0 LP Hin) as (z' & EZ & VZ).
  exists w, z'. split; [exact W|]. split.
  - unfold surf_value, out_u, out_v. rewrite E. cbn [s_degU s_degV s_ku s_kv s_poles s_u1 s_u2 s_v1 s_v2]. nsimp. cbn [neps NumR].
    rewrite Hlo, Hhi, Kv0, Kvl.
    match goal with |- context [Rltb ?a ?b] => destruct (Rltb_spec a b); [lra|] end.
    match goal with |- context [Rltb ?a ?b] => destruct (Rltb_spec a b); [lra|] end.
    match goal with |- context [Rltb ?a ?b] => destruct (Rltb_spec a b); [lra|] end.
    match goal with |- context [Rltb ?a ?b] => destruct (Rltb_spec a b); [lra|] end. cbn [orb]. exact EZ.
  - intros i Hi. rewrite <- (RW i Hi). f_equal. rewrite VZ, V2. rewrite (sumn_cross (length cs) nu). apply sumn_ext. intros a Ha. f_equal.
    rewrite <- (Rows i Hi a j Ha Hjl). rewrite stations_nth by lia. reflexivity.
Qed.

Lemma loft_approx_finds ldlt (extrema : curve R -> curve R -> result R) dt c0 rest spine (ku : list R) nu p q n_u : let cs := c0 :: rest in
  0 < eps -> complete_solver ldlt -> loftable eps c0 cs -> (2 <= length cs)%nat -> knots_ok ku nu p -> (p <= 12)%nat -> (q <= 12)%nat -> (q < length cs)%nat -> (2 <= n_u)%nat -> (nu <= n_u)%nat ->
  kn ku 0 = kn ku p -> kn ku (length ku - 1) = kn ku nu -> kn ku 0 = c_lo c0 -> kn ku (length ku - 1) = c_hi c0 ->
  resolve eps ku nu p (even_params ku n_u) ->
  (forall m k us, common_form eps c0 cs m k us -> exists ts, feet_of extrema spine us ts /\ ordered_feet eps ts) ->
  (forall ts kv, ordered_feet eps ts -> length ts = length cs ->
     (exists m k us, common_form eps c0 cs m k us /\ feet_of extrema spine us ts) ->
     build_simple_mult_flat_knots_range (station ts 0) (station ts (length cs - 1)) (length cs) q = Ok kv ->
     resolve eps kv (length cs) q (stations ts)) ->
  (Z.of_nat (nu + p + 1) < 2 ^ 64)%Z -> (Z.of_nat (length cs + q + 1) < 2 ^ 64)%Z -> (Z.of_nat (nu * length cs) < 2 ^ 64)%Z ->
  exists s, loft_approx_knots ldlt extrema dt cs spine ku p q (length cs) n_u = Ok s.
Proof.
  intros cs He Hco Hl H2 Hk Hp Hq Hnv Hnu Hnn K0 K1 Hlo Hhi Hres HF Hrv B1 B2 B3.
  destruct (loft_approx_unfold eps ldlt extrema dt c0 rest spine ku nu p q (length cs) n_u He Hl H2 Hnu Hk ltac:(lra) ltac:(lra) HF) as (m & k & us & ts & Q & CF & F1 & F2 & _ & Lt & LQ & VQ & EE).
  fold cs in EE, Lt, LQ, CF. rewrite EE. pose proof (station_span eps ts ltac:(lra) F2) as SS. rewrite Lt in SS.
  assert (Hab : station ts 0 < station ts (length cs - 1)) by lra.
  destruct (build_range_spec eps _ _ (length cs) q Hnv Hab) as (kv & EK & _). rewrite EK. cbn [bind].
  destruct (range_knots eps _ _ (length cs) q kv Hnv Hab EK) as (Hkv & Kvp & Kvn & Kv0 & Kvl & Kve & _).
  assert (Hev : evaluable2 eps ku nu p kv (length cs) q) by (left; lia).
  assert (Hdom : kn ku 0 <= kn ku (length ku - 1)) by (apply Hk; destruct Hk as (L & _); lia).
  assert (Hu : forall x, In x (even_params ku n_u) -> kn ku p <= x <= kn ku nu).
  { intros x Hx. apply evens_In in Hx as (i & Hi & ->). pose proof (even_in ku n_u i Hnu Hi Hdom). lra. }
  assert (Hv : forall x, In x (stations ts) -> kn kv q <= x <= kn kv (length cs)).
  { intros x Hx. apply stations_In in Hx as (j & Hj & ->). pose proof (station_in eps ts j ltac:(lra) F2 Hj). rewrite Lt in *. rewrite Kvp, Kvn. lra. }
  destruct (approx_grid_returns eps ku kv nu (length cs) p q Hk Hkv Hev ldlt dt Q (even_params ku n_u) (stations ts) Hco Hu Hv Hres) as (P & EP).
  { apply Hrv; [exact F2|exact Lt| |exact EK]. exists m, k, us. auto. }
  { refine (Nat.le_trans _ _ _ _ (Nat.eq_le_incl _ _ (eq_sym LQ))). nia. }
  { refine (Nat.le_trans _ _ _ _ (Nat.eq_le_incl _ _ (eq_sym LQ))). rewrite evens_length, stations_length, Lt. lia. }
  destruct (approx_grid_ok eps ku kv nu (length cs) p q Hk Hkv Hev ldlt dt Q _ _ P (proj1 Hco) Hu Hv EP) as (LP & _).
  rewrite EP. cbn [bind]. pose proof Hk as (Lk & Hpn & Nk & _). pose proof Hkv as (Lkv & Hqn & Nkv & _). eexists. apply (mk_surf_accepts eps); try assumption; rewrite ?Lk, ?Lkv, ?LP; try lia.
Qed.

Lemma loft_approx_default ldlt (extrema : curve R -> curve R -> result R) dt c0 rest spine q_max s : let cs := c0 :: rest in
  let q := Nat.max (Nat.min q_max (length cs - 1)) 1 in
  0 < eps -> exact_solver ldlt -> loftable eps c0 cs -> (q_max <= 12)%nat ->
  (forall us c, unify_curves cs = Ok us -> nth_error us 0 = Some c ->
     resolve eps (c_knots c) (length (c_poles c)) (c_deg c) (even_params (c_knots c) (Nat.max (4 * length (c_poles c)) 30))) ->
  (forall m k us, common_form eps c0 cs m k us -> exists ts, feet_of extrema spine us ts /\ ordered_feet eps ts) ->
  (forall ts kv, ordered_feet eps ts -> length ts = length cs ->
     (exists m k us, common_form eps c0 cs m k us /\ feet_of extrema spine us ts) ->
     build_simple_mult_flat_knots_range (station ts 0) (station ts (length cs - 1)) (length cs) q = Ok kv ->
     resolve eps kv (length cs) q (stations ts)) ->
  loft_approx ldlt extrema dt cs spine q_max = Ok s ->
  (2 <= length cs)%nat /\ s_degU s = list_max (map c_deg cs) /\ s_degV s = q /\ s_u1 s = c_lo c0 /\ s_u2 s = c_hi c0 /\
  exists m k us ts, common_form eps c0 cs m k us /\ feet_of extrema spine us ts /\ s_v1 s = station ts 0 /\ s_v2 s = station ts (length cs - 1) /\
    forall j c, nth_error cs j = Some c -> carries eps dt s c0 c (station ts j).
Proof.
  intros cs q He Hex Hl Hq Hru HF Hrv E. unfold loft_approx in E.
  destruct (Nat.ltb_spec (length cs) 2) as [|H2]; [discriminate|].
  destruct (unify_curves_all eps c0 rest He Hl) as (k & us & EU & LU & Fk & Lk & Hm & _ & V). fold cs in EU, LU, V, Hm.
  set (m := list_max (map c_deg cs)) in *. rewrite EU in E. cbn [bind] in E.
  destruct (V 0%nat c0 eq_refl) as (P0 & N0 & C0 & Len0 & _).
  destruct us as [|u0 us']; [discriminate|]. pose proof N0 as N1. cbn [nth_error] in N0. injection N0 as ->. cbn [front bind c_poles c_knots c_deg] in E.
  destruct (clamped_ok eps m P0 k He C0) as (Kk & Kp & Kn). rewrite LU in E. fold q in E.
  specialize (Hru _ _ EU N1). cbn [c_poles c_knots c_deg] in Hru. pose proof Kk as (Lk' & Hmn & _).
  set (n_u := Nat.max (4 * length P0) 30) in *.
  assert (F0 : kn k 0 = c_lo c0) by (rewrite <- Fk; reflexivity). assert (L0 : kn k (length k - 1) = c_hi c0) by (rewrite <- Lk; reflexivity).
  assert (Hq1 : (q <= 12)%nat) by (unfold q; lia). assert (Hq2 : (q < length cs)%nat) by (unfold q; lia). assert (Hn2 : (2 <= n_u)%nat) by (unfold n_u; lia).
  destruct (loft_approx_exact ldlt extrema dt c0 rest spine k (length P0) m q n_u s He Hex Hl Kk Hm Hq1 Hq2 Hn2
     ltac:(rewrite Kp, Fk; exact F0) ltac:(rewrite Kn, Lk; exact L0) F0 L0) as (_ & A1 & A2 & A3 & A4 & A5 & A6); auto.
  { intros c Hc. apply In_nth_error in Hc as (j & Hj). destruct (V j c Hj) as (P' & N' & _ & L' & S'). exists P'. split; [lia|].
    intros x d Hx. destruct (S' x d Hx) as (HR & z & z' & Z & Z' & RR). exists z, z'. split; [exact Z|].
    rewrite (value_guard_eval eps) in Z' by (cbn [c_lo c_hi]; lra). split; [exact Z'|]. intros i _. apply RR. }
  repeat (split; [assumption|]). exact A6.
Qed.
End AtR.
