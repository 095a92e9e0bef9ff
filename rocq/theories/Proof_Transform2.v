(** Derivatives of transformed curves and surfaces. *)
From Coq Require Import List Arith ZArith Reals Lia Lra Bool.
From Verif Require Import Model_Base Model_Vec Model_Basis Model_Rational Model_Curve Model_Surface Model_Motion Model_Transform
  Spec_Base Spec_Basis Spec_Eval Spec_Class Spec_Rational Spec_Surface Spec_Transform
  Proof_Base Proof_Blossom Proof_Basis Proof_Ders Proof_Eval Proof_PropBasis Proof_Interp Proof_Curve Proof_Rational Proof_Quotient
  Proof_Surface2 Proof_SurfEdit Proof_PropSurface Proof_Transform.
From Verif Require Proof_Skin2.
Import ListNotations.
Local Open Scope R_scope.

(** The quotient recursions are linear in the numerators *)
Lemma rq_plus A B W d : rq (fun i => A i + B i) W d = rq A W d + rq B W d.
Proof.
  induction d as [d IH] using lt_wf_ind. rewrite !rq_eq.
  rewrite (sumn_ext d _ (fun i => INR (binom d (S i)) * W (S i) * rq A W (d - 1 - i) + INR (binom d (S i)) * W (S i) * rq B W (d - 1 - i)))
    by (intros i Hi; rewrite IH by lia; ring).
  rewrite sumn_plus. unfold Rdiv. ring.
Qed.
Lemma rq_scal c A W d : rq (fun i => c * A i) W d = c * rq A W d.
Proof.
  induction d as [d IH] using lt_wf_ind. rewrite !rq_eq.
  rewrite (sumn_ext d _ (fun i => c * (INR (binom d (S i)) * W (S i) * rq A W (d - 1 - i))))
    by (intros i Hi; rewrite IH by lia; ring).
  rewrite sumn_scal. unfold Rdiv. ring.
Qed.
Lemma rq_zero W d : rq (fun _ => 0) W d = 0.
Proof.
  assert (Hz : rq (fun _ => 0 * 0) W d = 0) by (rewrite (rq_scal 0 (fun _ => 0)); ring).
  rewrite Rmult_0_l in Hz. exact Hz.
Qed.
Lemma rq_self W d : W 0%nat <> 0 -> rq W W d = if (d =? 0)%nat then 1 else 0.
Proof.
  intros HW. induction d as [d IH] using lt_wf_ind. rewrite rq_eq. destruct d as [|d]; [cbn; field; exact HW|].
  rewrite (sumn_single (S d) _ d); [|lia|].
  - rewrite IH by lia. replace (S d - 1 - d)%nat with 0%nat by lia. cbn [Nat.eqb]. rewrite binom_diag. cbn [INR]. field. exact HW.
  - intros i Hi Hne. rewrite IH by lia. destruct (Nat.eqb_spec (S d - 1 - i) 0); [lia|ring].
Qed.
Lemma rq_sum n (M : nat -> R) (A : nat -> nat -> R) W d :
  rq (fun i => sumn n (fun e => M e * A e i)) W d = sumn n (fun e => M e * rq (A e) W d).
Proof.
  induction n as [|n IH]; cbn [sumn]; [apply rq_zero|]. rewrite rq_plus, IH, rq_scal. reflexivity.
Qed.
Lemma rq_moved n M A t W d : W 0%nat <> 0 -> (0 < d)%nat ->
  rq (fun i => sumn n (fun e => M e * A e i) + t * W i) W d = sumn n (fun e => M e * rq (A e) W d).
Proof.
  intros HW Hd. rewrite (rq_plus (fun i => sumn n (fun e => M e * A e i))), rq_sum, rq_scal, rq_self by exact HW.
  destruct (Nat.eqb_spec d 0); [lia|ring].
Qed.

Lemma rq2_ind (X : nat -> nat -> Prop) :
  (forall k l, (forall k' l', (k' + l' < k + l)%nat -> X k' l') -> X k l) -> forall k l, X k l.
Proof.
  intros H k l. remember (k + l)%nat as s eqn:E. revert k l E. induction s as [s IH] using lt_wf_ind. intros k l ->.
  apply H. intros k' l' Hl. apply (IH (k' + l')%nat Hl); reflexivity.
Qed.
Lemma rq2_plus A B W k l : rq2 (fun i j => A i j + B i j) W k l = rq2 A W k l + rq2 B W k l.
Proof.
  revert k l. apply rq2_ind. intros k l IH. rewrite !rq2_eq.
  rewrite (sumn_ext l _ (fun j => INR (binom l (S j)) * W 0%nat (S j) * rq2 A W k (l - 1 - j)
    + INR (binom l (S j)) * W 0%nat (S j) * rq2 B W k (l - 1 - j))) by (intros j Hj; rewrite IH by lia; ring).
  rewrite sumn_plus.
  rewrite (sumn_ext k _ (fun i => (INR (binom k (S i)) * W (S i) 0%nat * rq2 A W (k - 1 - i) l
          + INR (binom k (S i)) * sumn l (fun j => INR (binom l (S j)) * W (S i) (S j) * rq2 A W (k - 1 - i) (l - 1 - j)))
     + (INR (binom k (S i)) * W (S i) 0%nat * rq2 B W (k - 1 - i) l
          + INR (binom k (S i)) * sumn l (fun j => INR (binom l (S j)) * W (S i) (S j) * rq2 B W (k - 1 - i) (l - 1 - j))))).
  - rewrite sumn_plus. unfold Rdiv. ring.
  - intros i Hi. rewrite IH by lia.
    rewrite (sumn_ext l _ (fun j => INR (binom l (S j)) * W (S i) (S j) * rq2 A W (k - 1 - i) (l - 1 - j)
      + INR (binom l (S j)) * W (S i) (S j) * rq2 B W (k - 1 - i) (l - 1 - j))) by (intros j Hj; rewrite IH by lia; ring).
    rewrite sumn_plus. ring.
Qed.
Lemma rq2_scal c A W k l : rq2 (fun i j => c * A i j) W k l = c * rq2 A W k l.
Proof.
  revert k l. apply rq2_ind. intros k l IH. rewrite !rq2_eq.
  rewrite (sumn_ext l _ (fun j => c * (INR (binom l (S j)) * W 0%nat (S j) * rq2 A W k (l - 1 - j))))
    by (intros j Hj; rewrite IH by lia; ring).
  rewrite sumn_scal.
  rewrite (sumn_ext k _ (fun i => c * (INR (binom k (S i)) * W (S i) 0%nat * rq2 A W (k - 1 - i) l
          + INR (binom k (S i)) * sumn l (fun j => INR (binom l (S j)) * W (S i) (S j) * rq2 A W (k - 1 - i) (l - 1 - j))))).
  - rewrite sumn_scal. unfold Rdiv. ring.
  - intros i Hi. rewrite IH by lia.
    rewrite (sumn_ext l _ (fun j => c * (INR (binom l (S j)) * W (S i) (S j) * rq2 A W (k - 1 - i) (l - 1 - j))))
      by (intros j Hj; rewrite IH by lia; ring).
    rewrite sumn_scal. ring.
Qed.
Lemma rq2_self W k l : W 0%nat 0%nat <> 0 -> rq2 W W k l = if (k + l =? 0)%nat then 1 else 0.
Proof.
  intros HW. revert k l. apply rq2_ind. intros k l IH. rewrite rq2_eq.
  assert (H1 : sumn l (fun j => INR (binom l (S j)) * W 0%nat (S j) * rq2 W W k (l - 1 - j)) = if (k =? 0)%nat then (if (l =? 0)%nat then 0 else W 0%nat l) else 0).
  { destruct (Nat.eqb_spec k 0) as [->|Hk].
    - destruct l as [|l]; [reflexivity|]. rewrite (sumn_single (S l) _ l); [|lia|].
      + rewrite IH by lia. replace (S l - 1 - l)%nat with 0%nat by lia. cbn [Nat.eqb plus]. rewrite binom_diag. cbn [INR]. ring.
      + intros j Hj Hne. rewrite IH by lia. destruct (Nat.eqb_spec (0 + (S l - 1 - j)) 0); [lia|ring].
    - apply sumn_zero. intros j Hj. rewrite IH by lia. destruct (Nat.eqb_spec (k + (l - 1 - j)) 0); [lia|ring]. }
  assert (H2 : sumn k (fun i => INR (binom k (S i)) * W (S i) 0%nat * rq2 W W (k - 1 - i) l
          + INR (binom k (S i)) * sumn l (fun j => INR (binom l (S j)) * W (S i) (S j) * rq2 W W (k - 1 - i) (l - 1 - j)))
     = if (k =? 0)%nat then 0 else W k l).
  { destruct k as [|k]; [reflexivity|]. rewrite (sumn_single (S k) _ k); [|lia|].
    - rewrite binom_diag. cbn [INR Nat.eqb]. replace (S k - 1 - k)%nat with 0%nat by lia. rewrite IH by lia.
      destruct l as [|l]; [cbn; ring|]. rewrite (sumn_single (S l) _ l); [|lia|].
      + rewrite IH by lia. replace (S l - 1 - l)%nat with 0%nat by lia. cbn [Nat.eqb plus]. rewrite binom_diag. cbn [INR]. ring.
      + intros j Hj Hne. rewrite IH by lia. destruct (Nat.eqb_spec (0 + (S l - 1 - j)) 0); [lia|ring].
    - intros i Hi Hne. rewrite IH by lia. destruct (Nat.eqb_spec (S k - 1 - i + l) 0); [lia|].
      rewrite (sumn_zero l); [ring|]. intros j Hj. rewrite IH by lia. destruct (Nat.eqb_spec (S k - 1 - i + (l - 1 - j)) 0); [lia|ring]. }
  rewrite H1, H2. destruct k as [|k], l as [|l]; cbn [Nat.eqb plus]; field; exact HW.
Qed.
Lemma rq2_sum n (M : nat -> R) (A : nat -> nat -> nat -> R) W k l :
  rq2 (fun i j => sumn n (fun e => M e * A e i j)) W k l = sumn n (fun e => M e * rq2 (A e) W k l).
Proof.
  induction n as [|n IH]; cbn [sumn].
  - assert (Hz : rq2 (fun _ _ => 0 * 0) W k l = 0) by (rewrite (rq2_scal 0 (fun _ _ => 0)); ring).
    rewrite Rmult_0_l in Hz. exact Hz.
  - rewrite rq2_plus, IH, rq2_scal. reflexivity.
Qed.
Lemma rq2_moved n M A t W k l : W 0%nat 0%nat <> 0 -> (0 < k + l)%nat ->
  rq2 (fun i j => sumn n (fun e => M e * A e i j) + t * W i j) W k l = sumn n (fun e => M e * rq2 (A e) W k l).
Proof.
  intros HW Hd. rewrite (rq2_plus (fun i j => sumn n (fun e => M e * A e i j))), rq2_sum, rq2_scal, rq2_self by exact HW.
  destruct (Nat.eqb_spec (k + l) 0); [lia|ring].
Qed.

Section AtR.
Variable eps : R.
Local Hint Extern 0 (Num R) => exact (NumR eps) : typeclass_instances.

(** Rational curves *)
Lemma eval_comb (c : curve R) P u d : curve_fit eps c -> length P = length (c_poles c) ->
  kn (c_knots c) (c_deg c) <= u <= kn (c_knots c) (length (c_poles c)) ->
  exists q, eval_value u (c_knots c) P (c_deg c) d = Ok q /\
    forall i, q i = comb (length (c_poles c)) (rv eps (c_knots c) (length (c_poles c)) (c_deg c) u d) P i.
Proof. intros (Hk & Hev & _) HL Hu. exact (rv_eval eps _ _ _ Hk u d P Hu HL Hev). Qed.

Lemma comb_weighted N B P P' dim A t : forall i,
  (forall l, (l < N)%nat -> polec P' i l = sumn dim (fun e => A i e * polec P e l) + t i * polec P dim l) ->
  comb N B P' i = sumn dim (fun e => A i e * comb N B P e) + t i * comb N B P dim.
Proof.
  intros i H. rewrite (comb_lin N B P P' dim A (fun l => t i * polec P dim l)) by exact H. f_equal. unfold comb.
  rewrite <- sumn_scal. apply sumn_ext. intros; ring.
Qed.

Lemma rational_derivative dim trf A t c u d : 0 <= eps -> affine dim trf A t -> curve_fit eps c -> positive_weights dim (c_poles c) ->
  (0 < d <= 20)%nat -> kn (c_knots c) (c_deg c) <= u <= kn (c_knots c) (length (c_poles c)) ->
  exists c' q q', transform_rational dim trf c = Ok c' /\ rational_value dim c u d = Ok q /\ rational_value dim c' u d = Ok q' /\
    forall i, (i < dim)%nat -> q' i = sumn dim (fun e => A i e * q e).
Proof.
  intros He HA HF HW Hd Hu. destruct (weighted_moved eps dim trf A t (c_poles c) HA HW) as (P' & E0 & HL & Hw & HP).
  unfold transform_rational. destruct (separate_weights dim (c_poles c)) as (ps, ws).
  apply bind_inv in E0 as (ps' & -> & E0). cbn [bind]. rewrite E0. cbn [bind].
  destruct (fit_copy eps c P' HL HF) as (-> & HF').
  assert (Hu' : kn (c_knots c) (c_deg c) <= u <= kn (c_knots c) (length P')) by (rewrite HL; exact Hu).
  destruct (value_comb eps c u He HF Hu) as (O1 & q0 & E00 & V0). destruct (value_comb eps _ u He HF' Hu') as (O2 & _).
  set (N := length (c_poles c)) in *. set (B := fun d => rv eps (c_knots c) N (c_deg c) u d).
  assert (HV : forall i, eval_value u (c_knots c) (c_poles c) (c_deg c) i = Ok (val (eval_value u (c_knots c) (c_poles c) (c_deg c) i))
     /\ forall e, val (eval_value u (c_knots c) (c_poles c) (c_deg c) i) e = comb N (B i) (c_poles c) e).
  { intros i. destruct (eval_comb c (c_poles c) u i HF eq_refl Hu) as (q & E & V). rewrite E. split; [reflexivity|exact V]. }
  assert (HV' : forall i, eval_value u (c_knots c) P' (c_deg c) i = Ok (val (eval_value u (c_knots c) P' (c_deg c) i))
     /\ forall e, val (eval_value u (c_knots c) P' (c_deg c) i) e = comb N (B i) P' e).
  { intros i. destruct (eval_comb c P' u i HF HL Hu) as (q & E & V). rewrite E. split; [reflexivity|exact V]. }
  assert (HD : comb N (B 0%nat) (c_poles c) dim <> 0).
  { rewrite <- (proj2 (HV 0%nat)), E00. cbn [val]. rewrite V0. apply Rgt_not_eq. destruct HF as (Hk & _).
    apply comb_pos; [intros; apply (Nbas_nonneg eps); assumption|apply (Nbas_sum eps); assumption|].
    intros l Hl. apply HW, nth_In; exact Hl. }
  assert (HD' : forall i, comb N (B i) P' dim = comb N (B i) (c_poles c) dim)
    by (intros i; apply sumn_ext; intros l Hl; rewrite Hw by exact Hl; reflexivity).
  destruct (rational_spec eps dim u (c_knots c) (c_poles c) (c_deg c) (fun i => val (eval_value u (c_knots c) (c_poles c) (c_deg c) i))
    (fun i _ => proj1 (HV i)) ltac:(cbv beta; rewrite (proj2 (HV 0%nat)); exact HD) d ltac:(lia)) as (q & E & V).
  destruct (rational_spec eps dim u (c_knots c) P' (c_deg c) (fun i => val (eval_value u (c_knots c) P' (c_deg c) i))
    (fun i _ => proj1 (HV' i)) ltac:(cbv beta; rewrite (proj2 (HV' 0%nat)), HD'; exact HD) d ltac:(lia)) as (q' & E' & V').
  eexists _, q, q'. split; [reflexivity|]. unfold rational_value. rewrite O1, O2. split; [exact E|]. split; [exact E'|].
  intros i Hi. rewrite V' by exact Hi.
  rewrite (rq_ext _ (fun j => sumn dim (fun e => A i e * comb N (B j) (c_poles c) e) + t i * comb N (B j) (c_poles c) dim)
     _ (fun j => comb N (B j) (c_poles c) dim)).
  - rewrite (rq_moved dim (A i) (fun e j => comb N (B j) (c_poles c) e) (t i) (fun j => comb N (B j) (c_poles c) dim)) by (assumption || lia).
    apply sumn_ext. intros e He'. rewrite V by exact He'. f_equal. apply rq_ext; intros j _; rewrite (proj2 (HV j)); reflexivity.
  - intros j _. rewrite (proj2 (HV' j)). apply comb_weighted. intros l Hl. apply HP; assumption.
  - intros j _. rewrite (proj2 (HV' j)). apply HD'.
Qed.

(** Surfaces *)
Definition tD (s : surf R) (u v : R) (du dv l : nat) : R :=
  rv eps (s_ku s) (s_nU s) (s_degU s) u du (l mod s_nU s) * rv eps (s_kv s) (s_nV s) (s_degV s) v dv (l / s_nU s).

Lemma evaluable_split s : evaluable_surface eps s ->
  evaluable eps (s_ku s) (s_nU s) (s_degU s) /\ evaluable eps (s_kv s) (s_nV s) (s_degV s).
Proof. intros [[H1 H2]|(H1 & H2 & H3 & H4 & H5)]; split; [left|left|right|right]; auto. Qed.

Lemma row_pole (P : list (pt R)) n j c i : (i < n)%nat -> pole (row P n j) c i = polec P c (i + n * j).
Proof.
  intros Hi. unfold pole, polec. apply (f_equal (fun f => f c)). apply nth_error_nth. unfold row. rewrite nth_error_map.
  rewrite (nth_error_nth' _ 0%nat) by (rewrite seq_length; exact Hi). rewrite seq_nth by exact Hi. reflexivity.
Qed.

Lemma surf_comb s u v du dv : 0 <= eps -> surface_fit eps s -> in_surface s u v ->
  exists z, surf_value s u v du dv = Ok z /\ forall c, z c = comb (s_nU s * s_nV s) (tD s u v du dv) (s_poles s) c.
Proof.
  intros He (Hok & Hn & Hev) Hin. destruct (surface_rows_first eps s u v du dv He Hok Hn Hev Hin) as (z & Rr & z' & E & ER & Ez & Hz).
  exists z. split; [exact E|]. intros c. rewrite <- Hz.
  destruct (evaluable_split s Hev) as (EU & EV). pose proof Hok as (Hku & Hkv & HP). destruct Hin as (Hu & Hv).
  destruct (mapM_get _ _ _ ER) as (HL & HR). rewrite seq_length in HL.
  destruct (rv_eval eps _ _ _ Hkv v dv Rr Hv HL EV) as (z2 & E2 & V2). rewrite Ez in E2. injection E2 as <-. rewrite V2.
  unfold comb. rewrite Proof_Skin2.sumn_grid by (apply nU_pos; exact Hok). apply sumn_ext. intros j Hj.
  assert (Hs : nth_error (seq 0 (s_nV s)) j = Some j).
  { rewrite (nth_error_nth' _ 0%nat) by (rewrite seq_length; exact Hj). rewrite seq_nth by exact Hj. reflexivity. }
  destruct (HR j j Hs) as (b & Hb & Eb).
  assert (HLr : length (row (s_poles s) (s_nU s) j) = s_nU s) by (unfold row; rewrite map_length, seq_length; reflexivity).
  destruct (rv_eval eps _ _ _ Hku u du _ Hu HLr EU) as (b2 & E2 & V3). rewrite Eb in E2. injection E2 as <-.
  replace (pole Rr c j) with (b c) by (symmetry; exact (f_equal (fun f => f c) (nth_error_nth Rr j (fun _ => 0) Hb))). rewrite V3, <- sumn_scal. apply sumn_ext. intros i Hi.
  unfold tD. destruct (mod_grid i (s_nU s) j Hi) as (-> & ->).
  replace (pole (row (s_poles s) (s_nU s) j) c i) with (polec (s_poles s) c (i + s_nU s * j)); [ring|].
  symmetry. apply row_pole. exact Hi.
Qed.

Lemma tD_sum s u v du dv : surface_ok s -> in_surface s u v -> (0 < du + dv)%nat -> sumn (s_nU s * s_nV s) (tD s u v du dv) = 0.
Proof.
  intros Hs (Hu & Hv) Hd. rewrite Proof_Skin2.sumn_grid by (apply nU_pos; exact Hs). destruct Hs as (Hku & Hkv & _).
  rewrite (sumn_ext (s_nV s) _ (fun j => sumn (s_nU s) (rv eps (s_ku s) (s_nU s) (s_degU s) u du) * rv eps (s_kv s) (s_nV s) (s_degV s) v dv j)).
  - rewrite sumn_scal. destruct (Nat.eq_dec du 0) as [->|].
    + rewrite (rv_sum eps _ _ _ v dv) by (assumption || lia). ring.
    + rewrite (rv_sum eps _ _ _ u du) by (assumption || lia). ring.
  - intros j Hj. rewrite Rmult_comm, <- sumn_scal. apply sumn_ext. intros i Hi. unfold tD.
    destruct (mod_grid i (s_nU s) j Hi) as (-> & ->). ring.
Qed.

Lemma fit_scopy_D (s : surf R) P s' : surf_copyPoles s P = Ok s' -> forall u v du dv, tD s' u v du dv = tD s u v du dv.
Proof. unfold surf_copyPoles. destruct (_ =? _)%nat; [|discriminate]. intros [= <-]. reflexivity. Qed.

Lemma surface_derivative dim trf A t s u v du dv : 0 <= eps -> affine dim trf A t -> surface_fit eps s -> (0 < du + dv)%nat -> in_surface s u v ->
  exists s' q q', transform_surface trf s = Ok s' /\ surf_value s u v du dv = Ok q /\ surf_value s' u v du dv = Ok q' /\
    forall i, (i < dim)%nat -> q' i = sumn dim (fun e => A i e * q e).
Proof.
  intros He HA HF Hd Hin. unfold transform_surface. destruct (poles_moved dim trf A t (s_poles s) HA) as (P' & -> & HL & HP). cbn [bind].
  destruct (fit_scopy eps s P' HL HF) as (s' & EC & EP & HF' & HS & Hn & Hm & _ & Hi').
  pose proof (fit_scopy_D s P' s' EC u v du dv) as HB. rewrite EC.
  destruct (surf_comb s u v du dv He HF Hin) as (q & E & V). destruct (surf_comb s' u v du dv He HF' (Hi' u v Hin)) as (q' & E' & V').
  exists s', q, q'. split; [reflexivity|]. split; [exact E|]. split; [exact E'|]. intros i Hi. rewrite V', EP, Hn, Hm, HB.
  destruct HF as (F1 & _).
  rewrite (comb_lin _ _ (s_poles s) P' dim A (fun _ => t i)); [|intros l Hl; apply HP; [exact Hi|destruct F1 as (_ & _ & ->); exact Hl]].
  rewrite (sumn_ext _ (fun l => tD s u v du dv l * t i) (fun l => t i * tD s u v du dv l)) by (intros; ring).
  rewrite sumn_scal, tD_sum by assumption. rewrite Rmult_0_r, Rplus_0_r. apply sumn_ext. intros e _. rewrite V. reflexivity.
Qed.

Lemma rq2_ext_all A A' W W' k l : (forall i j, A i j = A' i j) -> (forall i j, W i j = W' i j) -> rq2 A W k l = rq2 A' W' k l.
Proof.
  intros HA HW. revert k l. apply rq2_ind. intros k l IH. rewrite !rq2_eq, HA, !HW. f_equal. f_equal; [f_equal|].
  - apply sumn_ext. intros j Hj. rewrite HW, IH by lia. reflexivity.
  - apply sumn_ext. intros i Hi. rewrite HW, IH by lia. f_equal. f_equal. apply sumn_ext. intros j Hj. rewrite HW, IH by lia. reflexivity.
Qed.

Lemma rational_surface_derivative dim trf A t s u v du dv : 0 <= eps -> affine dim trf A t -> surface_fit eps s -> positive_weights dim (s_poles s) ->
  (0 < du + dv)%nat -> (du <= 20)%nat -> (dv <= 20)%nat -> in_surface s u v ->
  exists s' q q', transform_rational_surface dim trf s = Ok s' /\ surf_rational_value dim s u v du dv = Ok q /\
    surf_rational_value dim s' u v du dv = Ok q' /\ forall i, (i < dim)%nat -> q' i = sumn dim (fun e => A i e * q e).
Proof.
  intros He HA HF HW Hd Hdu Hdv Hin. destruct (weighted_moved eps dim trf A t (s_poles s) HA HW) as (P' & E0 & HL & Hw & HP).
  unfold transform_rational_surface. destruct (separate_weights dim (s_poles s)) as (ps, ws).
  apply bind_inv in E0 as (ps' & -> & E0). cbn [bind]. rewrite E0. cbn [bind].
  destruct (fit_scopy eps s P' HL HF) as (s' & EC & EP & HF' & HS & Hn & Hm & HB0 & Hi'). pose proof (fit_scopy_D s P' s' EC u v) as HB. rewrite EC.
  set (N := (s_nU s * s_nV s)%nat). set (B := fun i j => tD s u v i j).
  assert (HN : length (s_poles s) = N) by apply HF.
  assert (HV : forall i j e, val (surf_value s u v i j) e = comb N (B i j) (s_poles s) e).
  { intros i j e. destruct (surf_comb s u v i j He HF Hin) as (q & E & V). rewrite E. apply V. }
  assert (HV' : forall i j e, val (surf_value s' u v i j) e = comb N (B i j) P' e).
  { intros i j e. destruct (surf_comb s' u v i j He HF' (Hi' u v Hin)) as (q & E & V). rewrite E. cbn [val]. rewrite V, EP, Hn, Hm, HB. reflexivity. }
  assert (HD' : forall i j, comb N (B i j) P' dim = comb N (B i j) (s_poles s) dim)
    by (intros i j; apply sumn_ext; intros l Hl; rewrite Hw by (rewrite HN; exact Hl); reflexivity).
  pose proof HF as (F1 & F2 & F3). pose proof HF' as (F1' & F2' & F3').
  assert (HT : 0 < tns s dim u v).
  { unfold tns. rewrite tensor_comb by exact F1. apply comb_pos; [intros; apply (tB_nonneg eps); assumption|apply (tB_sum eps); assumption|].
    intros l Hl. apply HW, nth_In. rewrite HN. exact Hl. }
  assert (HT0 : tns s dim u v = comb N (B 0%nat 0%nat) (s_poles s) dim).
  { rewrite <- HV. destruct (surface_value eps s u v He F1 F2 F3 Hin) as (z & E & V). rewrite E. cbn [val]. rewrite V. reflexivity. }
  assert (HT' : tns s' dim u v = tns s dim u v).
  { rewrite HT0, <- HD', <- HV'. destruct (surface_value eps s' u v He F1' F2' F3' (Hi' u v Hin)) as (z & E & V). rewrite E. cbn [val]. rewrite V. reflexivity. }
  destruct (rational_rq2 eps dim s u v du dv He F1 F2 F3 Hin ltac:(lra) Hdu Hdv) as (q & E & V).
  destruct (rational_rq2 eps dim s' u v du dv He F1' F2' F3' (Hi' u v Hin) ltac:(lra) Hdu Hdv) as (q' & E' & V').
  exists s', q, q'. split; [reflexivity|]. split; [exact E|]. split; [exact E'|]. intros i Hi. rewrite V' by exact Hi.
  rewrite (rq2_ext_all _ (fun a b => sumn dim (fun e => A i e * comb N (B a b) (s_poles s) e) + t i * comb N (B a b) (s_poles s) dim)
     _ (fun a b => comb N (B a b) (s_poles s) dim)).
  - rewrite (rq2_moved dim (A i) (fun e a b => comb N (B a b) (s_poles s) e) (t i) (fun a b => comb N (B a b) (s_poles s) dim)) by (assumption || lra).
    apply sumn_ext. intros e He'. rewrite V by exact He'. f_equal. apply rq2_ext_all; intros a b; rewrite HV; reflexivity.
  - intros a b. rewrite HV'. apply comb_weighted. intros l Hl. apply HP; [exact Hi|rewrite HN; exact Hl].
  - intros a b. rewrite HV'. apply HD'.
Qed.

Lemma carry_derivatives dim trf A t (g : geom R) x d : 0 <= eps -> affine dim trf A t -> fit eps dim g -> admits g x -> proper g d ->
  polynomial g \/ (fst d <= 20 /\ snd d <= 20)%nat ->
  exists g' q q', transform_geom dim trf g = Ok g' /\ derivative_at eps dim g x d = Ok q /\ derivative_at eps dim g' x d = Ok q' /\
    forall i, (i < dim)%nat -> q' i = sumn dim (fun e => A i e * q e).
Proof.
  intros He HA HF Hx Hd Ho. destruct g as [c|c|s|s]; cbn [fit admits proper polynomial derivative_at transform_geom] in *.
  - destruct (carry_derivative eps dim trf A t c (fst x) (fst d) He HA HF Hd Hx) as (c' & q & q' & -> & E & E' & V).
    eexists _, q, q'. split; [reflexivity|]. auto.
  - destruct HF as (HF & HW). destruct Ho as [[]|(Ho & _)].
    destruct (rational_derivative dim trf A t c (fst x) (fst d) He HA HF HW (conj Hd Ho) Hx) as (c' & q & q' & -> & E & E' & V).
    eexists _, q, q'. split; [reflexivity|]. auto.
  - destruct (surface_derivative dim trf A t s (fst x) (snd x) (fst d) (snd d) He HA HF Hd Hx) as (c' & q & q' & -> & E & E' & V).
    eexists _, q, q'. split; [reflexivity|]. auto.
  - destruct HF as (HF & HW). destruct Ho as [[]|(Ho & Ho')].
    destruct (rational_surface_derivative dim trf A t s (fst x) (snd x) (fst d) (snd d) He HA HF HW Hd Ho Ho' Hx) as (c' & q & q' & -> & E & E' & V).
    eexists _, q, q'. split; [reflexivity|]. auto.
Qed.
Lemma carry_poly_derivatives dim trf A t (g : geom R) x d : 0 <= eps -> affine dim trf A t -> fit eps dim g -> admits g x -> proper g d -> polynomial g ->
  exists g' q q', transform_geom dim trf g = Ok g' /\ derivative_at eps dim g x d = Ok q /\ derivative_at eps dim g' x d = Ok q' /\
    forall i, (i < dim)%nat -> q' i = sumn dim (fun e => A i e * q e).
Proof. intros. apply (carry_derivatives dim trf A t g x d); auto. Qed.
Lemma carry_rat_derivatives dim trf A t (g : geom R) x d : 0 <= eps -> affine dim trf A t -> fit eps dim g -> admits g x -> proper g d ->
  (fst d <= 20)%nat -> (snd d <= 20)%nat ->
  exists g' q q', transform_geom dim trf g = Ok g' /\ derivative_at eps dim g x d = Ok q /\ derivative_at eps dim g' x d = Ok q' /\
    forall i, (i < dim)%nat -> q' i = sumn dim (fun e => A i e * q e).
Proof. intros. apply (carry_derivatives dim trf A t g x d); auto. Qed.
End AtR.
