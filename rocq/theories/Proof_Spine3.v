(** Parameters and tangents of the spine loft. *)
From Coq Require Import List Arith ZArith Reals Lia Lra Bool.
From Verif Require Import Model_Base Model_Knots Model_Math Model_Basis Model_Curve Model_Rational Model_Interp Model_Surface Model_Unify Model_Skin Model_Spine
  Spec_Base Spec_Basis Spec_Eval Spec_Knots Spec_Interp Spec_Surface Spec_Unify Spec_Skin Spec_Spine Proof_Base Proof_Eval Proof_Builders Proof_Builders2
  Proof_Interp Proof_Interp3 Proof_Interp4 Proof_Surface Proof_Tfi Proof_Skin3 Proof_Spine2.
Import ListNotations.
Local Open Scope R_scope.

Section AtR.
Variable eps : R.
Local Hint Extern 0 (Num R) => exact (NumR eps) : typeclass_instances.

Lemma params_rows dist (rows : list (list (pt R))) n : 0 <= eps -> (2 <= n)%nat ->
  (forall r, In r rows -> length r = n /\ forall i, (S i < n)%nat -> 0 <= chord dist r ChordLength i) ->
  exists ps (D : nat -> R), mapM (fun l => curve_parametrization dist sqrt l ChordLength true) rows = Ok ps /\ length ps = length rows /\
    forall j, (j < length rows)%nat -> length (nth j ps []) = n /\ 0 < D j /\
      (eps < travelled dist ChordLength (nth j rows []) (n - 1) -> D j = travelled dist ChordLength (nth j rows []) (n - 1)) /\
      forall i, (i < n)%nat -> kn (nth j ps []) i = travelled dist ChordLength (nth j rows []) i / D j.
Proof.
  intros He Hn. induction rows as [|r rows IH]; intros H.
  { exists [], (fun _ => 1). split; [reflexivity|]. split; [reflexivity|]. intros j Hj. cbn in Hj. lia. }
  destruct IH as (ps & D & E & L & V); [intros r' Hr'; apply H; right; exact Hr'|].
  destruct (H r (or_introl eq_refl)) as (Lr & Cr).
  destruct (param_adim eps dist ChordLength r n He Hn Lr Cr) as (k & d & E1 & E2 & E3 & E4 & E5).
  exists (k :: ps), (fun j => match j with 0%nat => d | S j => D j end). cbn [mapM]. rewrite E1. cbn [bind]. rewrite E. cbn [bind].
  split; [reflexivity|]. split; [cbn [length]; congruence|]. intros [|j] Hj; cbn [nth].
  - split; [exact E2|]. split; [exact E3|]. split; [exact E4|exact E5].
  - apply V. cbn [length] in Hj. lia.
Qed.

Lemma v_aligned_ok dist nu us : 0 <= eps -> (2 <= length us)%nat -> (0 < nu)%nat -> (forall c, In c us -> length (c_poles c) = nu) ->
  spread dist ChordLength (pole_columns us nu) (length us) ->
  exists v, v_aligned_poles (fun l => curve_parametrization dist sqrt l ChordLength true) nu us = Ok (pole_columns us nu, v) /\
    mean_params eps dist ChordLength (pole_columns us nu) (length us) v.
Proof.
  intros He Hn Hnu Hl (Hc & Hs). set (n := length us) in *. set (rows := pole_columns us nu) in *.
  assert (Lrows : length rows = nu) by (unfold rows, pole_columns; rewrite map_length, seq_length; reflexivity).
  assert (ER : mapM (fun i => mapM (fun c => get (c_poles c) i) us) (seq 0 nu) = Ok rows).
  { apply mapM_ok. intros i Hi. apply in_seq in Hi. apply mapM_ok. intros c Hcin. apply get_nth. rewrite Hl by exact Hcin. lia. }
  assert (Hrow : forall r, In r rows -> length r = n).
  { intros r Hr. apply in_map_iff in Hr as (i & <- & _). unfold pole_column. rewrite map_length. reflexivity. }
  destruct (params_rows dist rows n He Hn) as (ps & D & EP & LP & VP).
  { intros r Hr. split; [apply Hrow, Hr|]. intros i Hi. apply Hc; assumption. }
  rewrite Lrows in LP, VP.
  set (T := fun i j => travelled dist ChordLength (nth i rows []) j) in *.
  assert (Hi0 : 0 < INR nu) by (apply lt_0_INR; lia).
  set (v := map (fun j => sumn nu (fun i => T i j / D i) / INR nu) (seq 0 n)).
  assert (Vv : forall j, (j < n)%nat -> kn v j = sumn nu (fun i => T i j / D i) / INR nu).
  { intros j Hj. unfold v, kn. rewrite nth_map_seq by exact Hj. reflexivity. }
  assert (Lv : length v = n) by (unfold v; rewrite map_length, seq_length; reflexivity).
  exists v. split.
  { unfold v_aligned_poles. rewrite ER. cbn [bind]. rewrite EP. cbn [bind]. fold n.
    assert (EV : mapM (fun j => let* s := foldM (fun s par => let* x := get par j in Ok (nadd s x)) n0 ps in divc s (nofnat nu)) (seq 0 n) = Ok v).
    { apply mapM_ok. intros j Hj. apply in_seq in Hj. rewrite (fold_entries eps j ps).
      - cbn [bind]. rewrite nofnat_R. rewrite divc_ok by lra. f_equal. nsimp. rewrite Rplus_0_l, LP. f_equal. apply sumn_ext. intros i Hi.
        apply VP; lia.
      - intros l Hin. apply (In_nth _ _ []) in Hin as (i & Hi & <-). rewrite (proj1 (VP i ltac:(lia))). lia. }
    rewrite EV. reflexivity. }
  assert (Hin : forall j, (j < nu)%nat -> In (nth j rows []) rows) by (intros; apply nth_In; lia).
  split; [exact Lv|]. split; [|split].
  - apply succ_strict. intros j Hj. rewrite !Vv by lia. apply Rmult_lt_compat_r; [apply Rinv_0_lt_compat; lra|].
    destruct (Hs j ltac:(lia)) as (r & Hr & Hpos). apply (In_nth _ _ []) in Hr as (i & Hi & <-).
    apply (sumn_lt _ _ _ i); [|lia|].
    + intros i' Hi'. destruct (VP i' Hi') as (_ & HD & _). apply Rmult_le_compat_r; [apply Rlt_le, Rinv_0_lt_compat; lra|].
      unfold T, travelled. cbn [sumn]. pose proof (Hc (nth i' rows []) j (Hin i' Hi') ltac:(lia)). lra.
    + destruct (VP i ltac:(lia)) as (_ & HD & _). apply Rmult_lt_compat_r; [apply Rinv_0_lt_compat; lra|].
      unfold T, travelled. cbn [sumn]. lra.
  - rewrite Vv by lia. rewrite (sumn_zero nu). { unfold Rdiv. ring. }
    intros i Hi. unfold T, travelled. cbn [sumn]. unfold Rdiv. ring.
  - intros _ Hlong j Hj. rewrite Vv by exact Hj. rewrite Lrows. f_equal. apply sumn_ext. intros i Hi.
    destruct (VP i Hi) as (_ & _ & HD & _). rewrite HD by (apply Hlong, Hin, Hi). reflexivity.
Qed.

(** The tangents. *)
Lemma tangent_scale_ok dist (pm : list (pt R)) (d : list R) (len : nat -> R) n k s : (2 <= n)%nat -> length pm = n -> length d = (n - 1)%nat ->
  (k < n)%nat -> (forall j, (j < n - 1)%nat -> kn d j = len j) ->
  tangent_scale dist pm d n k = Ok s -> around n k len <> 0 /\ s = around n k (steps dist pm) / around n k len.
Proof.
  intros Hn Lp Ld Hk Hd E. unfold tangent_scale in E. unfold around, steps, pts_at. unfold kn in Hd.
  assert (DIV : forall a b c, divc a b = Ok c -> b <> 0 /\ c = a / b).
  { intros a b c Hc. destruct (Req_EM_T b 0) as [->|Hb]; [rewrite divc_zero in Hc; discriminate|]. rewrite divc_ok in Hc by exact Hb. injection Hc as <-. split; [exact Hb|reflexivity]. }
  destruct (Nat.eqb_spec k 0) as [->|K0]; [|destruct (Nat.eqb_spec k (n - 1)) as [->|K1]].
  - rewrite !(get_nth pm _ (fun _ => 0)) in E by lia. cbn [bind] in E. rewrite (get_nth d _ 0) in E by lia. cbn [bind] in E.
    apply DIV in E as (A & B). rewrite Hd in A, B by lia. split; [exact A|exact B].
  - rewrite !(get_nth pm _ (fun _ => 0)) in E by lia. cbn [bind] in E. rewrite (get_nth d _ 0) in E by lia. cbn [bind] in E.
    apply DIV in E as (A & B). rewrite Hd in A, B by lia. split; [exact A|]. replace (S (n - 2)) with (n - 1)%nat by lia. exact B.
  - rewrite !(get_nth pm _ (fun _ => 0)) in E by lia. cbn [bind] in E. rewrite !(get_nth d _ 0) in E by lia. cbn [bind] in E.
    apply DIV in E as (A & B). revert A B. nsimp. rewrite !Hd by lia. intros A B. split; [exact A|].
    rewrite Nat.add_1_r in B. replace (S (k - 1)) with k by lia. exact B.
Qed.

Lemma tg_ok rat dim dist extrema (rows : list (list (pt R))) spine us tgs : (2 <= length us)%nat -> (forall r, In r rows -> length r = length us) ->
  tg_from_spine rat dim dist extrema rows spine us = Ok tgs ->
  exists ts feet D, Forall2 (fun c t => extrema spine c = Ok t) us ts /\
    Forall2 (fun t x => value spine t 0 = Ok x) ts feet /\ Forall2 (fun t x => value spine t 1 = Ok x) ts D /\
    length feet = length us /\ length D = length us /\ length tgs = length rows /\
    forall i r, nth_error rows i = Some r -> exists tg, nth_error tgs i = Some tg /\ length tg = length us /\
      forall j, (j < length us)%nat -> around (length us) j (steps dist feet) <> 0 /\
        nth j tg (fun _ => 0) = spine_tangent_to_pole rat dim (stretch dist (map (projected rat dim) r) feet j) (nth j D (fun _ => 0)) (nth j r (fun _ => 0)).
Proof.
  intros Hn Hl E. unfold tg_from_spine in E. apply bind_inv in E as (ts & ET & E). apply bind_inv in E as (nd & END & E).
  apply bind_inv in E as (d & Ed & E). apply bind_inv in E as (D & ED & E).
  destruct (mapM_nth _ _ _ ET) as (Lt & Ht). destruct (mapM_nth _ _ _ ED) as (LD & HD).
  rewrite subi_ok in END by lia. injection END as <-. destruct (mapM_seq _ _ _ Ed) as (Ld & Hd).
  assert (F2 : forall {A B} (f : A -> result B) l l', mapM f l = Ok l' -> Forall2 (fun a b => f a = Ok b) l l').
  { clear. intros A B f l. induction l as [|a l IH]; intros l' E; cbn [mapM] in E; [injection E as <-; constructor|].
    apply bind_inv in E as (b & Eb & E). apply bind_inv in E as (l2 & El & E). injection E as <-. constructor; [exact Eb|apply IH, El]. }
  assert (HF : exists feet, mapM (fun t => value spine t 0) ts = Ok feet).
  { apply mapM_all_ok. intros t Hin. apply (In_nth _ _ 0) in Hin as (i & Hi & <-). rewrite Lt in Hi.
    destruct (Nat.eq_dec i 0) as [->|Hi0].
    - destruct (Hd 0%nat ltac:(lia)) as (y & _ & Ey). rewrite !(get_nth ts _ 0) in Ey by lia. cbn [bind] in Ey.
      apply bind_inv in Ey as (b & _ & Ey). apply bind_inv in Ey as (a & Ea & _). exists a. exact Ea.
    - destruct (Hd (i - 1)%nat ltac:(lia)) as (y & _ & Ey). rewrite !(get_nth ts _ 0) in Ey by lia. cbn [bind] in Ey.
      apply bind_inv in Ey as (b & Eb & _). exists b. replace (i - 1 + 1)%nat with i in Eb by lia. exact Eb. }
  destruct HF as (feet & EF). destruct (mapM_nth _ _ _ EF) as (LF & HF).
  exists ts, feet, D. split; [apply F2, ET|]. split; [apply (F2 _ _ (fun t => value spine t 0)), EF|]. split; [apply (F2 _ _ (fun t => value spine t 1)), ED|].
  split; [lia|]. split; [lia|]. destruct (mapM_nth _ _ _ E) as (Ltg & Htg). split; [exact Ltg|].
  intros i r Hi. destruct (Htg i r Hi) as (tg & Htg1 & Etg). exists tg. split; [exact Htg1|]. cbv beta in Etg.
  assert (Lr : length r = length us) by (apply Hl; eapply nth_error_In; eauto).
  destruct (mapM_seq _ _ _ Etg) as (Lg & Hg). split; [lia|]. intros j Hj.
  destruct (Hg j ltac:(lia)) as (x & Hx & Ex). pose proof (nth_error_nth _ _ (fun _ => 0) Hx) as Hnx. cbv beta in Ex.
  apply bind_inv in Ex as (s & Es & Ex). rewrite (get_nth D _ (fun _ => 0)) in Ex by lia. cbn [bind] in Ex.
  rewrite (get_nth r _ (fun _ => 0)) in Ex by lia. cbn [bind] in Ex. injection Ex as Ex.
  assert (Hdv : forall a, (a < length r - 1)%nat -> kn d a = steps dist feet a).
  { intros a Ha. destruct (Hd a ltac:(lia)) as (y & Hy & Ey). unfold kn. rewrite (nth_error_nth _ _ 0 Hy).
    rewrite !(get_nth ts _ 0) in Ey by lia. cbn [bind] in Ey.
    assert (Ha1 : (a + 1 < length ts)%nat) by lia. assert (Ha0 : (a < length ts)%nat) by lia.
    destruct (HF (a + 1)%nat (nth (a + 1) ts 0) (nth_error_nth' ts 0 Ha1)) as (f1 & Hf1 & Ef1).
    destruct (HF a (nth a ts 0) (nth_error_nth' ts 0 Ha0)) as (f0 & Hf0 & Ef0). cbv beta in Ef1, Ef0.
    rewrite Ef1 in Ey. cbn [bind] in Ey. rewrite Ef0 in Ey. cbn [bind] in Ey. injection Ey as <-.
    rewrite Nat.add_1_r in Hf1. unfold steps, pts_at. f_equal; symmetry; [exact (nth_error_nth _ _ (fun _ => 0) Hf0)|exact (nth_error_nth _ _ (fun _ => 0) Hf1)]. }
  destruct (tangent_scale_ok dist (map (projected rat dim) r) d (steps dist feet) (length r) j s) as (A & B); try lia.
  { rewrite map_length. reflexivity. } { exact Hdv. } { exact Es. }
  rewrite Lr in A, B. split; [exact A|]. refine (eq_trans Hnx _). rewrite <- Ex, B. unfold stretch. replace (length feet) with (length us) by lia. reflexivity.
Qed.
End AtR.
