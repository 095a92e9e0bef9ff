(** Surfaces extended to a curve or by a length; surfaces split in two. *)
From Coq Require Import List Arith ZArith Reals Lia Lra Bool.
From Verif Require Import Model_Base Spec_Base Spec_Basis Spec_Knots Spec_Eval Spec_Surface Spec_Interp Spec_Solve Spec_Elevate Spec_Unify Spec_Curve Spec_Gordon Spec_Connect Spec_Stools
  Model_Basis Model_Knots Model_Curve Model_Surface Model_Elevate Model_Unify Model_Interp Model_Gordon Model_Connect Model_Stools
  Proof_Base Proof_Basis Proof_Eval Proof_Insert Proof_Curve Proof_Trim Proof_PropBasis Proof_Ctor
  Proof_Knots Proof_Builders Proof_Elevate2 Proof_Elevate3 Proof_Elevate4 Proof_Unify Proof_Unify2 Proof_Unify3 Proof_Unify4 Proof_Unify5
  Proof_Join Proof_Join2 Proof_Json Proof_SurfEdit2
  Proof_Interp Proof_Interp3 Proof_Surface Proof_SurfEdit Proof_Skin1 Proof_Gordon1 Proof_Gordon2 Proof_Gordon4 Proof_Connect4 Proof_Connect5 Proof_Stools1 Proof_Stools2 Proof_Stools3.
Import ListNotations.
Local Open Scope R_scope.

Section AtR.
Variable eps : R.
Local Hint Extern 0 (Num R) => exact (NumR eps) : typeclass_instances.
Hypothesis He : 0 < eps.

Lemma surf_at s u v du dv : csurf eps s -> s_u1 s <= u <= s_u2 s -> s_v1 s <= v <= s_v2 s ->
  exists z, surf_value s u v du dv = Ok z /\ surf_eval u v (s_ku s) (s_kv s) (s_poles s) (s_degU s) (s_degV s) du dv = Ok z.
Proof.
  intros H Hu Hv. destruct (csurf_value eps s u v du dv He H) as (z & E & E' & _); [apply (csurf_dom eps He); auto|]. eauto.
Qed.

(** From the rows to the surfaces. *)
Lemma same_rows dim s u s' u' du : csurf eps s -> csurf eps s' -> s_kv s' = s_kv s -> s_degV s' = s_degV s -> s_nV s' = s_nV s ->
  s_u1 s <= u <= s_u2 s -> s_u1 s' <= u' <= s_u2 s' ->
  (forall j i, (j < s_nV s)%nat -> (i < dim)%nat ->
     val (eval_value u' (s_ku s') (row (s_poles s') (s_nU s') j) (s_degU s') du) i =
     val (eval_value u (s_ku s) (row (s_poles s) (s_nU s) j) (s_degU s) du) i) ->
  forall v dv, s_v1 s <= v <= s_v2 s -> same_at eps dim s u v s' u' v du dv.
Proof.
  intros H H' Ek Ed En Hu Hu' HR v dv Hv.
  destruct (csurf_bounds eps He s H) as (_ & _ & B3 & B4 & _). destruct (csurf_bounds eps He s' H') as (_ & _ & B3' & B4' & _).
  destruct (surf_at s u v du dv H Hu Hv) as (z & Z1 & Z2).
  destruct (surf_at s' u' v du dv H' Hu') as (z' & Z3 & Z4); [rewrite B3', B4', Ek, <- B3, <- B4; exact Hv|].
  pose proof H as (Ok1 & _). pose proof H' as (Ok2 & _). unfold surface_ok in Ok1, Ok2. rewrite Ek, Ed, En in Ok2.
  destruct (row_transfer_on2 eps (fun i => (i < dim)%nat) (s_ku s) (s_nU s) (s_degU s) (s_ku s') (s_nU s') (s_degU s') (s_kv s) (s_nV s) (s_degV s)
    (s_poles s) (s_poles s') u u' du dv v Ok1 Ok2 (csurf_ev eps s H)) as (y & y' & Y1 & Y2 & Y3).
  - pose proof (csurf_ev eps s' H') as Z. unfold evaluable_surface in Z. rewrite Ek, Ed, En in Z. exact Z.
  - apply (csurf_span_u eps He); assumption.
  - apply (csurf_span_u eps He); assumption.
  - apply (csurf_span eps He); assumption.
  - exact HR.
  - rewrite Z2 in Y1. injection Y1 as <-. rewrite Ek, Ed in Z4. rewrite Z4 in Y2. injection Y2 as <-.
    exists z, z'. auto.
Qed.

Lemma row_edge dim s u c : csurf eps s -> along_v s c -> s_u1 s <= u <= s_u2 s ->
  (forall j i, (j < s_nV s)%nat -> (i < dim)%nat ->
     val (eval_value u (s_ku s) (row (s_poles s) (s_nU s) j) (s_degU s) 0) i = pole (c_poles c) i j) ->
  edge_is eps dim s u c.
Proof.
  intros H (A1 & A2 & A3 & A4 & A5) Hu HR v dv Hv.
  destruct (surf_at s u v 0 dv H Hu Hv) as (z & Z1 & Z2). pose proof H as (Oks & _ & _ & CV & _ & D2). pose proof Oks as (_ & KV & _).
  pose proof (csurf_span eps He s v H Hv) as Hs.
  assert (Lc : length (c_poles c) = s_nV s) by (destruct KV as (Z & _); lia).
  destruct (span_pack eps _ _ _ v KV Hs) as (l2 & _ & Hl2 & Hs2 & _).
  pose proof (surf_rows eps _ _ _ _ _ _ _ Oks (csurf_ev eps s H) u v 0 dv) as A.
  destruct (rv_eval eps (s_kv s) (s_nV s) (s_degV s) KV v dv (c_poles c)) as (z' & Ez & _); [exact Hs|exact Lc|left; unfold stack_max; lia|].
  exists z, z'. split; [exact Z1|]. split; [rewrite (value_guard_eval eps) by lra; rewrite A1, A2; exact Ez|].
  intros i Hi. specialize (A i l2 (csurf_span_u eps He s u H Hu) Hl2 Hs2). unfold SVal in A. rewrite Z2 in A. cbn [val] in A. rewrite A.
  pose proof (eval_val_span eps (s_kv s) (s_nV s) (s_degV s) (c_poles c) v dv l2 i KV Lc (ev2_2 _ _ _ _ _ _ _ (csurf_ev eps s H)) Hl2 Hs2) as B.
  rewrite Ez in B. cbn [val] in B. rewrite B. destruct (dv <=? s_degV s)%nat; [|reflexivity]. apply PS_ext. intros j Hj. apply HR; [lia|exact Hi].
Qed.

Lemma row_zero dim s u d : csurf eps s -> s_u1 s <= u <= s_u2 s ->
  (forall j i, (j < s_nV s)%nat -> (i < dim)%nat ->
     val (eval_value u (s_ku s) (row (s_poles s) (s_nU s) j) (s_degU s) d) i = 0) ->
  edge_zero eps dim s u d.
Proof.
  intros H Hu HR v dv Hv.
  destruct (surf_at s u v d dv H Hu Hv) as (z & Z1 & Z2). pose proof H as (Oks & _ & _ & CV & _ & D2). pose proof Oks as (_ & KV & _).
  pose proof (csurf_span eps He s v H Hv) as Hs.
  destruct (span_pack eps _ _ _ v KV Hs) as (l2 & _ & Hl2 & Hs2 & _).
  exists z. split; [exact Z1|]. intros i Hi.
  pose proof (surf_rows eps _ _ _ _ _ _ _ Oks (csurf_ev eps s H) u v d dv i l2 (csurf_span_u eps He s u H Hu) Hl2 Hs2) as A.
  unfold SVal in A. rewrite Z2 in A. cbn [val] in A. rewrite A. destruct (dv <=? s_degV s)%nat; [|reflexivity].
  etransitivity; [apply (PS_ext _ _ _ _ _ (fun _ => 0)); intros j Hj; apply HR; [lia|exact Hi]|].
  unfold PS. apply sumn_zero. intros j _. ring.
Qed.

(** extention_to_curve *)
Lemma mean_ok norm s c np L : csurf eps s -> (2 <= np)%nat -> mean_length eps norm s c np L -> mean_extension norm s c np = Ok L.
Proof.
  intros H Hnp (ratio & -> & HR). destruct (csurf_bounds eps He s H) as (_ & B2 & B3 & B4 & _).
  pose proof H as (Oks & _). destruct Oks as ((LU & HU & _) & (LV & HV & _) & _).
  unfold mean_extension. rewrite (front_nth (s_kv s) 0) by lia. cbn [bind]. rewrite !back_kn by lia. cbn [bind].
  change (nth 0 (s_kv s) 0) with (first_knot (s_kv s)). change (kn (s_kv s) (length (s_kv s) - 1)) with (last_knot (s_kv s)).
  change (kn (s_ku s) (length (s_ku s) - 1)) with (last_knot (s_ku s)). rewrite <- B2, <- B3, <- B4.
  assert (Hn0 : INR np <> 0) by (apply not_0_INR; lia).
  assert (Hn1 : INR np - 1 <> 0).
  { assert (2 <= INR np) by (change 2 with (INR 2); apply le_INR, Hnp). lra. }
  match goal with |- for_ 0 np ?b ?i0 = _ => destruct (for_inv (fun i x => x = sumn i (fun i => ratio i / INR np)) b 0 np i0) as (st & E & EP) end.
  - reflexivity.
  - intros i x Hi ->. destruct (HR i ltac:(lia)) as (a & t & b & Ea & Et & Eb & Ht & Er). cbn zeta in *.
    rewrite (divc_ok eps) by (rewrite nofnat_R; exact Hn1). cbn [bind]. nsimp. rewrite !nofnat_R.
    rewrite Et. cbn [bind]. rewrite Ea. cbn [bind]. rewrite Eb. cbn [bind]. rewrite (divc_ok eps) by exact Ht. cbn [bind].
    rewrite (divc_ok eps) by (rewrite ?nofnat_R; exact Hn0). cbn [bind]. eexists. split; [reflexivity|]. cbn [sumn]. nsimp. rewrite Er, ?nofnat_R. reflexivity.
  - rewrite E, EP. reflexivity.
Qed.

Theorem extention_ok lu norm dim np s c L (natural : bool) mc :
  complete_solver lu -> csurf eps s -> (1 <= s_degU s)%nat -> along_v s c -> (2 <= np)%nat -> mean_length eps norm s c np L ->
  eps * INR (s_degU s) < L -> countable (length (s_ku s)) (length (s_kv s)) ->
  exists e, extention_to_curve lu norm dim np s c natural mc = Ok e /\ csurf eps e /\ (1 <= s_degU e <= s_degU s)%nat /\
    s_kv e = s_kv s /\ s_degV e = s_degV s /\ s_u1 e = s_u2 s /\ s_u2 e = s_u2 s + L /\ s_v1 e = s_v1 s /\ s_v2 e = s_v2 s /\
    (length (s_ku e) <= 2 * length (s_ku s))%nat /\
    (forall v du dv, s_v1 s <= v <= s_v2 s -> (du <= continuity (s_degU s) mc)%nat -> same_at eps dim s (s_u2 s) v e (s_u1 e) v du dv) /\
    edge_is eps dim e (s_u2 e) c /\
    (natural = true -> (2 < s_degU s)%nat -> edge_zero eps dim e (s_u2 e) 2).
Proof.
  intros Hco H Hp Hc Hnp HL HLe Hz. pose proof Hc as (A1 & A2 & A3 & A4 & A5).
  destruct (csurf_bounds eps He s H) as (B1 & B2 & B3 & B4 & B5 & B6). pose proof H as (Oks & _ & CU & CV & _). pose proof Oks as (KU & KV & _).
  assert (Lc : length (c_poles c) = s_nV s) by (destruct KV as (Z & _); lia).
  unfold extention_to_curve. destruct KU as (LU & HU & _). rewrite back_kn by lia. cbn [bind].
  rewrite (mean_ok norm s c np L H Hnp HL). cbn [bind]. nsimp.
  change (kn (s_ku s) (length (s_ku s) - 1)) with (last_knot (s_ku s)). rewrite <- B2.
  destruct (ext_surface_ok eps He lu dim s c (s_u2 s + L) natural mc Hco H Hp ltac:(lia) ltac:(lra) Hz)
    as (e & E & Ce & Q1 & Q2 & Q3 & Q4 & Q5 & Q6 & Q7 & Q8 & Q9 & Q10).
  destruct (csurf_bounds eps He e Ce) as (B1' & B2' & B3' & B4' & B5' & B6').
  exists e. split; [exact E|]. split; [exact Ce|]. split; [exact Q1|]. split; [exact Q3|]. split; [exact Q2|]. split; [exact Q5|]. split; [exact Q6|].
  split; [congruence|]. split; [congruence|]. split; [exact Q7|]. split; [|split].
  - intros v du dv Hv Hd. apply (same_rows dim s (s_u2 s) e (s_u1 e) du); auto; [lra|lra|].
    intros j i Hj Hi. rewrite Q5. apply Q8; assumption.
  - apply row_edge; auto; [|lra|].
    + unfold along_v. rewrite Q3, Q2. repeat split; congruence.
    + intros j i Hj Hi. rewrite Q6. apply Q9; [lia|exact Hi].
  - intros Hn Hp2. apply row_zero; auto; [lra|]. intros j i Hj Hi. rewrite Q6. apply Q10; auto. lia.
Qed.

Theorem extended_ok lu norm dim np s c L (natural : bool) mc :
  complete_solver lu -> csurf eps s -> (1 <= s_degU s)%nat -> along_v s c -> (2 <= np)%nat -> mean_length eps norm s c np L ->
  eps * INR (s_degU s) < L -> countable (3 * length (s_ku s)) (length (s_kv s)) ->
  exists r, extended_to_curve lu norm dim np s c natural mc = Ok r /\ csurf eps r /\ s_degU r = s_degU s /\
    s_kv r = s_kv s /\ s_degV r = s_degV s /\ s_u1 r = s_u1 s /\ s_u2 r = s_u2 s + L /\ s_v1 r = s_v1 s /\ s_v2 r = s_v2 s /\
    (forall u v du dv, s_v1 s <= v <= s_v2 s -> s_u1 s <= u < s_u2 s \/ u = s_u2 s /\ (du <= continuity (s_degU s) mc)%nat ->
       same_at eps dim s u v r u v du dv) /\
    edge_is eps dim r (s_u2 r) c /\
    (natural = true -> (2 < s_degU s)%nat -> edge_zero eps dim r (s_u2 r) 2).
Proof.
  intros Hco H Hp Hc Hnp HL HLe Hz.
  assert (HL0 : 0 < L) by (pose proof (pos_INR (s_degU s)); pose proof (Rmult_le_pos eps (INR (s_degU s)) ltac:(lra) ltac:(lra)); lra).
  assert (Hz' : countable (length (s_ku s)) (length (s_kv s))) by (unfold countable in *; nia).
  destruct (extention_ok lu norm dim np s c L natural mc Hco H Hp Hc Hnp HL HLe Hz') as (e & E & Ce & D & K & Dv & U1 & U2 & V1 & V2 & Le & Sm & Ed & Ez).
  destruct (csurf_bounds eps He s H) as (B1 & B2 & B3 & B4 & B5 & B6). destruct (csurf_bounds eps He e Ce) as (B1' & B2' & B3' & B4' & B5' & B6').
  unfold extended_to_curve. rewrite E. cbn [bind].
  destruct (surf_join_ok eps He dim s e H Ce (eq_sym K) ltac:(lia)) as (r & Er & Cr & R1 & R2 & R3 & R4 & R5 & R6 & R7).
  { unfold countable in *. nia. }
  { intros v Hv. apply Sm; [exact Hv|lia]. }
  destruct (csurf_bounds eps He r Cr) as (_ & _ & B3'' & B4'' & _).
  rewrite U1 in R5, R7. replace (s_u2 s - s_u2 s) with 0 in R5, R7 by ring. rewrite Rplus_0_r in R5.
  assert (Vr : s_v1 r = s_v1 s /\ s_v2 r = s_v2 s) by (rewrite B3'', B4'', B3, B4, R3; auto). destruct Vr as (Vr1 & Vr2).
  assert (R7' : forall v du dv, s_v1 s <= v <= s_v2 s -> same_at eps dim e (s_u2 e) v r (s_u2 r) v du dv).
  { intros v du dv Hv. pose proof (R7 (s_u2 e) v du dv Hv ltac:(lra)) as Z. rewrite Rplus_0_r in Z. rewrite R5. exact Z. }
  exists r. split; [exact Er|]. split; [exact Cr|]. split; [lia|]. split; [exact R3|]. split; [exact R2|]. split; [exact R4|]. split; [lra|].
  split; [exact Vr1|]. split; [exact Vr2|]. split; [|split].
  - intros u v du dv Hv [Hu|(-> & Hd)]; [apply R6; auto|].
    destruct (Sm v du dv Hv Hd) as (z & z' & Z1 & Z2 & Z3). pose proof (R7 (s_u2 s) v du dv Hv ltac:(lra)) as (y & y' & Y1 & Y2 & Y3).
    rewrite Rplus_0_r in Y2. rewrite U1 in Z2. rewrite Z2 in Y1. injection Y1 as <-. exists z, y'. split; [exact Z1|]. split; [exact Y2|].
    intros i Hi. rewrite Y3, Z3 by exact Hi. reflexivity.
  - intros v dv Hv. rewrite Vr1, Vr2 in Hv. destruct (Ed v dv ltac:(lra)) as (z & z' & Z1 & Z2 & Z3). destruct (R7' v 0%nat dv Hv) as (y & y' & Y1 & Y2 & Y3).
    rewrite Z1 in Y1. injection Y1 as <-. exists y', z'. split; [exact Y2|]. split; [exact Z2|]. intros i Hi. rewrite Y3 by exact Hi. apply Z3, Hi.
  - intros Hn Hp2 v dv Hv. rewrite Vr1, Vr2 in Hv. destruct (Ez Hn Hp2 v dv ltac:(lra)) as (z & Z1 & Z2). destruct (R7' v 2%nat dv Hv) as (y & y' & Y1 & Y2 & Y3).
    rewrite Z1 in Y1. injection Y1 as <-. exists y'. split; [exact Y2|]. intros i Hi. rewrite Y3 by exact Hi. apply Z2, Hi.
Qed.

(** The curve at a distance of the end. *)
Lemma mapM_nth {A B} (f : A -> result B) l r d d' : mapM f l = Ok r -> length r = length l /\ forall i, (i < length l)%nat -> f (nth i l d) = Ok (nth i r d').
Proof.
  revert r. induction l as [|a l IH]; intros r E; cbn [mapM] in E; [injection E as <-; split; [reflexivity|simpl; lia]|].
  apply bind_inv in E as (b & Eb & E). apply bind_inv in E as (t & Et & E). injection E as <-. destruct (IH t Et) as (L & N).
  split; [cbn [length]; lia|]. intros [|i] Hi; [exact Eb|]. apply N. cbn [length] in Hi. lia.
Qed.

Lemma offset_ok ldlt norm dim s l c : exact_solver ldlt -> csurf eps s -> (1 <= s_degV s)%nat -> offset_curve ldlt norm dim s l = Ok c ->
  along_v s c /\
  forall v, v = s_v1 s \/ v = s_v2 s -> exists a t, surf_value s (s_u2 s) v 0 0 = Ok a /\ surf_value s (s_u2 s) v 1 0 = Ok t /\ norm t <> 0 /\
    exists z, value c v 0 = Ok z /\ forall i, z i = a i + l * (t i / norm t).
Proof.
  intros Hex H Hq E. destruct (csurf_bounds eps He s H) as (B1 & B2 & B3 & B4 & B5 & B6). pose proof H as (Oks & _ & CU & CV & D1 & D2). pose proof Oks as (KU & KV & _).
  destruct (ckn_gk eps He _ _ _ CV) as (_ & Ec & Sc & Stc & Tc & _).
  pose proof KV as (LV & HV & NV & _). set (nv := s_nV s) in *.
  unfold offset_curve in E. rewrite (nPolesV_ok s Oks) in E. cbn [bind] in E. fold nv in E. set (np := (nv * 10)%nat) in *.
  apply bind_inv in E as (vs & Evs & E). apply bind_inv in E as (pts & Epts & E).
  assert (Hnp : (20 <= np)%nat) by (unfold np; lia).
  assert (Hn1 : INR np - 1 <> 0).
  { assert (20 <= INR np) by (replace 20 with (INR 20) by (simpl; lra); apply le_INR, Hnp). lra. }
  destruct (mapM_nth _ _ _ 0%nat 0 Evs) as (Lvs & Nvs). rewrite seq_length in Lvs, Nvs.
  destruct (mapM_nth _ _ _ 0 (fun _ => 0) Epts) as (Lp & Np). rewrite Lvs in Lp, Np.
  assert (Vi : forall i, (i < np)%nat -> nth i vs 0 = s_v1 s + (s_v2 s - s_v1 s) * INR i / (INR np - 1)).
  { intros i Hi. pose proof (Nvs i Hi) as Z. rewrite seq_nth, Nat.add_0_l in Z by exact Hi. rewrite (divc_ok eps) in Z by (rewrite nofnat_R; exact Hn1).
    cbn [bind] in Z. nsimp. rewrite !nofnat_R in Z. injection Z as <-. reflexivity. }
  assert (V0 : nth 0 vs 0 = s_v1 s) by (rewrite Vi by lia; simpl INR; unfold Rdiv; ring).
  assert (V1 : nth (np - 1) vs 0 = s_v2 s) by (rewrite Vi by lia; rewrite minus_INR by lia; simpl (INR 1); field; exact Hn1).
  assert (Pi : forall i, (i < np)%nat -> exists a t, surf_value s (s_u2 s) (nth i vs 0) 0 0 = Ok a /\ surf_value s (s_u2 s) (nth i vs 0) 1 0 = Ok t /\ norm t <> 0 /\
     forall c, nth i pts (fun _ => 0) c = a c + l * (t c / norm t)).
  { intros i Hi. pose proof (Np i Hi) as Z. apply bind_inv in Z as (a & Ea & Z). apply bind_inv in Z as (t & Et & Z). apply bind_inv in Z as (t' & Et' & Z).
    injection Z as Z. exists a, t. split; [exact Ea|]. split; [exact Et|].
    destruct (Req_EM_T (norm t) 0) as [Z0|Z0].
    - exfalso. unfold pdiv in Et'. rewrite Z0, (divc_zero eps) in Et'. discriminate.
    - split; [exact Z0|]. unfold pdiv in Et'. rewrite (divc_ok eps) in Et' by exact Z0. cbn [bind] in Et'. injection Et' as Et'. intros c0. etransitivity; [symmetry; exact (f_equal (fun h : pt R => h c0) Z)|]. rewrite <- Et'. unfold padd, pscal. nsimp. field. exact Z0. }
  assert (Hin : forall x, In x vs -> kn (s_kv s) (s_degV s) <= x <= kn (s_kv s) nv).
  { intros x Hx. destruct (In_nth vs x 0 Hx) as (i & Hi & <-). rewrite Lvs in Hi. apply (csurf_span eps He s _ H). rewrite Vi by exact Hi.
    assert (0 <= INR i <= INR np - 1).
    { split; [apply pos_INR|]. replace (INR np - 1) with (INR (np - 1)) by (rewrite minus_INR by lia; simpl; ring). apply le_INR. lia. }
    assert (0 <= INR i / (INR np - 1) <= 1).
    { split; [apply Rmult_le_pos; [lra|left; apply Rinv_0_lt_compat; lra]|]. apply (Rmult_le_reg_r (INR np - 1)); [lra|]. unfold Rdiv. rewrite Rmult_assoc, Rinv_l by exact Hn1. lra. }
    unfold Rdiv in *. rewrite Rmult_assoc. nra. }
  destruct (bound_fixed_ok eps (s_kv s) nv (s_degV s) KV (ev2_2 _ _ _ _ _ _ _ (csurf_ev eps s H)) ldlt dim pts vs c Hex ltac:(lia) (eq_trans Lvs (eq_sym Lp)) Hin E) as (F1 & F2 & F3 & F4 & F5 & F6 & _).
  destruct (bf_fields eps ldlt dim pts _ _ vs (s_kv s) c E ltac:(lia)) as (_ & F7 & F8).
  assert (Al : along_v s c).
  { split; [exact F2|]. split; [exact F1|]. split; [lia|]. split; [rewrite F7, B3; reflexivity|rewrite F8, B4; reflexivity]. }
  split; [exact Al|].
  intros v [->| ->].
  - destruct (Pi 0%nat ltac:(lia)) as (a & t & Ea & Et & Hn & Ep). rewrite V0 in Ea, Et. exists a, t. split; [exact Ea|]. split; [exact Et|]. split; [exact Hn|].
    destruct (eval_value_start eps (s_kv s) nv (s_degV s) (c_poles c) KV F3 (ev2_2 _ _ _ _ _ _ _ (csurf_ev eps s H)) Sc Stc) as (z & Ez & Vz).
    exists z. split; [rewrite (value_guard_eval eps) by (rewrite F7, F8; unfold first_knot, last_knot in *; lra); rewrite F1, F2, B3; exact Ez|].
    intros i. rewrite Vz. unfold polec. rewrite F5. apply Ep.
  - destruct (Pi (np - 1)%nat ltac:(lia)) as (a & t & Ea & Et & Hn & Ep). rewrite V1 in Ea, Et. exists a, t. split; [exact Ea|]. split; [exact Et|]. split; [exact Hn|].
    destruct (eval_value_end eps (s_kv s) nv (s_degV s) (c_poles c) KV F3 (ev2_2 _ _ _ _ _ _ _ (csurf_ev eps s H)) Ec) as (z & Ez & Vz).
    exists z. split; [rewrite (value_guard_eval eps) by (rewrite F7, F8; unfold first_knot, last_knot in *; lra); rewrite F1, F2, B4, <- Tc; exact Ez|].
    intros i. rewrite Vz. unfold polec. rewrite F6. change (length pts) with (@length (nat -> R) pts). rewrite Lp. apply Ep.
Qed.

Theorem extended_length_ok lu ldlt norm dim np s l c L (natural : bool) mc :
  complete_solver lu -> exact_solver ldlt -> csurf eps s -> (1 <= s_degU s)%nat -> (1 <= s_degV s)%nat -> (2 <= np)%nat ->
  offset_curve ldlt norm dim s l = Ok c -> mean_length eps norm s c np L ->
  eps * INR (s_degU s) < L -> countable (3 * length (s_ku s)) (length (s_kv s)) ->
  exists r, surf_extended lu ldlt norm dim np s l natural mc = Ok r /\ csurf eps r /\ s_degU r = s_degU s /\
    s_kv r = s_kv s /\ s_degV r = s_degV s /\ s_u1 r = s_u1 s /\ s_u2 r = s_u2 s + L /\ s_v1 r = s_v1 s /\ s_v2 r = s_v2 s /\
    (forall u v du dv, s_v1 s <= v <= s_v2 s -> s_u1 s <= u < s_u2 s \/ u = s_u2 s /\ (du <= continuity (s_degU s) mc)%nat ->
       same_at eps dim s u v r u v du dv) /\
    edge_is eps dim r (s_u2 r) c /\
    (natural = true -> (2 < s_degU s)%nat -> edge_zero eps dim r (s_u2 r) 2) /\
    forall v, v = s_v1 s \/ v = s_v2 s -> exists a t z, surf_value s (s_u2 s) v 0 0 = Ok a /\ surf_value s (s_u2 s) v 1 0 = Ok t /\ norm t <> 0 /\
      surf_value r (s_u2 r) v 0 0 = Ok z /\ forall i, (i < dim)%nat -> z i = a i + l * (t i / norm t).
Proof.
  intros Hco Hex H Hp Hq Hnp Ec HL HLe Hz. destruct (offset_ok ldlt norm dim s l c Hex H Hq Ec) as (Al & Hend).
  destruct (extended_ok lu norm dim np s c L natural mc Hco H Hp Al Hnp HL HLe Hz) as (r & Er & Cr & R1 & R2 & R3 & R4 & R5 & R6 & R7 & R8 & R9 & R10).
  exists r. unfold surf_extended. rewrite Ec. cbn [bind]. split; [exact Er|]. repeat (split; [assumption|]).
  intros v Hv. destruct (Hend v Hv) as (a & t & Ea & Et & Hn & z & Ez & Vz).
  destruct (csurf_bounds eps He s H) as (_ & _ & _ & _ & _ & B6).
  destruct (R9 v 0%nat) as (y & y' & Y1 & Y2 & Y3); [rewrite R6, R7; destruct Hv; subst; lra|].
  rewrite Ez in Y2. injection Y2 as <-. exists a, t, y. repeat (split; [assumption|]). intros i Hi. rewrite Y3 by exact Hi. apply Vz.
Qed.

(** ** split_u and split_v *)
Lemma ckn_count p k n x : ckn_of eps p k n -> first_knot k < x < last_knot k -> (count_occ Req_EM_T k x <= p)%nat.
Proof.
  intros (U & M & HK & -> & ->) Hx. pose proof (ck_ckn eps p U M ltac:(lra) HK) as HC. pose proof HC as (L & L2 & HI & _ & _ & Hm).
  destruct (re_ends p U M HC) as (E1 & E2). rewrite E1, E2 in Hx.
  destruct (In_dec Req_EM_T x U) as [Hin|Hin].
  - destruct (In_nth U x 0 Hin) as (i & Hi & <-). change (nth i U 0) with (kn U i) in *. rewrite count_re by assumption.
    assert (i <> 0%nat) by (intros ->; lra). assert (i <> (length U - 1)%nat) by (intros ->; lra). apply Hm. lia.
  - rewrite (proj1 (count_occ_not_In Req_EM_T _ x)); [lia|]. intros Z. apply Hin. exact (repeat_each_In _ _ _ Z).
Qed.

Lemma gk_clamped k n p : gk k n p -> clamped k n p.
Proof. intros (_ & E & S & _). split; [exact S|]. exact E. Qed.

Theorem split_u_ok s u : csurf eps s -> (1 <= s_degU s)%nat -> s_u1 s < u < s_u2 s ->
  exists a b, split_u s u = Ok (a, b) /\
    s_u1 a = s_u1 s /\ s_u2 a = u /\ s_u1 b = u /\ s_u2 b = s_u2 s /\
    s_kv a = s_kv s /\ s_kv b = s_kv s /\ s_v1 a = s_v1 s /\ s_v2 a = s_v2 s /\ s_v1 b = s_v1 s /\ s_v2 b = s_v2 s /\
    s_degU a = s_degU s /\ s_degU b = s_degU s /\ s_degV a = s_degV s /\ s_degV b = s_degV s /\
    forall dim x v du dv, s_v1 s <= v <= s_v2 s ->
      (s_u1 s <= x < u \/ x = u /\ du = 0%nat -> same_at eps dim s x v a x v du dv) /\
      (u <= x < s_u2 s \/ x = s_u2 s /\ du = 0%nat -> same_at eps dim s x v b x v du dv).
Proof.
  intros H Hp Hu. destruct (csurf_bounds eps He s H) as (B1 & B2 & B3 & B4 & B5 & B6). pose proof H as (Oks & Ns & CU & CV & D1 & D2).
  pose proof (ckn_gk eps He _ _ _ CU) as G. pose proof (gk_clamped _ _ _ G) as Cl. destruct G as (_ & _ & S & _ & T & _).
  assert (K1 : kn (s_ku s) (s_degU s) = s_u1 s) by (rewrite S, B1 by lia; reflexivity). assert (K2 : kn (s_ku s) (s_nU s) = s_u2 s) by (rewrite T, B2; reflexivity).
  destruct (trimU_prop eps s (s_u1 s) u He Oks Ns Hp Cl ltac:(lra) ltac:(lra) ltac:(lra)) as (a & Ea & Oa & _ & A1 & A2 & A3 & A4 & A5 & A6 & A7 & _ & _ & _ & _ & Aa).
  destruct (trimU_prop eps s u (s_u2 s) He Oks Ns Hp Cl ltac:(lra) ltac:(lra) ltac:(lra)) as (b & Eb & Ob & _ & C1 & C2 & C3 & C4 & C5 & C6 & C7 & _ & _ & _ & _ & Bb).
  exists a, b. unfold split_u. rewrite Ea. cbn [bind]. rewrite Eb. cbn [bind]. split; [reflexivity|]. repeat (split; [assumption|]).
  intros dim x v du dv Hv. pose proof (csurf_span eps He s v H Hv) as Hs.
  assert (Eva : evaluable_surface eps a) by (left; lia). assert (Evb : evaluable_surface eps b) by (left; lia).
  split; intros Hx.
  - destruct (Aa (csurf_ev eps s H) Eva x v x v du dv) as (z & z' & Z1 & Z2 & Z3).
    + split; [exact Hs|]. split; [reflexivity|]. split; [reflexivity|]. destruct Hx as [Hx|(-> & ->)]; [left; lra|right].
      split; [reflexivity|]. split; [reflexivity|]. left. apply (ckn_count _ _ _ u CU). rewrite <- B1, <- B2. exact Hu.
    + exists z, z'. split; [exact Z1|]. split; [exact Z2|]. intros c _. rewrite Z3. unfold one. ring.
  - destruct (Bb (csurf_ev eps s H) Evb x v x v du dv) as (z & z' & Z1 & Z2 & Z3).
    + split; [exact Hs|]. split; [reflexivity|]. split; [reflexivity|]. destruct Hx as [Hx|(-> & ->)]; [left; lra|right].
      split; [reflexivity|]. split; [reflexivity|]. right. lra.
    + exists z, z'. split; [exact Z1|]. split; [exact Z2|]. intros c _. rewrite Z3. unfold one. ring.
Qed.

Theorem split_v_ok s v0 : csurf eps s -> (1 <= s_degV s)%nat -> s_v1 s < v0 < s_v2 s ->
  exists a b, split_v s v0 = Ok (a, b) /\
    s_v1 s - eps < s_v1 a <= s_v1 s /\ v0 <= s_v2 a < v0 + eps /\ v0 - eps < s_v1 b <= v0 /\ s_v2 s <= s_v2 b < s_v2 s + eps /\
    (eps <= s_v2 s - v0 -> s_v2 a = v0) /\ (eps <= v0 - s_v1 s -> s_v1 b = v0) /\
    s_ku a = s_ku s /\ s_ku b = s_ku s /\ s_u1 a = s_u1 s /\ s_u2 a = s_u2 s /\ s_u1 b = s_u1 s /\ s_u2 b = s_u2 s /\
    s_degU a = s_degU s /\ s_degU b = s_degU s /\ s_degV a = s_degV s /\ s_degV b = s_degV s /\
    forall dim u x du dv, s_u1 s <= u <= s_u2 s ->
      (s_v1 s <= x < v0 \/ x = v0 /\ dv = 0%nat -> same_at eps dim s u x a u x du dv) /\
      (v0 <= x < s_v2 s \/ x = s_v2 s /\ dv = 0%nat -> same_at eps dim s u x b u x du dv).
Proof.
  intros H Hp Hu. destruct (csurf_bounds eps He s H) as (B1 & B2 & B3 & B4 & B5 & B6). pose proof H as (Oks & Ns & CU & CV & D1 & D2).
  pose proof (ckn_gk eps He _ _ _ CV) as G. pose proof (gk_clamped _ _ _ G) as Cl. destruct G as (_ & _ & S & _ & T & _).
  assert (K1 : kn (s_kv s) (s_degV s) = s_v1 s) by (rewrite S, B3 by lia; reflexivity). assert (K2 : kn (s_kv s) (s_nV s) = s_v2 s) by (rewrite T, B4; reflexivity).
  destruct (trimV_prop eps s (s_v1 s) v0 He Oks Ns Hp Cl ltac:(lra) ltac:(lra) ltac:(lra)) as (a & Ea & Oa & Na & Ca & A1 & A2 & A3 & A4 & A5 & A6 & A7 & Aa).
  destruct (trimV_prop eps s v0 (s_v2 s) He Oks Ns Hp Cl ltac:(lra) ltac:(lra) ltac:(lra)) as (b & Eb & Ob & Nb & Cb & C1 & C2 & C3 & C4 & C5 & C6 & C7 & Bb).
  assert (Bn : forall t, surface_ok t -> natural_surface t -> clamped (s_kv t) (s_nV t) (s_degV t) -> s_ku t = s_ku s -> s_degU t = s_degU s ->
     kn (s_kv t) (s_degV t) = s_v1 t /\ kn (s_kv t) (s_nV t) = s_v2 t /\ s_u1 t = s_u1 s /\ s_u2 t = s_u2 s).
  { intros t Ot (N1 & N2 & N3 & N4) (X1 & X2) Ek Ed. rewrite N1, N2, N3, N4. split; [apply X1; lia|]. split; [symmetry; apply X2; lia|].
    destruct Ns as (M1 & M2 & _). rewrite M1, M2, Ek. split; [reflexivity|]. unfold s_nU. rewrite Ek, Ed. reflexivity. }
  destruct (Bn a Oa Na Ca A3 A1) as (Q1 & Q2 & Q3 & Q4). destruct (Bn b Ob Nb Cb C3 C1) as (Q5 & Q6 & Q7 & Q8). rewrite Q1 in A4, A6. rewrite Q2 in A5, A7. rewrite Q5 in C4, C6. rewrite Q6 in C5, C7. rewrite K1, K2 in *.
  exists a, b. unfold split_v. rewrite Ea. cbn [bind]. rewrite Eb. cbn [bind]. split; [reflexivity|]. repeat (split; [assumption|]).
  intros dim u x du dv Hv. pose proof (csurf_span_u eps He s u H Hv) as Hs.
  assert (Eva : evaluable_surface eps a) by (left; lia). assert (Evb : evaluable_surface eps b) by (left; lia).
  split; intros Hx.
  - destruct (Aa (csurf_ev eps s H) Eva u x u x du dv) as (z & z' & Z1 & Z2 & Z3).
    + split; [exact Hs|]. split; [reflexivity|]. split; [reflexivity|]. destruct Hx as [Hx|(-> & ->)]; [left; lra|right].
      split; [reflexivity|]. split; [reflexivity|]. left. apply (ckn_count _ _ _ v0 CV). rewrite <- B3, <- B4. exact Hu.
    + exists z, z'. split; [exact Z1|]. split; [exact Z2|]. intros c _. rewrite Z3. unfold one. ring.
  - destruct (Bb (csurf_ev eps s H) Evb u x u x du dv) as (z & z' & Z1 & Z2 & Z3).
    + split; [exact Hs|]. split; [reflexivity|]. split; [reflexivity|]. destruct Hx as [Hx|(-> & ->)]; [left; lra|right].
      split; [reflexivity|]. split; [reflexivity|]. right. lra.
    + exists z, z'. split; [exact Z1|]. split; [exact Z2|]. intros c _. rewrite Z3. unfold one. ring.
Qed.
End AtR.
