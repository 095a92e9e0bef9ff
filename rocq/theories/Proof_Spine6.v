(** A loft of two sections along a spine is always found. *)
From Coq Require Import List Arith ZArith Reals Lia Lra Bool.
From Verif Require Import Model_Base Model_Knots Model_Math Model_Basis Model_Curve Model_Rational Model_Interp Model_Surface Model_Unify Model_Skin Model_Spine
  Spec_Base Spec_Basis Spec_Eval Spec_Knots Spec_Interp Spec_Surface Spec_Unify Spec_Skin Spec_Solve Spec_Spine Proof_Base Proof_Eval Proof_Builders Proof_Builders2
  Proof_Interp Proof_Interp2 Proof_Interp3 Proof_Interp4 Proof_Surface Proof_SurfEdit Proof_SurfEdit2 Proof_PropBasis Proof_Tfi Proof_Skin1 Proof_Skin2 Proof_Skin3 Proof_Skin7 Proof_Skin9 Proof_SW3
  Proof_Skin6 Proof_Spine1 Proof_Spine2 Proof_Spine3 Proof_Spine4.
Import ListNotations.
Local Open Scope R_scope.

Section AtR.
Variable eps : R.
Local Hint Extern 0 (Num R) => exact (NumR eps) : typeclass_instances.

Lemma mapM_forall2 {A B} (f : A -> result B) l l' : Forall2 (fun a b => f a = Ok b) l l' -> mapM f l = Ok l'.
Proof. induction 1 as [|a b l l' H _ IH]; [reflexivity|]. cbn [mapM]. rewrite H. cbn [bind]. rewrite IH. reflexivity. Qed.
Lemma forall2_nth {A B} (P : A -> B -> Prop) l l' : Forall2 P l l' -> forall i b, nth_error l' i = Some b -> exists a, nth_error l i = Some a /\ P a b.
Proof. induction 1 as [|a b l l' H _ IH]; intros [|i] b' Hb; try discriminate; [injection Hb as <-; exists a; auto|exact (IH i b' Hb)]. Qed.
Lemma forall2_len {A B} (P : A -> B -> Prop) l l' : Forall2 P l l' -> length l = length l'.
Proof. induction 1; cbn [length]; congruence. Qed.

Lemma tg_returns rat dim dist extrema (rows : list (list (pt R))) spine us ts feet D : (2 <= length us)%nat -> (forall r, In r rows -> length r = length us) ->
  Forall2 (fun c t => extrema spine c = Ok t) us ts -> Forall2 (fun t x => value spine t 0 = Ok x) ts feet -> Forall2 (fun t x => value spine t 1 = Ok x) ts D ->
  (forall j, (j < length us)%nat -> around (length us) j (steps dist feet) <> 0) ->
  exists tgs, tg_from_spine rat dim dist extrema rows spine us = Ok tgs.
Proof.
  intros Hn Hl F1 F2 F3 HA. pose proof (forall2_len _ _ _ F1) as L1. pose proof (forall2_len _ _ _ F2) as L2. pose proof (forall2_len _ _ _ F3) as L3.
  unfold tg_from_spine. rewrite (mapM_forall2 _ _ _ F1). cbn [bind]. rewrite subi_ok by lia. cbn [bind].
  rewrite (mapM_ok _ (fun i => steps dist feet i)).
  2:{ intros i Hi. apply in_seq in Hi.
      assert (G : forall j, (j < length ts)%nat -> exists t, get ts j = Ok t /\ value spine t 0 = Ok (pts_at feet j)).
      { intros j Hj. assert (Hf : (j < length feet)%nat) by (rewrite <- L2; exact Hj). destruct (forall2_nth _ _ _ F2 j (pts_at feet j) (nth_error_nth' feet (fun _ => 0) Hf)) as (t & A & B).
        exists t. split; [apply get_some, A|exact B]. }
      destruct (G (i + 1)%nat ltac:(lia)) as (t2 & -> & E2). destruct (G i ltac:(lia)) as (t1 & -> & E1). cbn [bind]. rewrite E2. cbn [bind]. rewrite E1. cbn [bind].
      unfold steps. rewrite Nat.add_1_r. reflexivity. }
  cbn [bind]. rewrite (mapM_forall2 _ _ _ F3). cbn [bind]. apply mapM_all_ok. intros r Hr. specialize (Hl r Hr). apply mapM_all_ok. intros k Hk. apply in_seq in Hk.
  set (d := map (fun i => steps dist feet i) (seq 0 (length ts - 1))).
  assert (Ld : length d = (length us - 1)%nat) by (unfold d; rewrite map_length, seq_length; lia).
  assert (Vd : forall j, (j < length us - 1)%nat -> get d j = Ok (steps dist feet j)).
  { intros j Hj. unfold d. apply get_some. rewrite nth_error_map, (nth_error_nth' _ 0%nat) by (rewrite seq_length; lia). rewrite seq_nth by lia. reflexivity. }
  assert (Hk' : (k < length us)%nat) by lia.
  assert (ES : exists s, tangent_scale dist (map (projected rat dim) r) d (length r) k = Ok s).
  { unfold tangent_scale. specialize (HA k Hk'). unfold around in HA. rewrite Hl. clear Hk.
    assert (Lm : length (map (projected rat dim) r) = length us) by (rewrite map_length; exact Hl).
    destruct (Nat.eqb_spec k 0) as [K0|K0]; [|destruct (Nat.eqb_spec k (length us - 1)) as [K1|K1]].
    - rewrite !(get_nth (A:=pt R) _ _ (fun _ => 0)) by (unfold pt in *; lia). cbn [bind]. rewrite Vd by lia. cbn [bind]. rewrite (divc_ok eps) by exact HA. eauto.
    - rewrite !(get_nth (A:=pt R) _ _ (fun _ => 0)) by (unfold pt in *; lia). cbn [bind]. rewrite Vd by lia. cbn [bind]. rewrite (divc_ok eps) by exact HA. eauto.
    - rewrite !(get_nth (A:=pt R) _ _ (fun _ => 0)) by (unfold pt in *; lia). cbn [bind]. rewrite !Vd by lia. cbn [bind]. rewrite (divc_ok eps) by exact HA. eauto. }
  destruct ES as (s & ->). cbn [bind]. rewrite (get_nth (A:=pt R) D _ (fun _ => 0)) by (unfold pt in *; lia). cbn [bind].
  rewrite (get_nth (A:=pt R) r _ (fun _ => 0)) by (unfold pt in *; lia). cbn [bind]. eauto.
Qed.

(** Values and derivatives at both ends determine a polygon of four poles. *)
Lemma ends_regular (kv v : list R) : knots_ok kv 4 1 -> (forall i, (i <= 1)%nat -> kn kv i = kn kv 0) -> kn kv 1 < kn kv 2 -> end_clamped kv 4 1 ->
  length v = 2%nat -> kn v 0 = kn kv 1 -> kn v 1 = kn kv 4 ->
  forall (N : @mat R), (forall i d b, (i < 2)%nat -> (d < 2)%nat -> m_cell N (2 * i + d) b = rv eps kv 4 1 (nth i v 0) d b) -> nonsingular 4 (m_cell N).
Proof.
  intros Hk H0 Hlt He Lv V0 V1 N HN x Hx.
  set (P := map (fun i (_ : nat) => x i) (seq 0 4)).
  assert (Hd : evaluable eps kv 4 1) by (left; lia). assert (De : eval_dom eps kv 4 1) by (apply evaluable_dom; exact Hd).
  assert (E : forall i d, (i < 2)%nat -> (d < 2)%nat -> forall w, eval_value (nth i v 0) kv P 1 d = Ok w -> w 0%nat = 0).
  { intros i d Hi Hd2 w W. 
    assert (Hin : kn kv 1 <= nth i v 0 <= kn kv 4).
    { assert (kn kv 1 <= kn kv 4) by (destruct Hk as (Lk & _ & Nd & _); apply Nd; lia). destruct i as [|[|i]]; [|change (nth 1 v 0) with (kn v 1)|lia]; [change (nth 0 v 0) with (kn v 0)|]; lra. }
    destruct (rv_eval eps kv 4 1 Hk _ d P Hin ltac:(reflexivity) De) as (w' & W' & We). rewrite W in W'. injection W' as <-. rewrite We.
    assert (H4 : (2 * i + d < 4)%nat) by (clear -Hi Hd2; lia). refine (eq_trans _ (Hx _ H4)). apply sumn_ext. intros j Hj. rewrite HN by assumption. f_equal.
    clear -Hj. destruct j as [|[|[|[|j]]]]; try reflexivity; lia. }
  destruct (eval_value_start eps kv 4 1 P Hk eq_refl Hd H0 Hlt) as (w0 & W0 & A0).
  destruct (eval_tangent_start eps kv 4 1 P Hk eq_refl Hd ltac:(lia) H0 Hlt) as (w1 & W1 & A1).
  destruct (eval_value_end eps kv 4 1 P Hk eq_refl Hd He) as (w2 & W2 & A2).
  destruct (eval_tangent_end eps kv 4 1 P Hk eq_refl Hd ltac:(lia) He) as (w3 & W3 & A3).
  pose proof (H0 1%nat ltac:(lia)) as K01.
  assert (Z0 : x 0%nat = 0) by (rewrite <- (A0 0%nat : _ = x 0%nat); apply (E 0%nat 0%nat ltac:(lia) ltac:(lia)); change (nth 0 v 0) with (kn v 0); rewrite V0, K01; exact W0).
  assert (Z3 : x 3%nat = 0) by (rewrite <- (A2 0%nat : _ = x 3%nat); apply (E 1%nat 0%nat ltac:(lia) ltac:(lia)); change (nth 1 v 0) with (kn v 1); rewrite V1; exact W2).
  assert (Z1 : x 1%nat = 0).
  { pose proof (A1 0%nat : _ = INR 1 / (kn kv 2 - kn kv 0) * (x 1%nat - x 0%nat)) as A. rewrite (E 0%nat 1%nat ltac:(lia) ltac:(lia) w1) in A by (change (nth 0 v 0) with (kn v 0); rewrite V0, K01; exact W1).
    rewrite Z0 in A. cbn [INR] in A. assert (1 / (kn kv 2 - kn kv 0) <> 0) by (apply Rgt_not_eq, Rdiv_lt_0_compat; lra). nra. }
  assert (Z2 : x 2%nat = 0).
  { pose proof (A3 0%nat : _ = INR 1 / (kn kv 4 - kn kv 3) * (x 3%nat - x 2%nat)) as A. rewrite (E 1%nat 1%nat ltac:(lia) ltac:(lia) w3) in A by (change (nth 1 v 0) with (kn v 1); rewrite V1; exact W3).
    rewrite Z3 in A. cbn [INR] in A. assert (Hk3 : kn kv 3 < kn kv 4) by apply Hk. assert (1 / (kn kv 4 - kn kv 3) <> 0) by (apply Rgt_not_eq, Rdiv_lt_0_compat; lra). nra. }
  intros [|[|[|[|j]]]] Hj; try assumption; lia.
Qed.

Lemma spine_two_returns (lu : solver) dist norm2 (extrema : curve R -> curve R -> result R) (rat : bool) (dim : nat) c0 c1 spine q : let cs := [c0; c1] in
  let dt := if rat then S dim else dim in
  0 < eps -> complete_solver lu -> (0 < dt)%nat -> separates dt dist -> loftable eps c0 cs -> sections_differ eps dt c0 c1 ->
  (Z.of_nat (52 * (length (c_knots c0) + length (c_knots c1))) < 2 ^ 64)%Z ->
  (forall m k us, common_form eps c0 cs m k us -> exists ts feet D,
     Forall2 (fun c t => extrema spine c = Ok t) us ts /\ Forall2 (fun t x => value spine t 0 = Ok x) ts feet /\ Forall2 (fun t x => value spine t 1 = Ok x) ts D /\
     norm2 (pts_at feet 0) (pts_at feet 1) <> 0) ->
  exists s, loft_spine lu (fun l => curve_parametrization dist sqrt l ChordLength true) norm2 extrema rat dim cs spine q = Ok s /\ evaluable_surface eps s.
Proof.
  intros cs dt He (Hex & Hco) Hdt Hd Hl Hdiff Hsz Hfeet.
  destruct (unify_curves_all eps c0 [c1] He Hl) as (k & us & EU & LU & Fk & Lk & Hm & Hlen & V). fold cs in EU, LU, V, Hm, Hlen.
  set (m := list_max (map c_deg cs)) in *.
  assert (CF : common_form eps c0 cs m k us).
  { split; [exact LU|]. intros j c Hj. destruct (V j c Hj) as (P' & N' & _ & L' & S'). exists P'. split; [exact N'|]. split; [exact L'|].
    intros x d Hx. destruct (S' x d Hx) as (_ & R). exact R. }
  destruct (Hfeet m k us CF) as (ts & feet & D & F1 & F2 & F3 & NZ).
  unfold loft_spine. cbn [length Nat.ltb Nat.leb cs]. fold cs. rewrite EU. cbn [bind].
  destruct (V 0%nat c0 eq_refl) as (P0 & N0 & C0 & Len0 & _).
  destruct us as [|u0 us']; [discriminate|]. cbn [nth_error] in N0. injection N0 as ->. cbn [front bind c_poles c_knots c_deg].
  set (us := mk m P0 k (c_lo c0) (c_hi c0) :: us') in *. set (nu := length P0) in *.
  destruct (clamped_ok eps m P0 k He C0) as (Kk & _ & _). fold nu in Kk.
  assert (Hnu : (0 < nu)%nat) by (destruct Kk as (_ & H & _); lia).
  assert (Hpl : forall c, In c us -> length (c_poles c) = nu).
  { intros c Hc. apply In_nth_error in Hc as (i & Hi). pose proof (nth_error_lt _ _ _ Hi) as Hlt. rewrite LU in Hlt.
    destruct (nth_error cs i) as [c2|] eqn:Ei; [|apply nth_error_None in Ei; lia].
    destruct (V i c2 Ei) as (P' & N' & _ & L' & _). rewrite Hi in N'. injection N' as ->. cbn [c_poles]. unfold nu. lia. }
  assert (HS : spread dist ChordLength (pole_columns us nu) (length us)).
  { apply (columns_spread eps dist dt c0 [c1] m k us nu He Hd Hl Hm Fk Lk LU V); [unfold nu; lia|].
    intros [|[|j]] c c' Hc Hc'; try discriminate. injection Hc as <-. injection Hc' as <-. exact Hdiff. }
  assert (L2 : length us = 2%nat) by exact LU.
  destruct (v_aligned_ok eps dist nu us ltac:(lra) ltac:(lia) Hnu Hpl HS) as (v & EV & MV). rewrite EV. cbn [bind].
  pose proof MV as (Lv & Sv & V0 & _). rewrite L2 in Lv.
  destruct (tg_returns rat dim norm2 extrema (pole_columns us nu) spine us ts feet D) as (tgs & ET); auto.
  { lia. } { intros r Hr. apply in_map_iff in Hr as (i & <- & _). apply map_length. }
  { intros j Hj. rewrite L2 in *. unfold around, steps. destruct j as [|[|j]]; [exact NZ|exact NZ|lia]. }
  rewrite ET. cbn [bind]. rewrite L2. replace (Nat.max (Nat.min q (2 - 1)) 1) with 1%nat by lia.
  rewrite (front_nth v 0) by lia. cbn [bind]. rewrite (back_nth v 0) by lia. cbn [bind]. rewrite Lv. cbn [Nat.sub Nat.mul Nat.add].
  assert (Hab : nth 0 v 0 < nth 1 v 0) by (apply (Sv 0%nat 1%nat); lia).
  destruct (build_range_spec eps (nth 0 v 0) (nth 1 v 0) 4 1 ltac:(lia) Hab) as (kv & EK & _). rewrite EK. cbn [bind].
  destruct (range_knots eps _ _ 4 1 kv ltac:(lia) Hab EK) as (Hkv & Kvp & Kvn & Kv0 & Kvl & Kve & KvV).
  fold dt. replace (if rat then (dim + 1)%nat else dim) with dt by (unfold dt; destruct rat; lia).
  destruct (tg_ok eps rat dim norm2 extrema _ spine us tgs ltac:(lia) ltac:(intros r Hr; apply in_map_iff in Hr as (i & <- & _); apply map_length) ET)
    as (ts' & feet' & D' & _ & _ & _ & _ & _ & Ltg & Htg).
  assert (Lr : length (pole_columns us nu) = nu) by (unfold pole_columns; rewrite map_length, seq_length; reflexivity).
  match goal with |- context [mapM ?f (seq 0 (nu * dt))] => destruct (mapM_all_ok f (seq 0 (nu * dt))) as (cols & EC) end.
  { intros ix Hix. apply in_seq in Hix. apply mapM_all_ok. intros j Hj. apply in_seq in Hj.
    assert (Hi : (ix / dt < nu)%nat) by (apply Nat.div_lt_upper_bound; lia). assert (Hj2 : (j / 2 < 2)%nat) by (apply Nat.div_lt_upper_bound; lia).
    assert (Er : nth_error (pole_columns us nu) (ix / dt) = Some (pole_column us (ix / dt))).
    { unfold pole_columns. rewrite nth_error_map, (nth_error_nth' _ 0%nat) by (rewrite seq_length; exact Hi). rewrite seq_nth by exact Hi. reflexivity. }
    destruct (j mod 2 =? 0)%nat.
    - rewrite (proj2 (get_some _ _ _) Er). cbn [bind]. rewrite (get_nth (A:=pt R) _ _ (fun _ => 0)); [cbn [bind]; eauto|]. unfold pole_column. rewrite map_length, L2. exact Hj2.
    - destruct (Htg _ _ Er) as (tg & T1 & T2 & _). rewrite (proj2 (get_some _ _ _) T1). cbn [bind]. rewrite (get_nth (A:=pt R) _ _ (fun _ => 0)); [cbn [bind]; eauto|]. unfold pt in *. lia. }
  rewrite EC. cbn [bind]. unfold loft_core. rewrite Lv. cbn [Nat.mul Nat.add].
  assert (Hv : forall x, In x v -> kn kv 1 <= x <= kn kv 4).
  { intros x Hx. destruct (In_nth v x 0 Hx) as (i & Hi & <-). rewrite Kvp, Kvn. destruct i as [|[|i]]; [split; lra|split; lra|lia]. }
  assert (De : eval_dom eps kv 4 1) by (left; unfold stack_max; lia). assert (L4 : (2 * length v <= 4)%nat) by lia.
  destruct (matrix_ok eps kv 4 1 Hkv 2 v 4 ltac:(lia) De Hv L4) as (N & EN & RN & CN & VN & _).
  rewrite EN. cbn [bind].
  assert (NS : nonsingular 4 (m_cell N)).
  { apply (ends_regular kv v Hkv); auto.
    - intros i Hi. destruct i as [|[|i]]; [reflexivity| |lia]. rewrite Kvp, Kv0. reflexivity.
    - pose proof (KvV 1%nat ltac:(lia)) as K2. cbn [Nat.add] in K2. rewrite Kvp, K2. cbn [INR Nat.sub Nat.add]. lra.
    - intros i d b Hi Hd2. apply VN; [lia|exact Hd2]. }
  match goal with |- context [mapM ?f cols] => destruct (mapM_all_ok f cols) as (X & EX) end.
  { intros b Hb. apply In_nth_error in Hb as (ix & Hix). destruct (mapM_seq _ _ _ EC) as (LC & HC). rewrite <- LC in HC. 
    destruct (HC ix (nth_error_lt _ _ _ Hix)) as (b' & Hb' & Eb). rewrite Hix in Hb'. injection Hb' as <-. destruct (mapM_seq _ _ _ Eb) as (Lb & _). rewrite Lb. cbn [Nat.eqb].
    apply Hco; [congruence|congruence|]. rewrite RN. exact NS. }
  rewrite EX. cbn [bind]. apply (loft_surface eps _ k kv nu 4 m 1 Hm ltac:(lia) Kk Hkv).
  - rewrite map_length, seq_length. lia.
  - cbn [map list_sum fold_right cs] in Hlen. lia.
  - destruct Hkv as (-> & _). reflexivity.
  - rewrite map_length, seq_length. cbn [map list_sum fold_right cs] in Hlen. destruct Kk as (Lk' & _). lia.
Qed.
End AtR.
