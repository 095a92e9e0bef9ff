(** Unification of curve objects in degree and knots. *)
From Coq Require Import List Arith ZArith Reals Lia Lra Bool.
From Verif Require Import Model_Base Model_Knots Model_Basis Model_Curve Model_Elevate Model_Unify Model_Spine
  Spec_Base Spec_Basis Spec_Knots Spec_Elevate Spec_Unify Spec_Skin
  Proof_Base Proof_Elevate2 Proof_Unify Proof_Unify2 Proof_Unify3 Proof_Unify4 Proof_Unify5 Proof_SurfEdit2 Proof_Skin6 Proof_Skin7.
Import ListNotations.
Local Open Scope R_scope.

Section AtR.
Variable eps : R.
Local Hint Extern 0 (Num R) => exact (NumR eps) : typeclass_instances.

Lemma elevate_object c m : 0 < eps -> clamped_object eps c -> (c_deg c <= m)%nat -> (m <= 12)%nat ->
  exists c', increaseDegree c (m - c_deg c) = Ok c' /\ clamped_object eps c' /\ c_deg c' = m /\
    c_lo c' = c_lo c /\ c_hi c' = c_hi c /\ (forall x, In x (c_knots c') -> In x (c_knots c)) /\ (length (c_knots c') <= 13 * length (c_knots c))%nat /\
    forall x d, c_lo c <= x <= c_hi c -> exists q q', value c x d = Ok q /\ value c' x d = Ok q' /\ forall j, q' j = q j.
Proof.
  intros He (Hc & B1 & B2) Hm H12. destruct (degree_one eps m (info_of c) He Hc Hm H12) as (P' & k' & E & C' & F1 & F2 & M1 & I & V).
  unfold info_of, knots_of, poles_of in *. cbn [fst snd] in *.
  unfold increaseDegree. destruct (increase_degree (c_knots c) (c_poles c) (c_deg c) (m - c_deg c)) as [[kk PP]| | |]; cbn [bind] in *; try discriminate.
  injection E as -> ->. replace (c_deg c + (m - c_deg c))%nat with m by lia.
  eexists. split; [reflexivity|]. unfold clamped_object, info_of. cbn [c_deg c_poles c_knots c_lo c_hi].
  split; [split; [exact C'|split; congruence]|]. split; [reflexivity|]. split; [reflexivity|]. split; [reflexivity|]. split; [exact I|].
  split. { rewrite <- copies_length. apply count_len. intros x. rewrite count_copies. destruct (in_dec Req_EM_T x k') as [Hx|Hx].
    + rewrite (M1 x (I x Hx) : count_occ Req_EM_T k' x = _). pose proof (proj1 (count_occ_In Req_EM_T _ _) (I x Hx)). lia.
    + rewrite (proj1 (count_occ_not_In Req_EM_T _ _) Hx). lia. }
  intros x d Hx. rewrite !(value_guard_eval eps) by (cbn [c_lo c_hi]; lra). cbn [c_knots c_poles c_deg].
  rewrite B1, B2 in Hx. destruct (V x d Hx) as (q & q' & Q1 & Q2 & Q3). exists q, q'. split; [exact Q1|].
  split; [exact Q2|]. intros j. rewrite <- Q3, pow1. ring.
Qed.

Lemma elevate_objects cs m : 0 < eps -> (m <= 12)%nat -> (forall c, In c cs -> clamped_object eps c /\ (c_deg c <= m)%nat) ->
  exists cs', mapM (fun c => increaseDegree c (m - c_deg c)) cs = Ok cs' /\ length cs' = length cs /\
  forall i c, nth_error cs i = Some c -> exists c', nth_error cs' i = Some c' /\ clamped_object eps c' /\ c_deg c' = m /\
    c_lo c' = c_lo c /\ c_hi c' = c_hi c /\ (forall x, In x (c_knots c') -> In x (c_knots c)) /\ (length (c_knots c') <= 13 * length (c_knots c))%nat /\
    forall x d, c_lo c <= x <= c_hi c -> exists q q', value c x d = Ok q /\ value c' x d = Ok q' /\ forall j, q' j = q j.
Proof.
  intros He Hm. induction cs as [|c cs IH]; intros H.
  { exists []. split; [reflexivity|]. split; [reflexivity|]. intros [|i] c Hc; discriminate. }
  destruct IH as (cs' & E & L & V); [intros d Hd; apply H; right; exact Hd|].
  destruct (H c (or_introl eq_refl)) as (Hc & Hd).
  destruct (elevate_object c m He Hc Hd Hm) as (c' & E' & R').
  exists (c' :: cs'). cbn [mapM]. rewrite E'. cbn [bind]. rewrite E. cbn [bind]. split; [reflexivity|]. split; [cbn [length]; congruence|].
  intros [|i] d Hi; [injection Hi as <-; exists c'; split; [reflexivity|exact R']|apply (V i d Hi)].
Qed.

Lemma unify_curves_all c0 rest (cs := c0 :: rest) : 0 < eps -> loftable eps c0 cs ->
  let m := list_max (map c_deg cs) in
  exists k us, unify_curves cs = Ok us /\ length us = length cs /\
    first_knot k = c_lo c0 /\ last_knot k = c_hi c0 /\ (m <= 12)%nat /\
    (length k <= 13 * list_sum (map (fun c => length (c_knots c)) cs))%nat /\
    forall i c, nth_error cs i = Some c -> exists P', nth_error us i = Some (mk m P' k (c_lo c0) (c_hi c0)) /\
      clamped_info eps m (P', k, m) /\ (length P' + m + 1 = length k)%nat /\
      forall x d, c_lo c <= x <= c_hi c ->
        c_lo c0 <= rescale (c_knots c0) (c_knots c) x <= c_hi c0 /\
        exists q q', value c x d = Ok q /\ value (mk m P' k (c_lo c0) (c_hi c0)) (rescale (c_knots c0) (c_knots c) x) d = Ok q' /\
          forall j, ratio (c_knots c0) (c_knots c) ^ d * q' j = q j.
Proof.
  intros He (Hc & Ha) m.
  assert (H12 : (m <= 12)%nat).
  { unfold m. apply list_max_le, Forall_forall. intros d Hd. apply in_map_iff in Hd as (c & <- & Hin). apply Hc, Hin. }
  assert (Hle : forall c, In c cs -> (c_deg c <= m)%nat) by (intros c Hin; apply list_max_ge, in_map, Hin).
  destruct (elevate_objects cs m He H12) as (cs' & E & L & V).
  { intros c Hin. split; [apply Hc, Hin|apply Hle, Hin]. }
  destruct cs' as [|c0' rest']; [discriminate|].
  destruct (V 0%nat c0 eq_refl) as (d0 & D0 & O0 & G0 & Lo0 & Hi0 & I0 & _ & V0). cbn [nth_error] in D0. injection D0 as <-.
  assert (Hs : forall i c', nth_error (c0' :: rest') i = Some c' -> exists c, nth_error cs i = Some c).
  { intros i c' Hi. destruct (nth_error cs i) as [c|] eqn:Ei; [eauto|]. apply nth_error_None in Ei.
    exfalso. apply (Nat.lt_irrefl i). refine (Nat.lt_le_trans _ _ _ _ Ei). rewrite <- L. exact (nth_error_lt _ _ _ Hi). }
  assert (Ho : forall c, In c cs -> c_lo c = first_knot (c_knots c) /\ c_hi c = last_knot (c_knots c)) by (intros c Hin; apply Hc, Hin).
  assert (Hre : forall i c c', nth_error cs i = Some c -> nth_error (c0' :: rest') i = Some c' -> forall x,
     rescale (c_knots c0') (c_knots c') x = rescale (c_knots c0) (c_knots c) x /\ ratio (c_knots c0') (c_knots c') = ratio (c_knots c0) (c_knots c)).
  { intros i c c' Hi Hi' x. destruct (V i c Hi) as (d & D & Od & _ & Lo & Hi2 & _). rewrite Hi' in D. injection D as <-.
    destruct Od as (_ & A1 & A2). destruct O0 as (_ & A3 & A4). destruct (Ho c0 (or_introl eq_refl)) as (A5 & A6). destruct (Ho c (nth_error_In _ _ Hi)) as (A7 & A8).
    apply rescale_ext; congruence. }
  assert (HF : Forall (fun c => c_deg c = m /\ clamped_object eps c) (c0' :: rest')).
  { apply Forall_forall. intros c' Hin. apply In_nth_error in Hin as (i & Hi). destruct (Hs i c' Hi) as (c & Hcs).
    destruct (V i c Hcs) as (d & D & Od & Gd & _). rewrite Hi in D. injection D as <-. auto. }
  assert (HA : knots_apart eps (c_knots c0') (map info_of (c0' :: rest'))).
  { intros a b x y Ia Ib Ix Iy. apply in_map_iff in Ia as (ca & <- & Ia). apply in_map_iff in Ib as (cb & <- & Ib).
    apply In_nth_error in Ia as (i & Hi). apply In_nth_error in Ib as (j & Hj).
    destruct (Hs i ca Hi) as (c & Ec). destruct (Hs j cb Hj) as (c' & Ec').
    unfold info_of, knots_of in *. cbn [fst snd] in *.
    destruct (Hre i c ca Ec Hi x) as (-> & _). destruct (Hre j c' cb Ec' Hj y) as (-> & _).
    destruct (V i c Ec) as (da & D1 & _ & _ & _ & _ & I1 & _). rewrite Hi in D1. injection D1 as <-.
    destruct (V j c' Ec') as (db & D2 & _ & _ & _ & _ & I2 & _). rewrite Hj in D2. injection D2 as <-.
    apply (Ha (info_of c) (info_of c')); [apply in_map; eapply nth_error_In; eauto|apply in_map; eapply nth_error_In; eauto|apply I1, Ix|apply I2, Iy]. }
  destruct (unify_curves_ok eps m c0' rest' He HF HA) as (k & us & E2 & L2 & Nk & Mk & V2).
  assert (HFi : Forall (clamped_info eps m) (map info_of (c0' :: rest'))).
  { apply Forall_forall. intros a Hin. apply in_map_iff in Hin as (c' & <- & Hin). apply (proj1 (Forall_forall _ _) HF) in Hin as (G & O & _).
    rewrite G in O. exact O. }
  assert (EI : info_of c0' = (c_poles c0', c_knots c0', m)) by (unfold info_of; rewrite G0; reflexivity).
  cbn [map] in HFi, HA. rewrite EI in HFi, HA.
  destruct (unify_knots_ok eps m (c_poles c0') (c_knots c0') (map info_of rest') He HFi HA) as (k2 & us2 & _ & _ & Nk2 & Fk & Lk & Mk2 & V3).
  assert (Ek : k2 = k).
  { apply sorted_count_eq; [exact Nk2|exact Nk|]. intros x. rewrite Mk2, Mk. cbn [map]. rewrite EI. reflexivity. }
  subst k2. destruct (V3 0%nat _ eq_refl) as (Pz & _ & Lz & Cz & _).
  exists k, us. unfold unify_curves, unify_curves_degree. rewrite max_degree_ok by discriminate. cbn [bind].
  change (list_max (map c_deg cs)) with m. rewrite E. cbn [bind].
  split; [exact E2|]. split; [exact (eq_trans L2 L)|].
  destruct O0 as (_ & A1 & A2). split; [congruence|]. split; [congruence|]. split; [exact H12|].
  split. { set (ls := map (fun c : curve R => map (rescale (c_knots c0') (c_knots c)) (c_knots c)) (c0' :: rest')).
    replace (map (fun c => length (c_knots c)) cs) with (map (fun c : @info R => length (knots_of c)) (map info_of cs)) by (rewrite map_map; reflexivity).
    apply Nat.le_trans with (length (concat ls)).
    - apply count_len. intros x. etransitivity; [|apply count_concat]. unfold ls. rewrite map_map.
      apply Nat.eq_le_incl. refine (eq_trans (Mk x) _). unfold max_multiplicity. rewrite map_map. reflexivity.
    - apply concat_bound; [unfold ls; rewrite !map_length; exact L|]. intros i l c Hl Hi. rewrite nth_error_map in Hi.
      destruct (nth_error cs i) as [c1|] eqn:Ec; [|discriminate]. injection Hi as <-.
      destruct (V i c1 Ec) as (c' & Hi' & _ & _ & _ & _ & _ & M & _).
      pose proof (map_nth_error (fun c : curve R => map (rescale (c_knots c0') (c_knots c)) (c_knots c)) _ _ Hi') as Hl'.
      pose proof (eq_trans (eq_sym Hl) Hl') as Heq. injection Heq as ->. rewrite map_length. exact M. }
  intros i c Hi. destruct (V i c Hi) as (d & D & Od & Gd & Lod & Hid & _ & _ & Vd).
  destruct (V2 i d D) as (P' & N' & L' & V'). exists P'. rewrite Lo0, Hi0 in N'. split; [exact N'|].
  split. { destruct Cz as (_ & U & M & K1 & K2 & K3). split; [reflexivity|]. exists U, M. split; [exact K1|]. split; [exact K2|].
    unfold poles_of in *. cbn [fst] in *. lia. }
  split; [exact L'|]. intros x e Hx. destruct (Hre i c d Hi D x) as (R1 & R2).
  destruct (Vd x e Hx) as (q & q' & Q1 & Q2 & Q3). destruct (V' x e ltac:(lra)) as (r & r' & S1 & S2 & S3).
  rewrite R1, Lo0, Hi0 in S2. rewrite Q2 in S1. injection S1 as <-. split.
  { destruct (Ho c (nth_error_In _ _ Hi)) as (B1 & B2). destruct (Ho c0 (or_introl eq_refl)) as (B3 & B4).
    assert (Hlt : first_knot (c_knots c) < last_knot (c_knots c)).
    { destruct (Hc c (nth_error_In _ _ Hi)) as ((Ci & _) & _). destruct (info_km eps _ _ ltac:(lra) Ci) as (km & K1 & _ & K3 & _).
      unfold info_of, knots_of in K3. cbn [fst snd] in K3. destruct (fk_first _ km K1) as (G1 & G2). rewrite K3, G1, G2. exact (lo_hi _ km K1). }
    assert (Hlt0 : first_knot (c_knots c0) < last_knot (c_knots c0)).
    { destruct (Hc c0 (or_introl eq_refl)) as ((Ci & _) & _). destruct (info_km eps _ _ ltac:(lra) Ci) as (km & K1 & _ & K3 & _).
      unfold info_of, knots_of in K3. cbn [fst snd] in K3. destruct (fk_first _ km K1) as (G1 & G2). rewrite K3, G1, G2. exact (lo_hi _ km K1). }
    rewrite B3, B4. destruct (rescale_ends (c_knots c0) (c_knots c)) as (Y1 & Y2); [lra|].
    assert (Hm : forall y z, y <= z -> rescale (c_knots c0) (c_knots c) y <= rescale (c_knots c0) (c_knots c) z).
    { intros y z [Lt| ->]; [|lra]. apply Rlt_le, rescale_si; auto. }
    pose proof (Hm (first_knot (c_knots c)) x ltac:(lra)). pose proof (Hm x (last_knot (c_knots c)) ltac:(lra)). lra. }
  exists q, r'. split; [exact Q1|]. split; [exact S2|]. intros j. rewrite <- Q3, <- S3, R2. reflexivity.
Qed.
End AtR.
