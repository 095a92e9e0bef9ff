(** unify_knots on a list of curves. *)
From Coq Require Import List Arith ZArith Reals Lia Lra Bool Permutation.
From Verif Require Import Model_Base Spec_Base Spec_Basis Spec_Knots Spec_Eval Spec_Class Spec_Rational Spec_Elevate Spec_Unify
  Model_Basis Model_Knots Model_Removal Model_Curve Model_Rational Model_Elevate Model_Unify
  Proof_Base Proof_Basis Proof_Eval Proof_Insert Proof_Boehm Proof_PropInsert Proof_Curve Proof_Trim
  Proof_Knots Proof_Builders Proof_Elevate2 Proof_Elevate3 Proof_Elevate4 Proof_PropRemove2 Proof_SurfEdit2 Proof_Unify Proof_Unify2.
Import ListNotations.
Local Open Scope R_scope.

Lemma fk_first p km : kmok p km -> first_knot (fk km) = lo km /\ last_knot (fk km) = hi km.
Proof.
  intros H. unfold first_knot, last_knot, lo, hi. pose proof (ck_len p _ _ H) as L. fold (fk km) in L.
  pose proof (kmok_len p km H). pose proof (ck_pre_m p _ _ H) as E. rewrite map_length in E.
  split.
  - apply (ck_at p _ _ H 0); [rewrite map_length; lia|]. rewrite pre_0, (ck_pre_1 p _ _ H). lia.
  - apply (ck_at p _ _ H (length km - 1)); [rewrite map_length; lia|]. rewrite L.
    pose proof (ck_n p _ _ H) as N. rewrite map_length in N. rewrite N, pre_S.
    destruct H as (_ & _ & _ & _ & F & _). rewrite map_length in F. rewrite F. lia.
Qed.
Lemma fk_dom p km : kmok p km -> kn (fk km) p = lo km /\ kn (fk km) (npol p km) = hi km.
Proof.
  intros HC. unfold fk, npol, lo, hi. rewrite (ck_first p _ _ HC), (ck_last p _ _ HC), map_length. auto.
Qed.
Lemma fk_in p km x : kmok p km -> In x (fk km) <-> In x (map fst km).
Proof.
  intros H. split; [apply repeat_each_In|]. intros Hx. apply (count_occ_In Req_EM_T).
  apply in_map_iff in Hx as ([u m] & <- & Hum). cbn [fst]. rewrite (mult_of p km u m H Hum).
  destruct (kmok_pair p km u m H Hum) as [(_ & ->)|(_ & Hm)]; lia.
Qed.
Lemma fk_map (f : R -> R) km : fk (map (fun um => (f (fst um), snd um)) km) = map f (fk km).
Proof.
  induction km as [|[u m] km IH]; [reflexivity|]. cbn [map fst snd]. rewrite !fk_cons, map_app, IH. f_equal.
  clear IH. induction m as [|m IHm]; [reflexivity|]. cbn. rewrite IHm. reflexivity.
Qed.
Lemma kmok_map (f : R -> R) p km : (forall x y, x < y -> f x < f y) -> kmok p km ->
  let km' := map (fun um => (f (fst um), snd um)) km in
  kmok p km' /\ lo km' = f (lo km) /\ hi km' = f (hi km).
Proof.
  intros Hf H km'. pose proof (kmok_len p km H) as L2.
  assert (F1 : map fst km' = map f (map fst km)) by (unfold km'; rewrite !map_map; reflexivity).
  assert (F2 : map snd km' = map snd km) by (unfold km'; rewrite map_map; reflexivity).
  assert (K : forall i, (i < length km)%nat -> kn (map f (map fst km)) i = f (kn (map fst km) i)).
  { intros i Hi. unfold kn. rewrite (nth_indep _ 0 (f 0)) by (rewrite !map_length; exact Hi). apply map_nth. }
  assert (Lk : length km' = length km) by apply map_length.
  destruct H as (A & B & C & D). rewrite map_length in *. repeat split.
  - rewrite !map_length. reflexivity.
  - rewrite map_length. lia.
  - rewrite F1. intros i j Hij Hj. rewrite !map_length in Hj. rewrite !K by lia. apply Hf, C; auto. rewrite map_length. exact Hj.
  - rewrite F2. apply D.
  - rewrite map_length, F2, Lk. apply D.
  - rewrite map_length, Lk in H. rewrite F2. apply D. rewrite ?map_length in *. auto.
  - rewrite map_length, Lk in H. rewrite F2. apply D. rewrite ?map_length in *. auto.
  - unfold lo. rewrite F1. apply K. lia.
  - unfold hi. rewrite F1, Lk. apply K. lia.
Qed.
Lemma rescale_si k0 k : first_knot k0 < last_knot k0 -> first_knot k < last_knot k ->
  forall x y, x < y -> rescale k0 k x < rescale k0 k y.
Proof.
  intros H0 H x y Hxy. unfold rescale.
  assert (E : forall z, first_knot k0 + (last_knot k0 - first_knot k0) * (z - first_knot k) / (last_knot k - first_knot k) =
    first_knot k0 + ratio k0 k * (z - first_knot k)) by (intros z; unfold ratio; field; lra).
  rewrite !E. assert (0 < ratio k0 k) by (unfold ratio; apply Rdiv_lt_0_compat; lra).
  apply Rplus_lt_compat_l, Rmult_lt_compat_l; lra.
Qed.
Lemma rescale_self k x : first_knot k < last_knot k -> rescale k k x = x.
Proof. intros H. unfold rescale. field. lra. Qed.
Lemma rescale_ends k0 k : first_knot k < last_knot k ->
  rescale k0 k (first_knot k) = first_knot k0 /\ rescale k0 k (last_knot k) = last_knot k0.
Proof. intros H. unfold rescale. split; field; lra. Qed.

(** The knots of a clamped curve as pairs. *)
Lemma info_km eps p (c : @info R) : 0 <= eps -> clamped_info eps p c ->
  exists km, kmok p km /\ spaced eps (map fst km) /\ knots_of c = fk km /\ length (poles_of c) = npol p km /\ snd c = p.
Proof.
  intros He (Ep & U & M & HK & EK & LP). pose proof (ck_ckn eps p U M He HK) as HC. destruct HK as (L & _ & Sp & _).
  assert (F1 : map fst (combine U M) = U).
  { clear - L. revert M L; induction U as [|u U IH]; intros [|m M] L; try discriminate; [reflexivity|]. cbn. f_equal. apply IH. simpl in L. lia. }
  assert (F2 : map snd (combine U M) = M).
  { clear - L. revert M L; induction U as [|u U IH]; intros [|m M] L; try discriminate; [reflexivity|]. cbn. f_equal. apply IH. simpl in L. lia. }
  exists (combine U M). unfold kmok, fk, npol. rewrite F1, F2. auto.
Qed.

Section AtR.
Variable eps : R.
Local Hint Extern 0 (Num R) => exact (NumR eps) : typeclass_instances.
Hypothesis He : 0 < eps.

Lemma unflat_fk p km : kmok p km -> spaced eps (map fst km) -> unflat_pairs (fk km) = Ok km.
Proof.
  intros H Hs. destruct (round_trip eps (map fst km) (map snd km) He) as (_ & _ & _ & E).
  - intros E. pose proof (kmok_len p km H). destruct km; [simpl in *; lia|discriminate].
  - rewrite !map_length. reflexivity.
  - intros m Hm. apply in_map_iff in Hm as ([u m'] & <- & Hum). cbn [snd].
    destruct (kmok_pair p km u m' H Hum) as [(_ & ->)|(_ & Hm)]; lia.
  - exact Hs.
  - unfold fk. rewrite E, combine_km. reflexivity.
Qed.

Lemma fk_evaluable p km : kmok p km -> spaced eps (map fst km) -> evaluable eps (fk km) (npol p km) p.
Proof.
  intros H Hs. right. split; [|split; [|exact He]].
  - intros i Hi. destruct (fk_dom p km H) as (_ & E). rewrite E. unfold hi.
    pose proof (ck_n p _ _ H) as N. rewrite map_length in N. fold (npol p km) in N.
    apply (ck_at p _ _ H (length km - 1)); [rewrite map_length; pose proof (kmok_len p km H); lia|].
    rewrite pre_S. destruct H as (_ & _ & _ & _ & F & _). rewrite map_length in F. rewrite F. lia.
  - intros i j Hij Hj. assert (Hi : (i < length (fk km))%nat) by lia.
    pose proof (kmok_nd p km H i j Hij Hj) as Hle.
    assert (Hx : In (kn (fk km) i) (map fst km)) by (apply (fk_in p km _ H), nth_In; exact Hi).
    assert (Hy : In (kn (fk km) j) (map fst km)) by (apply (fk_in p km _ H), nth_In; exact Hj).
    apply (In_nth _ _ 0) in Hx as (a & Ha & Ea). apply (In_nth _ _ 0) in Hy as (b & Hb & Eb).
    rewrite <- Ea, <- Eb in *. destruct (Nat.lt_total a b) as [G|[G|G]].
    + right. clear - Hs G Hb He. induction G as [|b G IH].
      * specialize (Hs a Hb). unfold kn in Hs. lra.
      * specialize (Hs b Hb). specialize (IH ltac:(lia)). unfold kn in Hs. lra.
    + left. rewrite G. reflexivity.
    + pose proof (kmok_si p km H b a G Ha) as Z. unfold kn in Z. lra.
Qed.

Lemma fk_eval p km P x d : kmok p km -> spaced eps (map fst km) -> length P = npol p km -> lo km <= x <= hi km ->
  exists q, eval_value x (fk km) P p d = Ok q /\
    forall c, q c = if (d <=? p)%nat then CV (fk km) (npol p km) p d (pole P c) x else 0.
Proof.
  intros H Hs HP Hx. destruct (fk_dom p km H) as (E1 & E2). destruct (Nat.leb_spec d p) as [L|L].
  - apply CV_eval; auto; [apply (ck_knots_ok p _ _ H)|apply fk_evaluable; auto|rewrite E1, E2; exact Hx].
  - exists pzero. rewrite (eval_value_high eps) by lia. split; [reflexivity|]. intros c. reflexivity.
Qed.

Lemma eval_same p km P km' P' x d : kmok p km -> spaced eps (map fst km) -> length P = npol p km ->
  kmok p km' -> spaced eps (map fst km') -> length P' = npol p km' -> lo km' = lo km -> hi km' = hi km ->
  same_cv p km P km' P' -> lo km <= x <= hi km ->
  exists q q', eval_value x (fk km) P p d = Ok q /\ eval_value x (fk km') P' p d = Ok q' /\ forall c, q' c = q c.
Proof.
  intros H Hs HP H' Hs' HP' E1 E2 HV Hx.
  destruct (fk_eval p km P x d H Hs HP Hx) as (q & Eq & Vq).
  destruct (fk_eval p km' P' x d H' Hs' HP') as (q' & Eq' & Vq'); [rewrite E1, E2; exact Hx|].
  exists q, q'. split; [exact Eq|]. split; [exact Eq'|]. intros c. rewrite Vq, Vq'.
  destruct (Nat.leb_spec d p); [apply HV; auto|reflexivity].
Qed.

(** Moving the bounds. *)
Lemma rescale_eval p km P a b x d : kmok p km -> spaced eps (map fst km) -> length P = npol p km -> a < b ->
  let f := fun x => a + (b - a) * (x - lo km) / (hi km - lo km) in
  let km' := map (fun um => (f (fst um), snd um)) km in
  spaced eps (map fst km') -> lo km <= x <= hi km ->
  change_bounds a b (fk km) = Ok (fk km') /\
  exists q q', eval_value x (fk km) P p d = Ok q /\ eval_value (f x) (fk km') P p d = Ok q' /\
    forall c, ((b - a) / (hi km - lo km)) ^ d * q' c = q c.
Proof.
  intros H Hs HP Hab f km' Hs' Hx.
  destruct (fk_first p km H) as (E1 & E2). unfold first_knot, last_knot in *.
  pose proof (ck_knots_ok p _ _ H) as (Lk & Hpn & Hnd & Hlast). fold (fk km) in *. fold (npol p km) in *.
  set (c := mk p P (fk km) (lo km) (hi km)).
  assert (Hc : well_formed c).
  { unfold well_formed, shape_ok, c_n, c. cbn [c_knots c_deg c_poles]. rewrite HP. split; [auto|]. split; [|exact Hlast].
    pose proof (kmok_len p km H) as L2.
    destruct (ck_lst p _ _ H 0) as (A & B & C & D); [rewrite map_length; lia|].
    unfold lst in *. rewrite (ck_pre_1 p _ _ H) in *. replace (p + 1 - 1)%nat with p in * by lia. exact D. }
  assert (Hn : natural_bounds c).
  { unfold natural_bounds, c_n, c. cbn [c_knots c_deg c_poles c_lo c_hi]. rewrite HP.
    replace (npol p km + p)%nat with (length (fk km) - 1)%nat by (rewrite Lk; unfold npol; lia). auto. }
  destruct (change_prop eps c a b ltac:(lra) Hc Hn Hab) as (c' & Ec & Bc & Dc & Nc & Wc & NBc & Kc & Vc).
  assert (Ek : change_bounds a b (fk km) = Ok (fk km')).
  { rewrite change_bounds_eq.
    - unfold km'. rewrite fk_map. unfold f. rewrite E1, E2. reflexivity.
    - intros E. rewrite E in Lk. simpl in Lk. lia.
    - rewrite E1, E2. pose proof (lo_hi p km H). lra. }
  split; [exact Ek|].
  assert (Ec' : c' = mk p P (fk km') a b).
  { unfold changeBounds in Ec. cbn [c_knots c_deg c_poles c] in Ec. rewrite Ek in Ec. cbn [bind] in Ec. congruence. }
  pose proof (lo_hi p km H) as Hlh.
  assert (Hfs : forall x y, x < y -> f x < f y).
  { intros y z Hyz. unfold f. assert (E : forall w, a + (b - a) * (w - lo km) / (hi km - lo km) = a + (b - a) / (hi km - lo km) * (w - lo km)) by (intros; field; lra).
    rewrite !E. assert (0 < (b - a) / (hi km - lo km)) by (apply Rdiv_lt_0_compat; lra).
    apply Rplus_lt_compat_l, Rmult_lt_compat_l; lra. }
  destruct (kmok_map f p km Hfs H) as (H' & A1 & A2). fold km' in H', A1, A2.
  destruct (Vc) with (x := x) (d := d) as (q & q' & V1 & V2 & V3).
  - unfold evaluable_curve, c_n, c. cbn [c_knots c_deg c_poles]. rewrite HP. apply fk_evaluable; auto.
  - rewrite Ec'. unfold evaluable_curve, c_n. cbn [c_knots c_deg c_poles]. rewrite HP.
    replace (npol p km) with (npol p km'). { apply fk_evaluable; auto. }
    unfold npol, km'. rewrite map_map. reflexivity.
  - unfold in_domain, c_n, c. cbn [c_knots c_deg c_poles]. rewrite HP. destruct (fk_dom p km H) as (D1 & D2). rewrite D1, D2. exact Hx.
  - exists q, q'. rewrite value_guard_eval in V1 by (cbn; lra). split; [exact V1|]. split; [|exact V3].
    rewrite Ec' in V2. cbn [c_lo c_hi c] in V2. fold (f x) in V2. rewrite value_guard_eval in V2; [exact V2|]. cbn [c_lo c_hi].
    assert (f (lo km) = a) by (unfold f; field; lra). assert (f (hi km) = b) by (unfold f; field; lra).
    assert (Hm : forall y z, y <= z -> f y <= f z) by (intros y z [L| ->]; [apply Rlt_le, Hfs, L|lra]).
    pose proof (Hm (lo km) x ltac:(lra)). pose proof (Hm x (hi km) ltac:(lra)). lra.
Qed.
End AtR.
