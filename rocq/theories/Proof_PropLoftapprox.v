(** Literal bars across a vertical spine, for Prop_Loftapprox.v. *)
From Coq Require Import List Arith ZArith Reals Lia Lra Bool.
From Verif Require Import Model_Base Model_Math Model_Knots Model_Basis Model_Curve Model_Interp Model_Surface Model_Unify Model_Skin Model_Spine
  Spec_Base Spec_Basis Spec_Knots Spec_Eval Spec_Interp Spec_Surface Spec_Elevate Spec_Unify Spec_Skin Spec_Solve Spec_Approx Spec_Spine Spec_Loftapprox
  Proof_Base Proof_Eval Proof_Interp Proof_Builders Proof_Surface Proof_Skin1 Proof_Skin3 Proof_Lsq Proof_SurfEdit2 Proof_PropBasis Proof_Elevate6 Proof_Unify3 Proof_Unify5 Proof_Join3 Proof_PropUnify Proof_Gauss Proof_PropApprox
  Proof_Skin7 Proof_Skin9 Proof_Spine1 Proof_Spine2 Proof_PropSpine Proof_Loftapprox Proof_Loftapprox2 Proof_Loftapprox3 Proof_Loftapprox4.
Import ListNotations.
Local Open Scope R_scope.
Local Hint Extern 0 (Num R) => exact (NumR (1 / 10)) : typeclass_instances.

(** A horizontal bar at height t, of width w. *)
Definition bar (a : R * R) : curve R := mk 1 [pt2 0 (fst a); pt2 (snd a) (fst a)] unit_knots 0 1.

Lemma bar_object a : clamped_object (1 / 10) (bar a).
Proof. split; [|split; reflexivity]. split; [reflexivity|]. exists [0; 1], [2; 2]%nat. split; [exact lit_k2|]. split; reflexivity. Qed.
Lemma unit_id x : rescale unit_knots unit_knots x = x.
Proof. apply rescale_id. unfold first_knot, last_knot, kn, unit_knots. cbn. lra. Qed.
Lemma bars_loftable a l : loftable (1 / 10) (bar a) (map bar (a :: l)).
Proof.
  split.
  - intros c Hc. apply in_map_iff in Hc as (b & <- & _). split; [apply bar_object|cbn; lia].
  - intros c c' x y Hc Hc' Hx Hy. rewrite map_map in Hc, Hc'. apply in_map_iff in Hc as (b & <- & _). apply in_map_iff in Hc' as (b' & <- & _).
    unfold knots_of, info_of, bar in *. cbn [fst snd c_knots] in *. rewrite !unit_id.
    destruct Hx as [<-|[<-|[<-|[<-|[]]]]], Hy as [<-|[<-|[<-|[<-|[]]]]]; try (left; reflexivity); right.
    all: try (replace (1 - 0) with 1 by ring); try (replace (0 - 1) with (-1) by ring); rewrite ?(Rabs_right 1), ?(Rabs_left (-1)) by lra; lra.
Qed.
Lemma bar_end a x : x = 1 -> exists q, value (bar a) x 0 = Ok q /\ q 0%nat = snd a /\ q 1%nat = fst a.
Proof.
  intros ->. destruct (object_end (1 / 10) (bar a) ltac:(lra) (bar_object a) ltac:(simpl; lia)) as (q & E & H).
  exists q. split; [rewrite (value_guard_eval (1 / 10)) by (cbn; lra); exact E|]. rewrite !H. split; reflexivity.
Qed.
Lemma bars_feet a l m k us : common_form (1 / 10) (bar a) (map bar (a :: l)) m k us -> feet_of lit_foot lit_spine us (map fst (a :: l)).
Proof.
  intros (LU & CF). unfold feet_of.
  assert (H : forall j b, nth_error (a :: l) j = Some b -> exists u, nth_error us j = Some u /\ lit_foot lit_spine u = Ok (fst b)).
  { intros j b Hj. destruct (CF j (bar b) (map_nth_error bar _ _ Hj)) as (P & N & _ & V). eexists. split; [exact N|].
    destruct (V 1 0%nat ltac:(cbn; lra)) as (z & z' & Z & Z' & R'). destruct (bar_end b 1 eq_refl) as (q & E & _ & E1). rewrite E in Z. injection Z as <-.
    change (c_knots (bar a)) with unit_knots in *. change (c_knots (bar b)) with unit_knots in *. rewrite unit_id in Z'.
    change ((let* q := @value R (NumR (1 / 10)) (mk m P k 0 1) 1 0 in Ok (q 1%nat)) = Ok (fst b)).
    change (@value R (NumR (1 / 10)) (mk m P k 0 1) 1 0 = Ok z') in Z'. rewrite Z'. cbn [bind]. f_equal. rewrite <- E1, <- (R' 1%nat). cbn [pow]. ring. }
  rewrite map_length in LU. clear CF. revert us LU H. generalize (a :: l) as L. induction L as [|b L IH]; intros us LU H; destruct us as [|u us]; try discriminate; [constructor|].
  cbn [map]. constructor.
  - destruct (H 0%nat b eq_refl) as (u' & N & E). injection N as ->. exact E.
  - apply IH; [cbn [length] in LU; lia|]. intros j c Hj. exact (H (S j) c Hj).
Qed.

(** Two of them. *)
Definition bar1 := bar (1, 2). Definition bar2 := bar (3, 5).
Lemma two_feet : forall m k us, common_form (1 / 10) bar1 [bar1; bar2] m k us -> exists ts, feet_of lit_foot lit_spine us ts /\ ordered_feet (1 / 10) ts.
Proof.
  intros m k us C. exists [1; 3]. split; [exact (bars_feet (1, 2) [(3, 5)] m k us C)|].
  split; [unfold kn; cbn; lra|]. intros t [<-|[<-|[]]]; unfold kn; cbn; lra.
Qed.
Lemma range_resolve a b kv : a < b -> build_simple_mult_flat_knots_range a b 2 1 = Ok kv -> resolve (1 / 10) kv 2 1 [a; b].
Proof.
  intros Hab E. destruct (build_range_spec (1 / 10) a b 2 1 ltac:(lia) Hab) as (k' & E' & C & _). rewrite E in E'. injection E' as <-.
  apply (interlaced_resolve (1 / 10) kv 1 [a; b]); [lia|cbn; lia| |left; lia|auto].
  split; [apply succ_strict; intros i Hi; cbn in Hi; assert (i = 0%nat) as -> by lia; unfold kn; cbn; lra|].
  split; [exact C|]. destruct C as (_ & _ & A & B & _). split; intros i Hi; cbn in Hi; [|lia]. assert (i = 1%nat) as -> by lia. rewrite A, B by lia. exact Hab.
Qed.
Lemma two_resolve : forall ts kv, ordered_feet (1 / 10) ts -> length ts = 2%nat ->
     (exists m k us, common_form (1 / 10) bar1 [bar1; bar2] m k us /\ feet_of lit_foot lit_spine us ts) ->
     build_simple_mult_flat_knots_range (station ts 0) (station ts (2 - 1)) 2 1 = Ok kv -> resolve (1 / 10) kv 2 1 (stations ts).
Proof.
  intros ts kv Ho Lt _ E. unfold stations. rewrite Lt. cbn [seq map]. apply range_resolve; [|exact E].
  pose proof (station_span (1 / 10) ts ltac:(lra) Ho) as S. rewrite Lt in S. cbn [Nat.sub] in S. rewrite S. lra.
Qed.
Lemma bars_spanned a l c : In c (map bar l) -> spanned (1 / 10) 2 unit_knots 2 1 (bar a) c.
Proof.
  intros Hc. apply in_map_iff in Hc as (b & <- & _). exists (c_poles (bar b)). split; [reflexivity|]. intros x d Hx.
  destruct unit_ok as (K & _). change (c_knots (bar a)) with unit_knots. change (c_knots (bar b)) with unit_knots. rewrite unit_id.
  destruct (rv_eval (1 / 10) unit_knots 2 1 K x d (c_poles (bar b))) as (z & E & _); [unfold inside, kn; cbn in *; lra|reflexivity|left; unfold stack_max; lia|].
  exists z, z. split; [rewrite (value_guard_eval (1 / 10)) by lra; exact E|]. split; [exact E|]. intros i _.
  replace (ratio unit_knots unit_knots) with 1; [rewrite pow1; ring|]. unfold ratio, first_knot, last_knot, kn, unit_knots. cbn. field.
Qed.
Lemma three_even : even_params unit_knots 3 = three_params.
Proof.
  assert (E : forall i, even_param unit_knots 3 i = INR i / 2) by (intros i; unfold even_param, kn, unit_knots; simpl; field).
  unfold even_params, three_params. cbn [seq map]. rewrite !E. replace (INR 0 / 2) with 0 by (simpl; field).
  replace (INR 1 / 2) with (1 / 2) by reflexivity. replace (INR 2 / 2) with 1 by (simpl; field). reflexivity.
Qed.
Lemma two_hyps : complete_solver gauss /\ loftable (1 / 10) bar1 [bar1; bar2] /\ knots_ok unit_knots 2 1 /\
  (forall c, In c [bar1; bar2] -> spanned (1 / 10) 2 unit_knots 2 1 bar1 c) /\ resolve (1 / 10) unit_knots 2 1 (even_params unit_knots 3) /\
  (forall m k us, common_form (1 / 10) bar1 [bar1; bar2] m k us -> exists ts, feet_of lit_foot lit_spine us ts /\ ordered_feet (1 / 10) ts) /\
  (forall ts kv, ordered_feet (1 / 10) ts -> length ts = 2%nat ->
     (exists m k us, common_form (1 / 10) bar1 [bar1; bar2] m k us /\ feet_of lit_foot lit_spine us ts) ->
     build_simple_mult_flat_knots_range (station ts 0) (station ts (2 - 1)) 2 1 = Ok kv -> resolve (1 / 10) kv 2 1 (stations ts)) /\
  exists s, loft_approx_knots gauss lit_foot 2 [bar1; bar2] lit_spine unit_knots 1 1 2 3 = Ok s.
Proof.
  assert (R3 : resolve (1 / 10) unit_knots 2 1 (even_params unit_knots 3)) by (rewrite three_even; apply unit_ok).
  split; [exact gauss_complete|]. split; [exact (bars_loftable (1, 2) [(3, 5)])|]. split; [apply unit_ok|].
  split; [exact (bars_spanned (1, 2) [(1, 2); (3, 5)])|]. split; [exact R3|]. split; [exact two_feet|]. split; [exact two_resolve|].
  apply (loft_approx_finds (1 / 10) gauss lit_foot 2 bar1 [bar2] lit_spine unit_knots 2 1 1 3); try (cbn; lia); try reflexivity; try lra.
  - exact gauss_complete. - exact (bars_loftable (1, 2) [(3, 5)]). - apply unit_ok. - exact R3. - exact two_feet. - exact two_resolve.
Qed.

(** Four bars, three of them close together. *)
Definition four : list (R * R) := [(1, 1); (11 / 10, 2); (12 / 10, 1); (3, 1)].
Lemma four_feet : forall m k us, common_form (1 / 10) (bar (1, 1)) (map bar four) m k us ->
  feet_of lit_foot lit_spine us (map fst four) /\ ordered_feet (1 / 10) (map fst four).
Proof.
  intros m k us C. split; [exact (bars_feet (1, 1) (tl four) m k us C)|].
  split; [unfold kn; cbn; lra|]. intros t [<-|[<-|[<-|[<-|[]]]]]; unfold kn; cbn; lra.
Qed.

Lemma rv_linear k n y j : knots_ok k n 1 -> kn k 1 <= y < kn k 2 -> (2 <= n)%nat -> rv (1 / 10) k n 1 y 0 j =
  match j with 0%nat => (kn k 2 - y) / (kn k 2 - kn k 1) | 1%nat => (y - kn k 1) / (kn k 2 - kn k 1) | _ => 0 end.
Proof.
  intros K Hy Hn. assert (HI : kn k 1 <= y <= kn k n) by (destruct K as (L & _ & N & _); pose proof (N 2%nat n ltac:(lia) ltac:(lia)); lra).
  destruct (spn_ok (1 / 10) _ n 1 K y HI) as (_ & Z & Z1 & _). unfold rv. assert (spn (1 / 10) k n 1 y = 1%nat) as ->.
  { destruct (Nat.eq_dec (spn (1 / 10) k n 1 y) 1) as [E|E]; [exact E|exfalso]. destruct Z1 as [(Z1 & _)|(Z1 & Z2)].
    - destruct K as (L & _ & N & _). pose proof (N 2%nat (spn (1 / 10) k n 1 y) ltac:(lia) ltac:(lia)). lra.
    - destruct K as (L & _ & N & _). pose proof (N 2%nat n ltac:(lia) ltac:(lia)). lra. }
  assert (kn k 2 - kn k 1 <> 0) by lra.
  destruct j as [|[|j]]; [simpl|simpl|reflexivity]; rewrite Rmult_0_r; field; assumption.
Qed.

Lemma feet_unique extrema spine us ts ts' : feet_of extrema spine us ts -> feet_of extrema spine us ts' -> ts = ts'.
Proof.
  intros F. revert ts'. induction F as [|c t us ts H F IH]; intros ts' F'; inversion F' as [|c' t' us' ts2 H' F2]; subst; [reflexivity|].
  rewrite H in H'. injection H' as <-. f_equal. apply IH. exact F2.
Qed.

Lemma four_rows ldlt s : exact_solver ldlt -> loft_approx ldlt lit_foot 2 (map bar four) lit_spine 1 = Ok s ->
  ~ (forall j c, nth_error (map bar four) j = Some c -> carries (1 / 10) 2 s (bar (1, 1)) c (station (map fst four) j)).
Proof.
  intros Hex E HC. set (c0 := bar (1, 1)) in *. set (rest := map bar (tl four)). assert (Hl : loftable (1 / 10) c0 (c0 :: rest)) by exact (bars_loftable (1, 1) (tl four)).
  change (map bar four) with (c0 :: rest) in *. unfold loft_approx in E. destruct (Nat.ltb_spec (length (c0 :: rest)) 2) as [H|_]; [cbn in H; lia|].
  destruct (unify_curves_all (1 / 10) c0 rest ltac:(lra) Hl) as (k & us & EU & LU & Fk & Lk & Hm & _ & V).
  set (m := list_max (map c_deg (c0 :: rest))) in *. rewrite EU in E. cbn [bind] in E.
  destruct (V 0%nat c0 eq_refl) as (P0 & N0 & C0 & Len0 & _).
  destruct us as [|u0 us']; [discriminate|]. cbn [nth_error] in N0. injection N0 as ->. cbn [front bind c_poles c_knots c_deg] in E.
  destruct (clamped_ok (1 / 10) m P0 k ltac:(lra) C0) as (Kk & Kp & Kn). rewrite LU in E. change (length (c0 :: rest)) with 4%nat in E. cbn [Nat.sub Nat.min Nat.max] in E.
  set (n_u := Nat.max (4 * length P0) 30) in *.
  assert (Hn2 : (2 <= n_u)%nat) by (unfold n_u; lia).
  assert (F0 : kn k 0 = c_lo c0) by (rewrite <- Fk; reflexivity). assert (L0 : kn k (length k - 1) = c_hi c0) by (rewrite <- Lk; reflexivity).
  destruct (loft_approx_unfold (1 / 10) ldlt lit_foot 2 c0 rest lit_spine k (length P0) m 1 4 n_u ltac:(lra) Hl ltac:(cbn; lia) Hn2 Kk ltac:(lra) ltac:(lra)) as (m2 & k2 & us2 & ts & Q & CF & F1 & F2 & _ & Lt & LQ & VQ & EE).
  { intros m' k' us C. exists (map fst four). exact (four_feet m' k' us C). }
  assert (Ets : ts = map fst four) by (apply (feet_unique _ _ _ _ _ F1); exact (proj1 (four_feet m2 k2 us2 CF))). subst ts.
  rewrite EE in E. clear EE. apply bind_inv in E as (kv & EK & E). apply bind_inv in E as (P & EP & E). apply mk_surf_inv in E.
  change (length (c0 :: rest) - 1)%nat with 3%nat in EK.
  assert (S0 : station (map fst four) 0 = 1 / 2) by (unfold station, kn; cbn; field). assert (S1 : station (map fst four) 1 = 11 / 20) by (unfold station, kn; cbn; field).
  assert (S2 : station (map fst four) 2 = 6 / 10) by (unfold station, kn; cbn; field). assert (S3 : station (map fst four) 3 = 3 / 2) by (unfold station, kn; cbn; field).
  rewrite S0, S3 in EK.
  assert (Hab : 1 / 2 < 3 / 2) by lra. destruct (range_knots (1 / 10) _ _ 4 1 kv ltac:(lia) Hab EK) as (Hkv & Kvp & Kvn & Kv0 & Kvl & Kve & KV).
  assert (K2 : kn kv 2 = 3 / 4) by (rewrite (KV 1%nat ltac:(lia) : kn kv 2 = _); simpl; field).
  assert (Hev : evaluable2 (1 / 10) k (length P0) m kv 4 1) by (left; lia).
  assert (Hdom : kn k 0 <= kn k (length k - 1)) by (rewrite F0, L0; cbn; lra).
  assert (Hu : forall x, In x (even_params k n_u) -> kn k m <= x <= kn k (length P0)).
  { intros x Hx. apply evens_In in Hx as (i & Hi & ->). pose proof (even_in k n_u i Hn2 Hi Hdom). rewrite Kp, Kn, Fk, Lk. lra. }
  assert (Hv : forall x, In x (stations (map fst four)) -> kn kv 1 <= x <= kn kv 4).
  { intros x Hx. apply stations_In in Hx as (j & Hj & ->). rewrite Kvp, Kvn. destruct j as [|[|[|[|j]]]]; [rewrite S0|rewrite S1|rewrite S2|rewrite S3|cbn in Hj; lia]; lra. }
  destruct (approx_grid_ok (1 / 10) k kv (length P0) 4 m 1 Kk Hkv Hev ldlt 2 Q _ _ P Hex Hu Hv EP) as (LP & _ & _).
  set (Y := fun b => sumn (length P0) (fun i => rv (1 / 10) k (length P0) m 1 0 i * pole P 0 (i + length P0 * b))).
  assert (A : forall j b, nth_error four j = Some b -> 1 / 2 <= station (map fst four) j < 3 / 4 -> snd b =
     (3 / 4 - station (map fst four) j) * 4 * Y 0%nat + (station (map fst four) j - 1 / 2) * 4 * Y 1%nat).
  { intros j b Hj Hs. destruct (HC j (bar b) (map_nth_error bar _ _ Hj) 1 0%nat ltac:(cbn; lra)) as (z & z' & Z & Z' & RZ).
    destruct (bar_end b 1 eq_refl) as (q & Eq & Q0 & _). rewrite Eq in Z. injection Z as <-.
    specialize (RZ 0%nat ltac:(lia)). cbn [pow] in RZ. rewrite Rmult_1_l, Q0 in RZ. rewrite <- RZ.
    change (c_knots c0) with unit_knots in Z'. change (c_knots (bar b)) with unit_knots in Z'. rewrite unit_id in Z'.
    unfold surf_value in Z'. destruct (out_u s 1); [discriminate|]. destruct (out_v s _); [discriminate|].
    rewrite E in Z'. cbn [s_degU s_degV s_ku s_kv s_poles] in Z'.
    destruct (surf_rv (1 / 10) k kv (length P0) 4 m 1 Kk Hkv Hev P 1 (station (map fst four) j) 0 0 LP) as (w & Ew & Vw).
    { split; [rewrite Kp, Kn, Fk, Lk; cbn; lra|rewrite Kvp, Kvn; lra]. }
    rewrite Z' in Ew. injection Ew as <-. rewrite Vw. change (sumn 4 ?f) with (0 + f 0%nat + f 1%nat + f 2%nat + f 3%nat). cbn beta. fold (Y 0%nat) (Y 1%nat) (Y 2%nat) (Y 3%nat).
    rewrite !(rv_linear kv 4) by (try exact Hkv; try lia; rewrite Kvp, K2; lra). rewrite Kvp, K2. field. }
  pose proof (A 0%nat _ eq_refl ltac:(rewrite S0; lra)) as A0. pose proof (A 1%nat _ eq_refl ltac:(rewrite S1; lra)) as A1. pose proof (A 2%nat _ eq_refl ltac:(rewrite S2; lra)) as A2.
  rewrite S0 in A0. rewrite S1 in A1. rewrite S2 in A2. cbn [snd] in A0, A1, A2. lra.
Qed.

Lemma rows_refuted : exists eps (c0 : curve R) rest spine (extrema : curve R -> curve R -> result R) ts,
  0 < eps /\ loftable eps c0 (c0 :: rest) /\ strictly_increasing ts /\
  (forall m k us, common_form eps c0 (c0 :: rest) m k us -> feet_of extrema spine us ts /\ ordered_feet eps ts) /\
  forall ldlt s, exact_solver ldlt -> @loft_approx R (NumR eps) ldlt extrema 2 (c0 :: rest) spine 1 = Ok s ->
    ~ forall j c, nth_error (c0 :: rest) j = Some c -> carries eps 2 s c0 c (station ts j).
Proof.
  exists (1 / 10), (bar (1, 1)), (map bar (tl four)), lit_spine, lit_foot, (map fst four).
  split; [lra|]. split; [exact (bars_loftable (1, 1) (tl four))|]. split; [|split; [exact four_feet|exact four_rows]].
  apply succ_strict. intros i Hi. cbn in Hi. destruct i as [|[|[|i]]]; unfold kn; cbn; try lra; lia.
Qed.

(** The knots common to the bars, for the overload that chooses them. *)
Lemma bars_unified us c : unify_curves [bar1; bar2] = Ok us -> nth_error us 0 = Some c -> c_knots c = unit_knots /\ c_deg c = 1%nat /\ length (c_poles c) = 2%nat.
Proof.
  intros E Hc. assert (Hl : loftable (1 / 10) bar1 [bar1; bar2]) by exact (bars_loftable (1, 2) [(3, 5)]).
  destruct (unify_curves_all (1 / 10) bar1 [bar2] ltac:(lra) Hl) as (k & us1 & E1 & _ & Fk & Lk & _ & _ & V). rewrite E in E1. injection E1 as <-.
  destruct (V 0%nat bar1 eq_refl) as (P & N & CI & LP & _). rewrite Hc in N. injection N as ->. cbn [c_knots c_deg c_poles map list_max fold_right Nat.max bar1 bar2 bar] in *.
  unfold unify_curves, unify_curves_degree in E. change (map c_deg [bar1; bar2]) with [1; 1]%nat in E. change (max_degree [1; 1]%nat) with (@Ok nat 1%nat) in E. cbn [bind] in E.
  destruct (elevate_objects (1 / 10) [bar1; bar2] 1 ltac:(lra) ltac:(lia)) as (cs' & E' & L' & V').
  { intros d [<-|[<-|[]]]; (split; [apply bar_object|cbn; lia]). }
  rewrite E' in E. cbn [bind] in E. destruct cs' as [|d1 [|d2 [|]]]; try discriminate.
  destruct (V' 0%nat bar1 eq_refl) as (x1 & N1 & O1 & G1 & B1 & B1' & I1 & _). injection N1 as <-.
  destruct (V' 1%nat bar2 eq_refl) as (x2 & N2 & O2 & G2 & B2 & B2' & I2 & _). injection N2 as <-.
  assert (FD : first_knot (c_knots d1) = 0 /\ last_knot (c_knots d1) = 1 /\ first_knot (c_knots d2) = 0 /\ last_knot (c_knots d2) = 1).
  { destruct O1 as (_ & <- & <-). destruct O2 as (_ & <- & <-). rewrite B1, B1', B2, B2'. cbn. auto. }
  destruct FD as (F1 & F1' & F2 & F2').
  assert (RS1 : forall x, rescale (c_knots d1) (c_knots d1) x = x) by (intros x; unfold rescale; rewrite F1, F1'; field).
  assert (RS2 : forall x, rescale (c_knots d1) (c_knots d2) x = x) by (intros x; unfold rescale; rewrite F1, F1', F2, F2'; field).
  assert (HK : forall d x, In d [d1; d2] -> In x (c_knots d) -> x = 0 \/ x = 1).
  { intros d x [<-|[<-|[]]] Hx; [apply I1 in Hx|apply I2 in Hx]; cbn in Hx; destruct Hx as [<-|[<-|[<-|[<-|[]]]]]; auto. }
  destruct (unify_curves_ok (1 / 10) 1 d1 [d2] ltac:(lra)) as (k2 & us2 & E2 & _ & _ & Mk & V2).
  { constructor; [split; assumption|constructor; [split; assumption|constructor]]. }
  { intros a b x y Ha Hb Hx Hy. apply in_map_iff in Ha as (da & <- & Ha). apply in_map_iff in Hb as (db & <- & Hb).
    unfold knots_of, info_of in *. cbn [fst snd] in *. pose proof (HK _ _ Ha Hx) as Kx. pose proof (HK _ _ Hb Hy) as Ky.
    assert (Ra : rescale (c_knots d1) (c_knots da) x = x) by (destruct Ha as [<-|[<-|[]]]; auto).
    assert (Rb : rescale (c_knots d1) (c_knots db) y = y) by (destruct Hb as [<-|[<-|[]]]; auto). rewrite Ra, Rb.
    destruct Kx as [->| ->], Ky as [->| ->]; try (left; reflexivity); right.
    all: try (replace (1 - 0) with 1 by ring); try (replace (0 - 1) with (-1) by ring); rewrite ?(Rabs_right 1), ?(Rabs_left (-1)) by lra; lra. }
  rewrite E2 in E. injection E as <-. destruct (V2 0%nat d1 eq_refl) as (P2 & N2 & _). rewrite Hc in N2. injection N2 as -> -> _ _.
  assert (KI : forall x, In x k2 -> x = 0 \/ x = 1).
  { intros x Hx. apply (count_occ_In Req_EM_T) in Hx. rewrite Mk in Hx.
    unfold max_multiplicity in Hx. cbn [map list_max fold_right knots_of info_of fst snd] in Hx.
    assert (HH : (0 < count_occ Req_EM_T (map (rescale (c_knots d1) (c_knots d1)) (c_knots d1)) x)%nat \/ (0 < count_occ Req_EM_T (map (rescale (c_knots d1) (c_knots d2)) (c_knots d2)) x)%nat) by lia.
    destruct HH as [HH|HH]; apply (count_occ_In Req_EM_T) in HH; apply in_map_iff in HH as (y & <- & Hy).
    - rewrite RS1. apply (HK d1); [left; reflexivity|exact Hy].
    - rewrite RS2. apply (HK d2); [right; left; reflexivity|exact Hy]. }
  assert (EK : k2 = unit_knots); [|subst k2; split; [reflexivity|]; split; [reflexivity|]; cbn in LP; lia].
  destruct CI as (_ & U & M & (LM & L2 & Sp & M0 & M1 & MI) & EK & _). unfold knots_of in EK. cbn [fst snd] in EK.
  destruct U as [|a [|b U]]; try (cbn in L2; lia). destruct M as [|m0 [|m1 M]]; try discriminate.
  cbn [nth] in M0. subst m0.
  assert (Hn : U = []).
  { destruct U as [|c U]; [reflexivity|exfalso]. destruct M as [|m2 M]; [discriminate|].
    pose proof (Sp 0%nat ltac:(cbn; lia)) as S0. pose proof (Sp 1%nat ltac:(cbn; lia)) as S1. unfold kn in S0, S1. cbn [nth] in S0, S1.
    assert (Ia : In a k2) by (rewrite EK; left; reflexivity).
    assert (Hm1 : (1 <= m1)%nat) by (pose proof (MI 1%nat ltac:(cbn; lia)) as Hm; cbn [nth] in Hm; lia).
    assert (Hm2 : (1 <= m2)%nat).
    { destruct (Nat.eq_dec (length U) 0) as [E0|E0]; [cbn [length] in M1; rewrite E0 in M1; cbn [Nat.sub nth] in M1; lia|].
      pose proof (MI 2%nat ltac:(cbn; lia)) as Hm; cbn [nth] in Hm; lia. }
    assert (Ib : In b k2) by (rewrite EK; cbn [repeat_each]; apply in_or_app; right; apply in_or_app; left; destruct m1; [lia|left; reflexivity]).
    assert (Ic : In c k2) by (rewrite EK; cbn [repeat_each]; do 2 (apply in_or_app; right); apply in_or_app; left; destruct m2; [lia|left; reflexivity]).
    apply KI in Ia. apply KI in Ib. apply KI in Ic.
    lra. }
  subst U. destruct M as [|]; [|discriminate]. cbn [nth length Nat.sub] in M1. subst m1. cbn in EK. rewrite EK.
  unfold first_knot, last_knot in Fk, Lk. rewrite EK in Fk, Lk. unfold kn in Fk, Lk. cbn in Fk, Lk. subst a b. reflexivity.
Qed.

Lemma bars_default us c : unify_curves [bar1; bar2] = Ok us -> nth_error us 0 = Some c ->
  resolve (1 / 10) (c_knots c) (length (c_poles c)) (c_deg c) (even_params (c_knots c) (Nat.max (4 * length (c_poles c)) 30)).
Proof.
  intros E Hc. destruct (bars_unified us c E Hc) as (-> & -> & ->). change (Nat.max (4 * 2) 30) with 30%nat.
  apply (interlaced_resolve (1 / 10) unit_knots 1 [0; 1]); [lia|cbn; lia|exact unit_interlaced|left; lia|].
  assert (H : forall i x, (i < 30)%nat -> x = even_param unit_knots 30 i -> In x (even_params unit_knots 30)).
  { intros i x Hi ->. unfold even_params. apply in_map, in_seq. lia. }
  intros x [<-|[<-|[]]]; [apply (H 0%nat)|apply (H 29%nat)]; try lia; unfold even_param, kn, unit_knots; cbn [nth length Nat.sub]; [simpl; field|].
  field. apply not_0_INR. lia.
Qed.
Lemma bars_loft : exists s, loft_approx gauss lit_foot 2 [bar1; bar2] lit_spine 3 = Ok s.
Proof.
  assert (Hl : loftable (1 / 10) bar1 [bar1; bar2]) by exact (bars_loftable (1, 2) [(3, 5)]).
  destruct (unify_curves_all (1 / 10) bar1 [bar2] ltac:(lra) Hl) as (k & us & EU & LU & _).
  unfold loft_approx. cbn [length Nat.ltb Nat.leb]. rewrite EU. cbn [bind]. destruct us as [|c us]; [discriminate|].
  pose proof (bars_default _ c EU eq_refl) as R3.
  destruct (bars_unified _ c EU eq_refl) as (E1 & E2 & E3). rewrite E1, E2, E3 in R3. cbn [front bind]. rewrite E1, E2, E3, LU. cbn [length].
  change (Nat.max (Nat.min 3 (2 - 1)) 1) with 1%nat. change (Nat.max (4 * 2) 30) with 30%nat in *.
  apply (loft_approx_finds (1 / 10) gauss lit_foot 2 bar1 [bar2] lit_spine unit_knots 2 1 1 30); try (cbn; lia); try reflexivity; try lra.
  - exact gauss_complete. - exact Hl. - apply unit_ok. - exact R3. - exact two_feet. - exact two_resolve.
Qed.

Lemma domain_refuted : exists eps ldlt (extrema : curve R -> curve R -> result R) cs spine s,
  0 < eps /\ complete_solver ldlt /\ @loft_approx R (NumR eps) ldlt extrema 2 cs spine 3 = Ok s /\ s_v1 s = 1 / 2 /\ s_v2 s = 3 / 2.
Proof.
  destruct bars_loft as (s & E). exists (1 / 10), gauss, lit_foot, [bar1; bar2], lit_spine, s. split; [lra|]. split; [exact gauss_complete|]. split; [exact E|].
  destruct (loft_approx_default (1 / 10) gauss lit_foot 2 bar1 [bar2] lit_spine 3 s ltac:(lra) (proj1 gauss_complete) (bars_loftable (1, 2) [(3, 5)]) ltac:(lia) bars_default two_feet two_resolve E)
    as (_ & _ & _ & _ & _ & m & k & us & ts & C & F & -> & -> & _).
  rewrite <- (feet_unique _ _ _ _ _ (bars_feet (1, 2) [(3, 5)] m k us C) F). unfold station, kn. cbn. split; field.
Qed.
