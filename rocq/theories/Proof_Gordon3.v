(** unify_knots for surfaces: the statement. *)
From Coq Require Import List Arith ZArith Reals Lia Lra Bool.
From Verif Require Import Model_Base Spec_Base Spec_Basis Spec_Knots Spec_Eval Spec_Surface Spec_Elevate Spec_Unify Spec_Gordon
  Model_Basis Model_Knots Model_Curve Model_Surface Model_Elevate Model_Unify Model_Gordon
  Proof_Base Proof_Basis Proof_Eval Proof_Insert Proof_Curve Proof_Trim
  Proof_Knots Proof_Builders Proof_Elevate2 Proof_Elevate3 Proof_Elevate4 Proof_Unify Proof_Unify2 Proof_Unify3 Proof_Unify4
  Proof_Interp Proof_Surface Proof_Grid Proof_Skin1 Proof_Skin6 Proof_Gordon1 Proof_Gordon2.
Import ListNotations.
Local Open Scope R_scope.

Section AtR.
Variable eps : R.
Local Hint Extern 0 (Num R) => exact (NumR eps) : typeclass_instances.

Lemma fk_sep p km : 0 < eps -> kmok p km -> spaced eps (map fst km) -> end_clamped (fk km) (npol p km) p /\ separated eps (fk km).
Proof.
  intros He H Hs. split.
  - intros i Hi. destruct (fk_dom p km H) as (_ & E). rewrite E. unfold hi.
    pose proof (ck_n p _ _ H) as N. rewrite map_length in N. fold (npol p km) in N.
    apply (ck_at p _ _ H (length km - 1)); [rewrite map_length; pose proof (kmok_len p km H); lia|].
    rewrite pre_S. destruct H as (_ & _ & _ & _ & F & _). rewrite map_length in F. rewrite F. lia.
  - intros i j Hij Hj. assert (Hi : (i < length (fk km))%nat) by lia.
    pose proof (kmok_nd p km H i j Hij Hj) as Hle.
    assert (Hx : In (kn (fk km) i) (map fst km)) by (apply (fk_in p km _ H), nth_In; exact Hi).
    assert (Hy : In (kn (fk km) j) (map fst km)) by (apply (fk_in p km _ H), nth_In; exact Hj).
    apply (In_nth _ _ 0) in Hx as (a & Ha & Ea). apply (In_nth _ _ 0) in Hy as (b & Hb & Eb).
    rewrite <- Ea, <- Eb in *. destruct (Nat.lt_total a b) as [G|[G|G]].
    + right. clear - Hs G Hb He. induction G as [|b G IH].
      * specialize (Hs a Hb). unfold kn in Hs. lra.
      * specialize (Hs b Hb). specialize (IH ltac:(lia)). unfold kn in Hs. lra.
    + left. rewrite G. reflexivity.
    + pose proof (kmok_si p km H b a G Ha) as Z. unfold kn in Z. lra.
Qed.

(** Evaluation of the data of a surface. *)
Lemma sinfo_eval p q ku n kv m g x y du dv : 0 < eps -> ckn_of eps p ku n -> ckn_of eps q kv m -> rectangular g m n ->
  first_knot ku <= x <= last_knot ku -> first_knot kv <= y <= last_knot kv ->
  exists z, surf_eval x y ku kv (concat g) p q du dv = Ok z /\ forall c, z c = SV eps ku n p kv m q g x y du dv c.
Proof.
  intros He K1 K2 RG Hx Hy. destruct (ckn_ok eps He p ku n K1) as (O1 & E1 & A1 & A2 & _). destruct (ckn_ok eps He q kv m K2) as (O2 & E2 & B1 & B2 & _).
  assert (EV : evaluable2 eps ku n p kv m q).
  { right. destruct (ckn_km eps He p ku n K1) as (k1 & C1 & C2 & -> & ->). destruct (ckn_km eps He q kv m K2) as (k2 & D1 & D2 & -> & ->).
    destruct (fk_sep p k1 He C1 C2). destruct (fk_sep q k2 He D1 D2). auto. }
  destruct (surf_rv eps ku kv n m p q O1 O2 EV (concat g) x y du dv (concat_rect _ _ _ RG)) as (z & Ez & Vz).
  { split; [rewrite <- A1, <- A2; exact Hx|rewrite <- B1, <- B2; exact Hy]. }
  exists z. split; [exact Ez|]. intros c. rewrite Vz. unfold SV, RS. apply sumn_ext. intros j Hj. f_equal. apply sumn_ext. intros i Hi. f_equal.
  exact (f_equal (fun w => w c) (nth_concat (fun _ : nat => 0) g m n i j RG Hi Hj)).
Qed.

Lemma fb_first (k : list R) : first_knot k < last_knot k -> front k = Ok (first_knot k) /\ back k = Ok (last_knot k).
Proof.
  intros H. destruct k as [|x k]; [unfold first_knot, last_knot in H; cbn in H; lra|]. split; [reflexivity|].
  unfold last_knot. apply back_kn. cbn [length]. lia.
Qed.

Lemma unify_surfaces_ok p q s0 rest (ss := s0 :: rest) : 0 < eps ->
  Forall (clamped_sinfo eps p q) ss -> knots_apart eps (u_knots s0) (map u_info ss) -> knots_apart eps (v_knots s0) (map v_info ss) ->
  exists ku kv ss', unify_surfaces ss = Ok ss' /\ length ss' = length ss /\ nondecreasing ku /\ nondecreasing kv /\
    first_knot ku = first_knot (u_knots s0) /\ last_knot ku = last_knot (u_knots s0) /\
    first_knot kv = first_knot (v_knots s0) /\ last_knot kv = last_knot (v_knots s0) /\
    (forall x, count ku x = max_multiplicity (u_knots s0) (map u_info ss) x) /\
    (forall y, count kv y = max_multiplicity (v_knots s0) (map v_info ss) y) /\
    forall i s, nth_error ss i = Some s -> exists g', nth_error ss' i = Some (g', ku, kv, p, q) /\
      clamped_sinfo eps p q (g', ku, kv, p, q) /\
      forall x y du dv, first_knot (u_knots s) <= x <= last_knot (u_knots s) -> first_knot (v_knots s) <= y <= last_knot (v_knots s) ->
        same_surface_value eps s x y (g', ku, kv, p, q) (rescale (u_knots s0) (u_knots s) x) (rescale (v_knots s0) (v_knots s) y)
          (ratio (u_knots s0) (u_knots s)) (ratio (v_knots s0) (v_knots s)) du dv.
Proof.
  intros He HF HA HA'.
  set (k0 := u_knots s0) in *. set (l0 := v_knots s0) in *.
  set (S := fun y => exists s x, In s ss /\ In x (u_knots s) /\ y = rescale k0 (u_knots s) x).
  set (S' := fun y => exists s x, In s ss /\ In x (v_knots s) /\ y = rescale l0 (v_knots s) x).
  assert (AS : forall x y, S x -> S y -> x = y \/ eps < Rabs (x - y)).
  { intros x y (s & x' & Hs & Hx & ->) (t & y' & Ht & Hy & ->).
    apply (HA (u_info s) (u_info t)); auto; [apply in_map, Hs|apply in_map, Ht]. }
  assert (AS' : forall x y, S' x -> S' y -> x = y \/ eps < Rabs (x - y)).
  { intros x y (s & x' & Hs & Hx & ->) (t & y' & Ht & Hy & ->).
    apply (HA' (v_info s) (v_info t)); auto; [apply in_map, Hs|apply in_map, Ht]. }
  assert (HO : Forall (oksinfo eps p q k0 l0 S S') ss).
  { apply Forall_forall. intros s Hs. split; [apply (proj1 (Forall_forall _ _) HF s Hs)|].
    split; [intros x Hx; exists s, x; auto|intros x Hx; exists s, x; auto]. }
  inversion HO as [|? ? O0 OR]; subst.
  pose proof O0 as ((Ep & Eq & U & M & V & N & CU & EU & CV & EV & RG) & HS & HS').
  destruct (ckn_km eps He p k0 (poles_for p M)) as (kmU & HU & SpU & EKU & NU); [exists U, M; auto|].
  destruct (ckn_km eps He q l0 (poles_for q N)) as (kmV & HV & SpV & EKV & NV); [exists V, N; auto|].
  destruct (fk_first p kmU HU) as (E1 & E2). pose proof (lo_hi p kmU HU) as LH1.
  destruct (fk_first q kmV HV) as (E3 & E4). pose proof (lo_hi q kmV HV) as LH2.
  assert (Hab : first_knot k0 < last_knot k0) by (rewrite EKU, E1, E2; exact LH1).
  assert (Hcd : first_knot l0 < last_knot l0) by (rewrite EKV, E3, E4; exact LH2).
  assert (IdU : forall x, rescale k0 k0 x = x) by (intros x; apply rescale_self, Hab).
  assert (IdV : forall x, rescale l0 l0 x = x) by (intros x; apply rescale_self, Hcd).
  assert (IU : inS S kmU).
  { intros x Hx. rewrite <- (IdU x). apply HS. fold k0. rewrite EKU. apply (fk_in p kmU x HU); exact Hx. }
  assert (IV : inS S' kmV).
  { intros x Hx. rewrite <- (IdV x). apply HS'. fold l0. rewrite EKV. apply (fk_in q kmV x HV); exact Hx. }
  rewrite NU, NV in RG.
  destruct (phase1s eps He p q k0 l0 S S' AS AS' Hab Hcd rest OR kmU kmV (rows_in s0) [])
    as (kmU' & kmV' & g' & rest' & UU & CU' & SU' & A1 & A2 & CV' & SV' & B1 & B2 & G' & V' & FA & MU & MV); auto;
    try (rewrite ?EKU, ?EKV; congruence).
  assert (CMU : forall x, count (fk kmU') x = max_multiplicity k0 (map u_info ss) x).
  { intros x. rewrite <- (kmok_mlt p) by exact CU'. rewrite MU. unfold max_multiplicity, ss, ku_max. cbn [map]. rewrite list_max_cons, map_map.
    unfold knots_of, u_info. cbn [fst snd]. fold k0. rewrite (map_ext _ (fun x => x) IdU), map_id.
    rewrite (kmok_mlt p) by exact HU. rewrite <- EKU. reflexivity. }
  assert (CMV : forall x, count (fk kmV') x = max_multiplicity l0 (map v_info ss) x).
  { intros x. rewrite <- (kmok_mlt q) by exact CV'. rewrite MV. unfold max_multiplicity, ss, kv_max. cbn [map]. rewrite list_max_cons, map_map.
    unfold knots_of, v_info. cbn [fst snd]. fold l0. rewrite (map_ext _ (fun x => x) IdV), map_id.
    rewrite (kmok_mlt q) by exact HV. rewrite <- EKV. reflexivity. }
  destruct (phase2s eps He p q k0 l0 S S' AS AS' kmU' kmV' rest rest' CU' SU' A1 A2 CV' SV' B1 B2 FA) as (rest2 & U2 & FB).
  { intros s x Hs. rewrite MU. unfold ku_max. etransitivity; [|apply Nat.le_max_r]. apply list_max_ge.
    apply (in_map (fun s => count (map (rescale k0 (u_knots s)) (u_knots s)) x)). exact Hs. }
  { intros s x Hs. rewrite MV. unfold kv_max. etransitivity; [|apply Nat.le_max_r]. apply list_max_ge.
    apply (in_map (fun s => count (map (rescale l0 (v_knots s)) (v_knots s)) x)). exact Hs. }
  destruct (fk_first p kmU' CU') as (X1 & X2). destruct (fk_first q kmV' CV') as (X3 & X4).
  exists (fk kmU'), (fk kmV'), ((g', fk kmU', fk kmV', p, q) :: rest2). split.
  { unfold unify_surfaces, ss. destruct (fb_first k0 Hab) as (F1 & F2). destruct (fb_first l0 Hcd) as (F3 & F4).
    destruct s0 as [[[[gg kk] ll] pp] qq]. cbn [u_knots v_knots u_degree v_degree rows_in] in *.
    change kk with k0. change ll with l0. rewrite F1. cbn [bind]. rewrite F2. cbn [bind]. rewrite F3. cbn [bind]. rewrite F4. cbn [bind].
    rewrite EKU at 1. rewrite (unflat_fk eps He p kmU HU SpU). cbn [bind].
    rewrite EKV at 1. rewrite (unflat_fk eps He q kmV HV SpV). cbn [bind].
    subst pp qq. rewrite <- EKU, <- EKV in UU. rewrite UU. cbn [bind app]. rewrite U2. reflexivity. }
  split. { unfold ss. cbn [length]. f_equal. clear - FB. induction FB; [reflexivity|]. cbn [length]. lia. }
  split; [apply (kmok_nd p), CU'|]. split; [apply (kmok_nd q), CV'|].
  split; [congruence|]. split; [congruence|]. split; [congruence|]. split; [congruence|].
  split; [exact CMU|]. split; [exact CMV|].
  assert (FS : final_sinfo eps p q k0 l0 kmU' kmV' s0 (g', fk kmU', fk kmV', p, q)).
  { exists g'. split; [reflexivity|]. split; [exact G'|]. exists (npol p kmU), (npol q kmV).
    fold k0 l0.
    split; [rewrite EKU; apply km_ckn; auto|]. split; [rewrite EKV; apply km_ckn; auto|]. split; [exact RG|]. split; [exact Ep|]. split; [exact Eq|].
    intros x y du dv k (Hx & Hy). fold k0 in Hx. fold l0 in Hy. rewrite IdU, IdV. split; [split; assumption|]. rewrite V' by assumption.
    replace (ratio k0 k0) with 1 by (unfold ratio; field; lra). replace (ratio l0 l0) with 1 by (unfold ratio; field; lra). rewrite !pow1, !Rmult_1_l. unfold sv, svi. fold k0 l0. rewrite Ep, Eq, <- EKU, <- EKV. reflexivity. }
  assert (HFS : Forall2 (final_sinfo eps p q k0 l0 kmU' kmV') ss ((g', fk kmU', fk kmV', p, q) :: rest2)) by (constructor; auto).
  assert (CKU : ckn_of eps p (fk kmU') (npol p kmU')) by (apply km_ckn; auto; apply (spaced_S eps p S AS kmU' CU' SU')).
  assert (CKV : ckn_of eps q (fk kmV') (npol q kmV')) by (apply km_ckn; auto; apply (spaced_S eps q S' AS' kmV' CV' SV')).
  intros i s Hi. revert i Hi. generalize HFS. generalize ((g', fk kmU', fk kmV', p, q) :: rest2). clear - He CKU CKV X1 X2 X3 X4 A1 A2 B1 B2.
  induction 1 as [|t t' l l' Ht Hl IH]; intros i Hi; [destruct i; discriminate|]. destruct i as [|i]; [|apply IH; exact Hi].
  cbn [nth_error] in *. injection Hi as ->. destruct Ht as (gg & -> & GG & n & m & K1 & K2 & RG & Ep & Eq & VV).
  exists gg. split; [reflexivity|]. split.
  { split; [reflexivity|]. split; [reflexivity|]. destruct CKU as (U & M & Y1 & Y2 & Y3). destruct CKV as (U' & M' & Z1 & Z2 & Z3).
    exists U, M, U', M'. cbn [u_knots v_knots rows_in]. rewrite <- Y3, <- Z3. auto. }
  intros x y du dv Hx Hy. destruct (sinfo_eval p q (u_knots s) n (v_knots s) m (rows_in s) x y du dv He K1 K2 RG Hx Hy) as (z & Ez & Vz).
  destruct (VV x y du dv 0%nat (conj Hx Hy)) as ((RX & RY) & _).
  destruct (sinfo_eval p q (fk kmU') (npol p kmU') (fk kmV') (npol q kmV') gg (rescale k0 (u_knots s) x) (rescale l0 (v_knots s) y) du dv He CKU CKV GG)
    as (z' & Ez' & Vz'). { rewrite X1, X2, A1, A2. exact RX. } { rewrite X3, X4, B1, B2. exact RY. }
  exists z, z'. rewrite Ep, Eq. split; [exact Ez|]. split; [exact Ez'|]. intros c. rewrite Vz, Vz'.
  destruct (VV x y du dv c (conj Hx Hy)) as (_ & W). unfold sv, svi in W. rewrite Ep, Eq in W. exact W.
Qed.
End AtR.
