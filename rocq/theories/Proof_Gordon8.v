(** Gordon surfaces: the statements. *)
From Coq Require Import List Arith ZArith Reals Lia Lra Bool.
From Verif Require Import Model_Base Spec_Base Spec_Basis Spec_Knots Spec_Eval Spec_Interp Spec_Surface Spec_Elevate Spec_Unify Spec_Solve Spec_Skin Spec_Gordon
  Model_Basis Model_Knots Model_Curve Model_Surface Model_Elevate Model_Unify Model_Interp Model_Skin Model_Gordon
  Proof_Base Proof_Basis Proof_Eval Proof_Insert Proof_Curve Proof_Trim Proof_Tfi
  Proof_Knots Proof_Builders Proof_Elevate2 Proof_Elevate3 Proof_Elevate4 Proof_Elevate5 Proof_Unify Proof_Unify2 Proof_Unify3 Proof_Unify4 Proof_Unify5
  Proof_Interp Proof_Surface Proof_SurfEdit Proof_SurfEdit2 Proof_Grid Proof_Json Proof_Skin1 Proof_Skin3 Proof_Skin6 Proof_Skin7 Proof_Skin8 Proof_SW2 Proof_SW3
  Proof_Interp4 Proof_Gordon1 Proof_Gordon2 Proof_Gordon3 Proof_Gordon4 Proof_Gordon5 Proof_Gordon6 Proof_Gordon7.
Import ListNotations.
Local Open Scope R_scope.

Section AtR.
Variable eps : R.
Local Hint Extern 0 (Num R) => exact (NumR eps) : typeclass_instances.

Lemma gordon_ok lu extrema dist dim tol u0 ur v0 vr (u v ku kv : list R) a b c d s :
  let us := u0 :: ur in let vs := v0 :: vr in let p := list_max (map c_deg us) in let q := list_max (map c_deg vs) in
  0 < eps -> exact_solver lu -> (0 < dim)%nat -> family eps us a b -> family eps vs c d ->
  crossing_params u (length vs) a b -> crossing_params v (length us) c d ->
  found extrema tol u0 vs u -> found extrema tol v0 us v ->
  build_simple_mult_flat_knots u (Nat.min p (length u - 1)) = Ok ku -> build_simple_mult_flat_knots v (Nat.min q (length v - 1)) = Ok kv ->
  far_apart eps (concat (map c_knots us) ++ ku) -> far_apart eps (concat (map c_knots vs) ++ kv) ->
  gordon lu extrema dist dim tol us vs = Ok s -> all_carried eps dim us vs u v a b c d s.
Proof.
  intros us vs p q He Hex Hdim HU HV Cu Cv Fu Fv Eku Ekv FU FV E. pose proof E as E0.
  unfold gordon in E. rewrite !max_degree_ok in E by discriminate. cbn [bind] in E. fold us vs p q in E.
  apply bind_inv in E as (r & EI & E).
  destruct (build_intersections_ok eps extrema dist tol u0 ur v0 vr u v r Fu Fv (proj1 Cu) (proj1 Cv) EI) as (Q & -> & HQ).
  apply bind_inv in E as (Lu0 & ELu & E). apply bind_inv in E as (Lu1 & _ & E).
  apply bind_inv in E as (Lv0 & ELv & E). apply bind_inv in E as (Lv1 & _ & E). apply bind_inv in E as (Lv2 & _ & E).
  apply bind_inv in E as (ku' & Eku' & E). apply bind_inv in E as (kv' & Ekv' & E).
  rewrite Eku in Eku'. injection Eku' as <-. rewrite Ekv in Ekv'. injection Ekv' as <-.
  apply bind_inv in E as (P & EP & E). apply bind_inv in E as (T0 & ET & E). clear E.
  destruct (gordon_core eps lu extrema dist dim tol u0 ur v0 vr u v ku kv a b c d Lu0 Lv0 Q P T0 He Hex Hdim HU HV Cu Cv Eku Ekv FU FV EI HQ ELu ELv EP ET)
    as (K & L & A & B & C & EG & _ & _ & _ & _ & _ & HS).
  apply HS. rewrite <- EG. exact E0.
Qed.

Lemma ckn_length p k n (l : list R) : 0 < eps -> ckn_of eps p k n -> (forall x, In x k -> In x l) -> (length k <= (p + 1) * length l)%nat.
Proof.
  intros He (U & M & CK & -> & _) H. pose proof (ck_ckn eps p U M ltac:(lra) CK) as HC. pose proof HC as (LM & L2 & Si & F & B & I).
  rewrite (re_length U M LM).
  assert (HM : forall i, (i < length M)%nat -> (nth i M 0 <= p + 1)%nat).
  { intros i Hi. destruct (Nat.eq_dec i 0) as [->|]; [lia|]. destruct (Nat.eq_dec i (length U - 1)) as [->|]; [lia|]. specialize (I i ltac:(lia)). lia. }
  assert (HS : (list_sum M <= (p + 1) * length M)%nat).
  { clear -HM. induction M as [|m M IH]; [cbn; lia|]. pose proof (HM 0%nat ltac:(cbn; lia)) as X. cbn in X. specialize (IH ltac:(intros i Hi; apply (HM (S i)); cbn; lia)).
    unfold list_sum in *. cbn [fold_right length]. lia. }
  assert (LU : (length U <= length l)%nat).
  { apply NoDup_incl_length.
    - apply (NoDup_nth U 0). intros i j Hi Hj E. destruct (Nat.lt_total i j) as [G|[G|G]]; [|exact G|].
      + pose proof (Si i j G Hj) as Z. unfold kn in Z. lra.
      + pose proof (Si j i G Hi) as Z. unfold kn in Z. lra.
    - intros x Hx. apply H. apply (In_nth _ _ 0) in Hx as (i & Hi & <-).
      change (nth i U 0) with (kn U i). rewrite <- (ck_at p U M HC i (pre M i) Hi).
      + apply nth_In. rewrite (re_length U M LM). pose proof (ck_mult p U M HC i Hi). rewrite <- pre_all.
        assert (pre M (S i) <= pre M (length M))%nat by (apply pre_mono; lia). rewrite pre_S in *. lia.
      + pose proof (ck_mult p U M HC i Hi). rewrite pre_S. lia. }
  nia.
Qed.

Lemma gordon_returns lu extrema dist dim tol u0 ur v0 vr (u v ku kv : list R) a b c d :
  let us := u0 :: ur in let vs := v0 :: vr in let p := list_max (map c_deg us) in let q := list_max (map c_deg vs) in
  0 < eps -> complete_solver lu -> (0 < dim)%nat -> family eps us a b -> family eps vs c d ->
  crossing_params u (length vs) a b -> crossing_params v (length us) c d ->
  found extrema tol u0 vs u -> found extrema tol v0 us v ->
  build_simple_mult_flat_knots u (Nat.min p (length u - 1)) = Ok ku -> build_simple_mult_flat_knots v (Nat.min q (length v - 1)) = Ok kv ->
  far_apart eps (concat (map c_knots us) ++ ku) -> far_apart eps (concat (map c_knots vs) ++ kv) ->
  (forall i j cu cv, nth_error us i = Some cu -> nth_error vs j = Some cv ->
     exists x y, value cu (nth j u 0) 0 = Ok x /\ value cv (nth i v 0) 0 = Ok y /\ dist x y <= tol) ->
  (Z.of_nat (169 * (list_sum (map (fun c => length (c_knots c)) us) + length vs + 13) *
     (list_sum (map (fun c => length (c_knots c)) vs) + length us + 13)) < 2 ^ 64)%Z ->
  exists s, gordon lu extrema dist dim tol us vs = Ok s.
Proof.
  intros us vs p q He Hco Hdim HU HV Cu Cv Fu Fv Eku Ekv FU FV HD HZ.
  pose proof Cu as (Lu & Su & Ua & Ub). pose proof Cv as (Lv & Sv & Vc & Vd).
  pose proof HU as (nus & Hp & HUc). pose proof HV as (nvs & Hq & HVc). fold us in nus, Hp. fold vs in nvs, Hq. fold p in Hp. fold q in Hq.
  assert (Hp12 : (p <= 12)%nat). { apply list_max_le, Forall_forall. intros x Hx. apply in_map_iff in Hx as (cc & <- & Hc). apply HUc; exact Hc. }
  assert (Hq12 : (q <= 12)%nat). { apply list_max_le, Forall_forall. intros x Hx. apply in_map_iff in Hx as (cc & <- & Hc). apply HVc; exact Hc. }
  set (p_ := Nat.min p (length u - 1)) in *. set (q_ := Nat.min q (length v - 1)) in *.
  assert (Hp_ : (1 <= p_ /\ p_ < length u /\ p_ <= p)%nat) by (unfold p_; lia). assert (Hq_ : (1 <= q_ /\ q_ < length v /\ q_ <= q)%nat) by (unfold q_; lia).
  assert (EI : exists Q, build_intersections extrema dist tol us vs = Ok (u, v, Q)).
  { unfold build_intersections. change (front vs) with (Ok v0). change (front us) with (Ok u0). cbn [bind].
    rewrite (found_on eps _ _ _ _ _ Fv). cbn [bind]. rewrite (found_on eps _ _ _ _ _ Fu). cbn [bind].
    match goal with |- exists Q, (let* _ := mapM ?f _ in _) = _ => assert (X : exists G, mapM f (seq 0 (length us)) = Ok G) end.
    { apply mapM_all_ok. intros i Hi. apply in_seq in Hi. destruct (nth_error us i) as [cu|] eqn:Eu; [|apply nth_error_None in Eu; lia].
      unfold get at 1. rewrite Eu. cbn [bind]. apply mapM_all_ok. intros j Hj. apply in_seq in Hj.
      destruct (nth_error vs j) as [cv|] eqn:Ev; [|apply nth_error_None in Ev; lia]. unfold get at 1. rewrite Ev. cbn [bind].
      destruct (HD i j cu cv Eu Ev) as (x & y & Ex & Ey & Hxy). rewrite (get_nth u j 0) by lia. cbn [bind]. rewrite Ex. cbn [bind].
      rewrite (get_nth v i 0) by lia. cbn [bind]. rewrite Ey. cbn [bind]. nsimp. destruct (Rltb_spec tol (dist x y)); [lra|]. eauto. }
    destruct X as (G & ->). cbn [bind]. eauto. }
  destruct EI as (Q & EI). destruct (build_intersections_ok eps extrema dist tol u0 ur v0 vr u v _ Fu Fv Lu Lv EI) as (Q' & EQ & HQ).
  injection EQ as <-.
  set (TU := list_sum (map (fun c => length (c_knots c)) us)) in *. set (TV := list_sum (map (fun c => length (c_knots c)) vs)) in *.
  destruct (loft_returns eps lu dim u0 ur v q_ He Hco Hdim (family_loftable eps us a b ku He HU FU u0 (or_introl eq_refl))) as (Lu0 & ELu & _); auto; try lia.
  { fold us TU. nia. }
  destruct (loft_returns eps lu dim v0 vr u p_ He Hco Hdim (family_loftable eps vs c d kv He HV FV v0 (or_introl eq_refl))) as (Lv0 & ELv & _); auto; try lia.
  { fold vs TV. nia. }
  fold us in ELu. fold vs in ELv.
  pose proof (averages_interlaced eps u p_ ku ltac:(lia) ltac:(lia) Su Eku) as Iu. pose proof (averages_interlaced eps v q_ kv ltac:(lia) ltac:(lia) Sv Ekv) as Iv.
  destruct (interlaced_knots ku p_ u ltac:(lia) ltac:(lia) Iu) as (Ku & _). destruct (interlaced_knots kv q_ v ltac:(lia) ltac:(lia) Iv) as (Kv & _).
  assert (Lku : length ku = (length u + p_ + 1)%nat) by apply Ku. assert (Lkv : length kv = (length v + q_ + 1)%nat) by apply Kv.
  destruct (grid_poles_returns eps lu dim Q ku kv u v p_ q_ Hco) as (P & EP & LP); try lia; auto; try (left; lia).
  { rewrite Lu, Lv. exact (proj1 HQ). }
  destruct (loft_surface eps P ku kv (length u) (length v) p_ q_ ltac:(lia) ltac:(lia) Ku Kv LP) as (T0 & ET & _); [nia|nia|nia|].
  destruct (gordon_core eps lu extrema dist dim tol u0 ur v0 vr u v ku kv a b c d Lu0 Lv0 Q P T0 He (proj1 Hco) Hdim HU HV Cu Cv Eku Ekv FU FV EI HQ ELu ELv EP ET)
    as (K & L & A & B & C & EG & HK & HL & CK & CL & LA & _).
  fold us vs p q in EG, HK, HL, CK, CL, LA. rewrite EG.
  pose proof (ckn_length p K _ _ He CK HK) as BK. pose proof (ckn_length q L _ _ He CL HL) as BL.
  rewrite app_length in BK, BL.
  assert (LC : forall cs : list (curve R), length (concat (map c_knots cs)) = list_sum (map (fun c => length (c_knots c)) cs)).
  { induction cs as [|x cs IH]; [reflexivity|]. cbn [map concat]. rewrite app_length, IH. reflexivity. }
  rewrite LC in BK, BL. fold TU in BK. fold TV in BL.
  destruct (ckn_ok eps He _ _ _ CK) as (KK & _). destruct (ckn_ok eps He _ _ _ CL) as (KL & _).
  assert (B1 : (length K <= 13 * (TU + length vs + 13))%nat) by (refine (Nat.le_trans _ _ _ BK _); apply Nat.mul_le_mono; [clear -Hp12; lia|clear -Lku Lu Hp_ Hp12; lia]).
  assert (B2 : (length L <= 13 * (TV + length us + 13))%nat) by (refine (Nat.le_trans _ _ _ BL _); apply Nat.mul_le_mono; [clear -Hq12; lia|clear -Lkv Lv Hq_ Hq12; lia]).
  destruct (loft_surface eps (sum3 eps A B C) K L (length K - p - 1) (length L - q - 1) p q ltac:(lia) ltac:(lia) KK KL) as (s & Es & _); [rewrite sum3_len; exact LA|clear -B1 HZ; nia|clear -B2 HZ; nia| |].
  { rewrite sum3_len, LA. clear -B1 B2 HZ. nia. }
  eauto.
Qed.
End AtR.
