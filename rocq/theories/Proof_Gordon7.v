(** Gordon surfaces: the surface carries both families of curves. *)
From Coq Require Import List Arith ZArith Reals Lia Lra Bool.
From Verif Require Import Model_Base Spec_Base Spec_Basis Spec_Knots Spec_Eval Spec_Interp Spec_Surface Spec_Elevate Spec_Unify Spec_Solve Spec_Skin Spec_Gordon
  Model_Basis Model_Knots Model_Curve Model_Surface Model_Elevate Model_Unify Model_Interp Model_Skin Model_Gordon
  Proof_Base Proof_Basis Proof_Eval Proof_Insert Proof_Curve Proof_Trim Proof_Tfi
  Proof_Knots Proof_Builders Proof_Elevate2 Proof_Elevate3 Proof_Elevate4 Proof_Elevate5 Proof_Unify Proof_Unify2 Proof_Unify3 Proof_Unify4 Proof_Unify5
  Proof_Interp Proof_Surface Proof_SurfEdit Proof_SurfEdit2 Proof_Grid Proof_Json Proof_Skin1 Proof_Skin3 Proof_Skin6 Proof_Skin7 Proof_Skin8 Proof_SW2 Proof_SW3
  Proof_Gordon1 Proof_Gordon2 Proof_Gordon3 Proof_Gordon4 Proof_Gordon5 Proof_Gordon6.
Import ListNotations.
Local Open Scope R_scope.

Section AtR.
Variable eps : R.
Local Hint Extern 0 (Num R) => exact (NumR eps) : typeclass_instances.

Lemma found_on extrema tol c cs ps : found extrema tol c cs ps -> intersections_on extrema tol cs c = Ok ps.
Proof.
  unfold intersections_on. intros H. induction H as [|c' x cs ps (y & d & E & Hd) H IH]; [reflexivity|].
  cbn [mapM]. rewrite E. cbn [bind]. nsimp. destruct (Rltb_spec tol d); [lra|]. cbn [bind]. rewrite IH. reflexivity.
Qed.

(** The points: means of the two curves. *)
Definition crossing_points us vs (u v : list R) (Q : list (pt R)) : Prop :=
  length Q = (length vs * length us)%nat /\
  forall i j cu cv, nth_error us i = Some cu -> nth_error vs j = Some cv ->
    exists a b, value cu (nth j u 0) 0 = Ok a /\ value cv (nth i v 0) 0 = Ok b /\
      forall c, nth (j + length vs * i) Q (fun _ => 0) c = (a c + b c) / 2.

Lemma build_intersections_ok extrema dist tol u0 ur v0 vr u v r : let us := u0 :: ur in let vs := v0 :: vr in
  found extrema tol u0 vs u -> found extrema tol v0 us v -> length u = length vs -> length v = length us ->
  build_intersections extrema dist tol us vs = Ok r -> exists Q, r = (u, v, Q) /\ crossing_points us vs u v Q.
Proof.
  intros us vs Fu Fv Lu Lv E. unfold build_intersections in E. change (front vs) with (Ok v0) in E. change (front us) with (Ok u0) in E.
  cbn [bind] in E. rewrite (found_on _ _ _ _ _ Fv) in E. cbn [bind] in E. rewrite (found_on _ _ _ _ _ Fu) in E. cbn [bind] in E.
  apply bind_inv in E as (Q & EQ & E). injection E as <-. exists (concat Q). split; [reflexivity|].
  destruct (mapM_seq _ _ _ EQ) as (LQ & HQ).
  assert (Cell : forall i j cu cv, nth_error us i = Some cu -> nth_error vs j = Some cv ->
    length (nth i Q []) = length vs /\ exists a b, value cu (nth j u 0) 0 = Ok a /\ value cv (nth i v 0) 0 = Ok b /\
      forall c, nth j (nth i Q []) (fun _ => 0) c = (a c + b c) / 2).
  { intros i j cu cv Hi Hj. assert (Li : (i < length us)%nat) by (apply nth_error_Some; congruence). assert (Lj : (j < length vs)%nat) by (apply nth_error_Some; congruence).
    destruct (HQ i Li) as (row & Hrow & Erow). rewrite (nth_error_nth _ _ [] Hrow). unfold get at 1 in Erow. rewrite Hi in Erow. cbn [bind] in Erow.
    destruct (mapM_seq _ _ _ Erow) as (Lr & Hr). split; [exact Lr|]. destruct (Hr j Lj) as (z & Hz & Ez).
    unfold get at 1 in Ez. rewrite Hj in Ez. cbn [bind] in Ez. rewrite (get_nth u j 0) in Ez by lia. cbn [bind] in Ez.
    apply bind_inv in Ez as (a & Ea & Ez). rewrite (get_nth v i 0) in Ez by lia. cbn [bind] in Ez. apply bind_inv in Ez as (b & Eb & Ez).
    destruct (nltb tol (dist a b)); [discriminate|]. injection Ez as <-. exists a, b. split; [exact Ea|]. split; [exact Eb|].
    intros c. refine (eq_trans (f_equal (fun w => w c) (nth_error_nth _ _ (fun _ => 0) Hz)) _). unfold pscal, padd. nsimp. field. }
  assert (RG : rectangular Q (length us) (length vs)).
  { split; [exact LQ|]. intros r Hr. apply In_nth_error in Hr as (i & Hi). assert (Li : (i < length us)%nat) by (rewrite <- LQ; apply nth_error_Some; congruence).
    destruct (nth_error us i) as [cu|] eqn:Eu; [|apply nth_error_None in Eu; lia].
    destruct (Cell i 0%nat cu v0 Eu eq_refl) as (L & _). rewrite (nth_error_nth _ _ [] Hi) in L. exact L. }
  split; [exact (concat_rect _ _ _ RG)|]. intros i j cu cv Hi Hj. destruct (Cell i j cu cv Hi Hj) as (_ & a & b & Ea & Eb & V).
  assert (Li : (i < length us)%nat) by (apply nth_error_Some; congruence). assert (Lj : (j < length vs)%nat) by (apply nth_error_Some; congruence).
  exists a, b. split; [exact Ea|]. split; [exact Eb|]. intros c. rewrite <- V.
  exact (f_equal (fun w => w c) (nth_concat (fun _ : nat => 0) Q (length us) (length vs) j i RG Lj Li)).
Qed.

Lemma family_loftable cs a b ku : 0 < eps -> family eps cs a b -> far_apart eps (concat (map c_knots cs) ++ ku) ->
  forall c0, In c0 cs -> loftable eps c0 cs.
Proof.
  intros He (_ & _ & H) HF c0 H0. split; [intros c Hc; destruct (H c Hc) as (A & B & _); auto|].
  destruct (H c0 H0) as ((CI & F0 & L0) & _ & A0 & B0).
  assert (Lt : a < b).
  { rewrite <- A0, <- B0, F0, L0. destruct CI as (_ & U & M & CK & EK & _). change (knots_of (info_of c0)) with (c_knots c0) in EK.
    apply (ckn_ok eps He (c_deg c0) (c_knots c0) (poles_for (c_deg c0) M)). exists U, M. auto. }
  assert (Q : forall c x, In c (map info_of cs) -> In x (knots_of c) -> rescale (c_knots c0) (knots_of c) x = x /\ In x (concat (map c_knots cs) ++ ku)).
  { intros ci x Hc Hx. apply in_map_iff in Hc as (c & <- & Hc). change (knots_of (info_of c)) with (c_knots c) in *.
    destruct (H c Hc) as ((_ & F & L) & _ & A & B). split.
    - unfold rescale. rewrite <- F, <- L, <- F0, <- L0, A, B, A0, B0. field. lra.
    - apply in_or_app. left. apply in_concat. exists (c_knots c). split; [apply in_map, Hc|exact Hx]. }
  intros c c' x y Hc Hc' Hx Hy. destruct (Q c x Hc Hx) as [-> Q2]. destruct (Q c' y Hc' Hy) as [-> Q4]. apply HF; assumption.
Qed.

Definition all_carried dim us vs (u v : list R) a b c d (s : surf R) : Prop :=
  s_degU s = list_max (map c_deg us) /\ s_degV s = list_max (map c_deg vs) /\
  s_u1 s = a /\ s_u2 s = b /\ s_v1 s = c /\ s_v2 s = d /\
  (forall i j cu cv, nth_error us i = Some cu -> nth_error vs j = Some cv ->
     exists x y z, value cu (nth j u 0) 0 = Ok x /\ value cv (nth i v 0) 0 = Ok y /\
       surf_value s (nth j u 0) (nth i v 0) 0 0 = Ok z /\ forall k, (k < dim)%nat -> z k = (x k + y k) / 2) /\
  (forall i cu, nth_error us i = Some cu ->
     (forall j cv, nth_error vs j = Some cv -> meet eps dim cu (nth j u 0) cv (nth i v 0)) ->
     forall x du, a <= x <= b -> exists z z', value cu x du = Ok z /\ surf_value s x (nth i v 0) du 0 = Ok z' /\
       forall k, (k < dim)%nat -> z' k = z k) /\
  (forall j cv, nth_error vs j = Some cv ->
     (forall i cu, nth_error us i = Some cu -> meet eps dim cu (nth j u 0) cv (nth i v 0)) ->
     forall y dv, c <= y <= d -> exists z z', value cv y dv = Ok z /\ surf_value s (nth j u 0) y 0 dv = Ok z' /\
       forall k, (k < dim)%nat -> z' k = z k).

Lemma inc_between (u : list R) n a b i : crossing_params u n a b -> (i < n)%nat -> a <= nth i u 0 <= b.
Proof.
  intros (L & Si & A & B) Hi. rewrite <- A, <- B. change (nth i u 0) with (kn u i). split.
  - destruct i as [|i]; [lra|]. left. apply Si; lia.
  - destruct (Nat.eq_dec i (n - 1)) as [->|]; [lra|]. left. apply Si; lia.
Qed.

Lemma gordon_core lu extrema dist dim tol u0 ur v0 vr (u v ku kv : list R) a b c d Lu0 Lv0 Q P T0 :
  let us := u0 :: ur in let vs := v0 :: vr in let p := list_max (map c_deg us) in let q := list_max (map c_deg vs) in
  let p_ := Nat.min p (length u - 1) in let q_ := Nat.min q (length v - 1) in
  0 < eps -> exact_solver lu -> (0 < dim)%nat -> family eps us a b -> family eps vs c d ->
  crossing_params u (length vs) a b -> crossing_params v (length us) c d ->
  build_simple_mult_flat_knots u p_ = Ok ku -> build_simple_mult_flat_knots v q_ = Ok kv ->
  far_apart eps (concat (map c_knots us) ++ ku) -> far_apart eps (concat (map c_knots vs) ++ kv) ->
  build_intersections extrema dist tol us vs = Ok (u, v, Q) -> crossing_points us vs u v Q ->
  loft lu dim us v q_ = Ok Lu0 -> loft lu dim vs u p_ = Ok Lv0 ->
  grid_poles lu dim Q ku kv u v p_ q_ = Ok P -> mk_surf P ku kv p_ q_ = Ok T0 ->
  exists K L A B C, gordon lu extrema dist dim tol us vs = mk_surf (sum3 eps A B C) K L p q /\
    (forall x, In x K -> In x (concat (map c_knots us) ++ ku)) /\ (forall y, In y L -> In y (concat (map c_knots vs) ++ kv)) /\
    ckn_of eps p K (length K - p - 1) /\ ckn_of eps q L (length L - q - 1) /\
    length A = ((length K - p - 1) * (length L - q - 1))%nat /\
    forall s, mk_surf (sum3 eps A B C) K L p q = Ok s -> all_carried dim us vs u v a b c d s.
Proof.
  intros us vs p q p_ q_ He Hex Hdim HU HV Cu Cv Eku Ekv FU FV EI HQ ELu ELv EP ET.
  pose proof Cu as (Lu & Su & Ua & Ub). pose proof Cv as (Lv & Sv & Vc & Vd).
  pose proof HU as (nus & Hp & HUc). pose proof HV as (nvs & Hq & HVc). fold us in nus, Hp. fold vs in nvs, Hq. fold p in Hp. fold q in Hq.
  assert (Hp12 : (p <= 12)%nat). { apply list_max_le, Forall_forall. intros x Hx. apply in_map_iff in Hx as (cc & <- & Hc). apply HUc; exact Hc. }
  assert (Hq12 : (q <= 12)%nat). { apply list_max_le, Forall_forall. intros x Hx. apply in_map_iff in Hx as (cc & <- & Hc). apply HVc; exact Hc. }
  assert (Hp_ : (1 <= p_ /\ p_ < length u /\ p_ <= p)%nat) by (unfold p_; lia). assert (Hq_ : (1 <= q_ /\ q_ < length v /\ q_ <= q)%nat) by (unfold q_; lia).
  assert (Ip : Nat.min p_ (length u - 1) = p_) by (unfold p_; lia). assert (Iq : Nat.min q_ (length v - 1) = q_) by (unfold q_; lia).
  pose proof (averages_interlaced eps u p_ ku ltac:(lia) ltac:(lia) Su Eku) as Iu. pose proof (averages_interlaced eps v q_ kv ltac:(lia) ltac:(lia) Sv Ekv) as Iv.
  assert (SepU : forall x y, In x ku -> In y ku -> x = y \/ eps < Rabs (x - y)) by (intros x y Hx Hy; apply FU; apply in_or_app; right; assumption).
  assert (SepV : forall x y, In x kv -> In y kv -> x = y \/ eps < Rabs (x - y)) by (intros x y Hx Hy; apply FV; apply in_or_app; right; assumption).
  pose proof (interlaced_ckn eps ku p_ u He ltac:(lia) ltac:(lia) Iu SepU) as CKu. pose proof (interlaced_ckn eps kv q_ v He ltac:(lia) ltac:(lia) Iv SepV) as CKv.
  destruct (simple_knots eps u p_ ku ltac:(lia) ltac:(lia) Su Eku) as (Ku & Ku1 & Ku2 & _ & _ & Inu).
  destruct (simple_knots eps v q_ kv ltac:(lia) ltac:(lia) Sv Ekv) as (Kv & Kv1 & Kv2 & _ & _ & Inv).
  rewrite Lu, Ub in Ku2. rewrite Lv, Vd in Kv2. rewrite Ua in Ku1. rewrite Vc in Kv1.
  (* the three surfaces *)
  destruct (loft_csurf eps lu dim u0 ur v kv q_ Lu0 He Hex Hdim (family_loftable us a b ku He HU FU u0 (or_introl eq_refl))) as (CS1 & D1 & D2 & D3 & _ & _ & D4 & D5 & D6); auto; try lia.
  { intros cc Hc. destruct (HUc cc Hc) as (_ & _ & -> & ->). destruct (HUc u0 (or_introl eq_refl)) as (_ & _ & -> & ->). auto. }
  { rewrite Iq. exact Ekv. }
  destruct (loft_csurf eps lu dim v0 vr u ku p_ Lv0 He Hex Hdim (family_loftable vs c d kv He HV FV v0 (or_introl eq_refl))) as (CS2 & G1 & G2 & G3 & _ & _ & G4 & G5 & G6); auto; try lia.
  { intros cc Hc. destruct (HVc cc Hc) as (_ & _ & -> & ->). destruct (HVc v0 (or_introl eq_refl)) as (_ & _ & -> & ->). auto. }
  { rewrite Ip. exact Eku. }
  fold us in D1, D4, D6. fold vs in G1, G4, G6. fold p in D1. fold q in G1. rewrite Iq in D2. rewrite Ip in G2.
  destruct (HUc u0 (or_introl eq_refl)) as (_ & _ & U0a & U0b). destruct (HVc v0 (or_introl eq_refl)) as (_ & _ & V0a & V0b).
  rewrite U0a, U0b, Lv, Vc, Vd in D5. rewrite U0a, U0b in D6. rewrite V0a, V0b, Lu, Ua, Ub in G5. rewrite V0a, V0b in G6.
  pose proof (mk_surf_inv eps _ _ _ _ _ _ ET) as ET'.
  destruct (grid_poles_ok eps lu dim Q ku kv u v p_ q_ P Hex Ku Kv ltac:(left; lia) Inu Inv EP) as (_ & LP & VT).
  assert (Lku : length ku = (length u + p_ + 1)%nat) by apply Ku. assert (Lkv : length kv = (length v + q_ + 1)%nat) by apply Kv.
  assert (T1 : s_degU T0 = p_ /\ s_degV T0 = q_ /\ s_ku T0 = ku /\ s_kv T0 = kv /\ s_nU T0 = length u /\ s_nV T0 = length v /\ s_poles T0 = P).
  { subst T0. unfold s_nU, s_nV. cbn [s_degU s_degV s_ku s_kv s_poles]. repeat split; lia. }
  destruct T1 as (T1 & T2 & T3 & T4 & T5 & T6 & T7).
  assert (CS3 : csurf eps T0).
  { split; [unfold surface_ok; rewrite T1, T2, T3, T4, T5, T6, T7; split; [exact Ku|split; [exact Kv|exact LP]]|].
    split; [unfold natural_surface; rewrite T5, T6; subst T0; cbn [s_u1 s_u2 s_v1 s_v2 s_ku s_kv s_degU s_degV]; repeat split; f_equal; lia|].
    rewrite T1, T2, T3, T4, T5, T6. split; [exact CKu|]. split; [exact CKv|]. lia. }
  assert (T8 : forall x y, in_surface T0 x y <-> a <= x <= b /\ c <= y <= d).
  { intros x y. unfold in_surface, in_rect. rewrite T1, T2, T3, T4, T5, T6. rewrite Ku1, Kv1. rewrite Lu, Ku2, Lv, Kv2. tauto. }
  (* elevation *)
  destruct (elevV eps (q - q_) Lu0 q_ He CS1 ltac:(lia)) as (s1 & E1 & CS1' & X1 & X2 & X3 & X4 & X5).
  destruct (elevV eps (p - p_) Lv0 p_ He CS2 ltac:(lia)) as (s2a & E2 & CS2' & Y1 & Y2 & Y3 & Y4 & Y5).
  destruct (csurf_invert eps s2a He CS2') as (s2 & E2' & CS2'' & Y6 & Y7 & Y8 & Y9 & Y10 & Y11).
  destruct (elevU eps (p - p_) T0 p_ He CS3 ltac:(lia)) as (s3a & E3 & CS3' & Z1 & Z2 & Z3 & Z4 & Z5).
  destruct (elevV eps (q - q_) s3a q_ He CS3' ltac:(lia)) as (s3 & E3' & CS3'' & Z6 & Z7 & Z8 & Z9 & Z10).
  pose proof (agree_trans eps T0 s3a s3 Z5 Z10) as Z11.
  assert (Dom1 : forall x y, in_surface s1 x y <-> a <= x <= b /\ c <= y <= d) by (intros x y; rewrite (proj1 X5 x y); apply D5).
  assert (Dom2 : forall x y, in_surface s2 x y <-> a <= x <= b /\ c <= y <= d) by (intros x y; rewrite (Y10 y x), (proj1 Y5 y x), G5; tauto).
  assert (Dom3 : forall x y, in_surface s3 x y <-> a <= x <= b /\ c <= y <= d) by (intros x y; rewrite (proj1 Z11 x y); apply T8).
  destruct (gordon_sum eps s1 s2 s3 p q (fun x => In x (concat (map c_knots us) ++ ku)) (fun x => In x (concat (map c_knots vs) ++ kv)) He CS1' CS2'' CS3'')
    as (i1 & i2 & i3 & K & L & r1 & r2 & r3 & F1 & F2 & F3 & F4 & F5 & F6 & F7 & F8 & F9 & HS); try lia; auto.
  { intros x y. rewrite Dom2, Dom1. tauto. } { intros x y. rewrite Dom3, Dom1. tauto. }
  { intros x [Hx|[Hx|Hx]]; apply in_or_app.
    - left. rewrite X3 in Hx. destruct (D4 x Hx) as (cc & Hc & Hx'). apply in_concat. exists (c_knots cc). split; [apply in_map, Hc|exact Hx'].
    - right. rewrite Y8 in Hx. specialize (Y4 x Hx). rewrite G3 in Y4. exact Y4.
    - right. rewrite Z8 in Hx. specialize (Z4 x Hx). rewrite T3 in Z4. exact Z4. }
  { intros x [Hx|[Hx|Hx]]; apply in_or_app.
    - right. specialize (X4 x Hx). rewrite D3 in X4. exact X4.
    - left. rewrite Y9, Y3 in Hx. destruct (G4 x Hx) as (cc & Hc & Hx'). apply in_concat. exists (c_knots cc). split; [apply in_map, Hc|exact Hx'].
    - right. specialize (Z9 x Hx). rewrite Z3, T4 in Z9. exact Z9. }
  exists K, L, (concat r1), (concat r2), (concat r3). split.
  { unfold gordon. rewrite !max_degree_ok by discriminate. cbn [bind]. fold us vs p q. rewrite EI. cbn [bind]. fold p_ q_.
    rewrite ELu. cbn [bind]. unfold elevate_to. rewrite D2, E1. cbn [bind]. rewrite ELv. cbn [bind]. rewrite G2, E2. cbn [bind]. rewrite E2'. cbn [bind].
    rewrite Eku, Ekv. cbn [bind]. rewrite EP. cbn [bind]. rewrite ET. cbn [bind]. rewrite E3. cbn [bind]. rewrite E3'. cbn [bind].
    rewrite F1, F2, F3. cbn [bind]. rewrite F4. reflexivity. }
  split; [exact F5|]. split; [exact F6|]. split; [exact F7|]. split; [exact F8|]. split; [exact F9|].
  intros s Es. destruct (HS s Es) as (CSs & S1 & S2 & S3 & S4 & S5 & S6 & S7 & S8).
  (* the sum of the three initial surfaces *)
  assert (Sum : forall x y du dv, a <= x <= b -> c <= y <= d -> exists z1 z2 z3 z, surf_value Lu0 x y du dv = Ok z1 /\ surf_value Lv0 y x dv du = Ok z2 /\
     surf_value T0 x y du dv = Ok z3 /\ surf_value s x y du dv = Ok z /\ forall k, z k = z1 k + z2 k - z3 k).
  { intros x y du dv Hx Hy. destruct (S8 x y du dv (proj2 (Dom1 x y) (conj Hx Hy))) as (w1 & w2 & w3 & z & W1 & W2 & W3 & Ez & Vz).
    destruct (proj2 X5 x y du dv (proj2 (D5 x y) (conj Hx Hy))) as (z1 & A1 & w1' & A2 & A3). rewrite W1 in A2. injection A2 as <-.
    destruct (proj2 Y5 y x dv du (proj2 (G5 y x) (conj Hy Hx))) as (z2 & B1 & w2a & B2 & B3).
    destruct (Y11 y x dv du (proj2 (proj1 Y5 y x) (proj2 (G5 y x) (conj Hy Hx)))) as (w2b & B4 & w2c & B5 & B6).
    rewrite B2 in B4. injection B4 as <-. rewrite W2 in B5. injection B5 as <-.
    destruct (proj2 Z11 x y du dv (proj2 (T8 x y) (conj Hx Hy))) as (z3 & C1 & w3' & C2 & C3). rewrite W3 in C2. injection C2 as <-.
    exists z1, z2, z3, z. repeat (split; [assumption|]). intros k. rewrite Vz, A3, B6, B3, C3. reflexivity. }
  assert (PU : forall i cu, nth_error us i = Some cu -> c <= nth i v 0 <= d).
  { intros i cu Hi. apply (inc_between v (length us) c d i Cv). apply nth_error_Some. congruence. }
  assert (PV : forall j cv, nth_error vs j = Some cv -> a <= nth j u 0 <= b).
  { intros j cv Hj. apply (inc_between u (length vs) a b j Cu). apply nth_error_Some. congruence. }
  assert (Grid : forall i j cu cv, nth_error us i = Some cu -> nth_error vs j = Some cv -> exists x y z, value cu (nth j u 0) 0 = Ok x /\ value cv (nth i v 0) 0 = Ok y /\
    surf_value T0 (nth j u 0) (nth i v 0) 0 0 = Ok z /\ forall k, (k < dim)%nat -> z k = (x k + y k) / 2).
  { intros i j cu cv Hi Hj. destruct (proj2 HQ i j cu cv Hi Hj) as (x & y & Ex & Ey & Vxy). 
    assert (Li : (i < length us)%nat) by (apply nth_error_Some; congruence). assert (Lj : (j < length vs)%nat) by (apply nth_error_Some; congruence).
    destruct (VT j i ltac:(rewrite Lu; exact Lj) ltac:(rewrite Lv; exact Li)) as (z & Ez & Vz). exists x, y, z. split; [exact Ex|]. split; [exact Ey|]. split.
    - rewrite (surf_value_in eps T0 _ _ _ _ (Rlt_le _ _ He) (proj1 CS3) (proj1 (proj2 CS3)) (proj2 (T8 _ _) (conj (PV j cv Hj) (PU i cu Hi)))). rewrite T1, T2, T3, T4, T7. exact Ez.
    - intros k Hk. rewrite (Vz k Hk), Lu. apply Vxy. }
  assert (P24 : (p_ <= 24)%nat) by (clear -Hp_ Hp12; lia). assert (Q24 : (q_ <= 24)%nat) by (clear -Hq_ Hq12; lia).
  unfold all_carried. fold p q. split; [exact S1|]. split; [exact S2|].
  destruct CS1' as (_ & (M1 & M2 & M3 & M4) & CA & CB & _).
  destruct (ckn_ok eps He _ _ _ CA) as (KA & _ & CA1 & CA2 & CA3). destruct (ckn_ok eps He _ _ _ CB) as (KB & _ & CB1 & CB2 & CB3).
  assert (Bds : first_knot (s_ku s1) = a /\ last_knot (s_ku s1) = b /\ first_knot (s_kv s1) = c /\ last_knot (s_kv s1) = d).
  { assert (DD : forall x y, (first_knot (s_ku s1) <= x <= last_knot (s_ku s1) /\ first_knot (s_kv s1) <= y <= last_knot (s_kv s1)) <-> (a <= x <= b /\ c <= y <= d)).
    { intros x y. rewrite <- Dom1. unfold in_surface, in_rect. rewrite CA1, CA2, CB1, CB2. tauto. }
    pose proof (inc_between u (length vs) a b 0 Cu ltac:(cbn; lia)). pose proof (inc_between v (length us) c d 0 Cv ltac:(cbn; lia)).
    pose proof (proj1 (DD (first_knot (s_ku s1)) (first_knot (s_kv s1))) ltac:(lra)). pose proof (proj1 (DD (last_knot (s_ku s1)) (last_knot (s_kv s1))) ltac:(lra)).
    pose proof (proj2 (DD a c) ltac:(lra)). pose proof (proj2 (DD b d) ltac:(lra)). lra. }
  destruct Bds as (Bd1 & Bd2 & Bd3 & Bd4).
  assert (LastU : kn (s_ku s1) (s_nU s1 + s_degU s1) = last_knot (s_ku s1)) by (clear -KA; destruct KA as (L1 & _); unfold last_knot; f_equal; lia).
  assert (LastV : kn (s_kv s1) (s_nV s1 + s_degV s1) = last_knot (s_kv s1)) by (clear -KB; destruct KB as (L1 & _); unfold last_knot; f_equal; lia).
  split; [rewrite S3, M1; exact Bd1|]. split; [rewrite S4, M2, LastU; exact Bd2|].
  split; [rewrite S5, M3; exact Bd3|]. split; [rewrite S6, M4, LastV; exact Bd4|].
  split; [|split].
  - intros i j cu cv Hi Hj. destruct (Grid i j cu cv Hi Hj) as (x & y & z3 & Ex & Ey & Ez3 & V3).
    destruct (Sum (nth j u 0) (nth i v 0) 0%nat 0%nat (PV j cv Hj) (PU i cu Hi)) as (z1 & z2 & z3' & z & A1 & A2 & A3 & A4 & A5).
    rewrite Ez3 in A3. injection A3 as <-.
    destruct (D6 i cu Hi (nth j u 0) 0%nat (PV j cv Hj)) as (x' & z1' & B1 & B2 & B3). rewrite Ex in B1. injection B1 as <-. rewrite A1 in B2. injection B2 as <-.
    destruct (G6 j cv Hj (nth i v 0) 0%nat (PU i cu Hi)) as (y' & z2' & B4 & B5 & B6). rewrite Ey in B4. injection B4 as <-. rewrite A2 in B5. injection B5 as <-.
    exists x, y, z. split; [exact Ex|]. split; [exact Ey|]. split; [exact A4|]. intros k Hk. rewrite A5, (B3 k Hk), (B6 k Hk), (V3 k Hk). field.
  - intros i cu Hi HM x du Hx. pose proof (PU i cu Hi) as Hvi.
    destruct (Sum x (nth i v 0) du 0%nat Hx Hvi) as (z1 & z2 & z3 & z & A1 & A2 & A3 & A4 & A5).
    destruct (D6 i cu Hi x du Hx) as (w & z1' & B1 & B2 & B3). rewrite A1 in B2. injection B2 as <-.
    exists w, z. split; [exact B1|]. split; [exact A4|]. intros k Hk. rewrite A5, (B3 k Hk).
    enough (z2 k = z3 k) by lra.
    destruct (iso_u_value eps Lv0 (nth i v 0) x 0 du He CS2 (proj2 (G5 _ _) (conj Hvi Hx))) as (z2' & C1 & C2). rewrite A2 in C1. injection C1 as <-.
    destruct (iso_v_value eps T0 x (nth i v 0) du 0 He CS3 (proj2 (T8 _ _) (conj Hx Hvi))) as (z3' & C3 & C4). rewrite A3 in C3. injection C3 as <-.
    assert (NV2 : s_nV Lv0 = length u) by (unfold s_nV; rewrite G3, G2, Lku; clear; lia).
    rewrite C2, C4. rewrite G3, G2, NV2, T1, T3, T5.
    apply (RS_unique eps ku p_ u _ _ k He (proj1 Hp_) (proj1 (proj2 Hp_)) Iu P24); [rewrite iso_u_len; exact NV2|rewrite iso_v_len; exact T5|].
    intros y Hy. apply (In_nth _ _ 0) in Hy as (j & Hj & <-).
    destruct (nth_error vs j) as [cv|] eqn:Ev; [|apply nth_error_None in Ev; clear -Ev Hj Lu; lia].
    destruct (iso_u_value eps Lv0 (nth i v 0) (nth j u 0) 0 0 He CS2 (proj2 (G5 _ _) (conj Hvi (PV j cv Ev)))) as (y2 & P1 & P2).
    destruct (iso_v_value eps T0 (nth j u 0) (nth i v 0) 0 0 He CS3 (proj2 (T8 _ _) (conj (PV j cv Ev) Hvi))) as (y3 & P3 & P4).
    rewrite G3, G2, NV2 in P2. rewrite T1, T3, T5 in P4. rewrite <- P2, <- P4.
    destruct (G6 j cv Ev (nth i v 0) 0%nat Hvi) as (g & y2' & Q1 & Q2 & Q3). rewrite P1 in Q2. injection Q2 as <-.
    destruct (Grid i j cu cv Hi Ev) as (h & g' & y3' & R1 & R2 & R3 & R4). rewrite P3 in R3. injection R3 as <-. rewrite Q1 in R2. injection R2 as <-.
    destruct (HM j cv Ev) as (h' & g' & M5 & M6 & M7). rewrite R1 in M5. injection M5 as <-. rewrite Q1 in M6. injection M6 as <-.
    rewrite (Q3 k Hk), (R4 k Hk), (M7 k Hk). field.
  - intros j cv Hj HM y dv Hy. pose proof (PV j cv Hj) as Huj.
    destruct (Sum (nth j u 0) y 0%nat dv Huj Hy) as (z1 & z2 & z3 & z & A1 & A2 & A3 & A4 & A5).
    destruct (G6 j cv Hj y dv Hy) as (w & z2' & B1 & B2 & B3). rewrite A2 in B2. injection B2 as <-.
    exists w, z. split; [exact B1|]. split; [exact A4|]. intros k Hk. rewrite A5, (B3 k Hk).
    enough (z1 k = z3 k) by lra.
    destruct (iso_u_value eps Lu0 (nth j u 0) y 0 dv He CS1 (proj2 (D5 _ _) (conj Huj Hy))) as (z1' & C1 & C2). rewrite A1 in C1. injection C1 as <-.
    destruct (iso_u_value eps T0 (nth j u 0) y 0 dv He CS3 (proj2 (T8 _ _) (conj Huj Hy))) as (z3' & C3 & C4). rewrite A3 in C3. injection C3 as <-.
    assert (NV1 : s_nV Lu0 = length v) by (unfold s_nV; rewrite D3, D2, Lkv; clear; lia).
    rewrite C2, C4. rewrite D3, D2, NV1, T2, T4, T6.
    apply (RS_unique eps kv q_ v _ _ k He (proj1 Hq_) (proj1 (proj2 Hq_)) Iv Q24); [rewrite iso_u_len; exact NV1|rewrite iso_u_len; exact T6|].
    intros x Hx. apply (In_nth _ _ 0) in Hx as (i & Hi & <-).
    destruct (nth_error us i) as [cu|] eqn:Eu; [|apply nth_error_None in Eu; clear -Eu Hi Lv; lia].
    destruct (iso_u_value eps Lu0 (nth j u 0) (nth i v 0) 0 0 He CS1 (proj2 (D5 _ _) (conj Huj (PU i cu Eu)))) as (y2 & P1 & P2).
    destruct (iso_u_value eps T0 (nth j u 0) (nth i v 0) 0 0 He CS3 (proj2 (T8 _ _) (conj Huj (PU i cu Eu)))) as (y3 & P3 & P4).
    rewrite D3, D2, NV1 in P2. rewrite T2, T4, T6 in P4. rewrite <- P2, <- P4.
    destruct (D6 i cu Eu (nth j u 0) 0%nat Huj) as (g & y2' & Q1 & Q2 & Q3). rewrite P1 in Q2. injection Q2 as <-.
    destruct (Grid i j cu cv Eu Hj) as (h & g' & y3' & R1 & R2 & R3 & R4). rewrite P3 in R3. injection R3 as <-. rewrite Q1 in R1. injection R1 as <-.
    destruct (HM i cu Eu) as (h' & g'' & M5 & M6 & M7). rewrite Q1 in M5. injection M5 as <-. rewrite R2 in M6. injection M6 as <-.
    rewrite (Q3 k Hk), (R4 k Hk), (M7 k Hk). field.
Qed.
End AtR.
