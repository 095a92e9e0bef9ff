(** join of polynomial curves. *)
From Coq Require Import List Arith ZArith Reals Lia Lra Bool.
From Verif Require Import Model_Base Spec_Base Spec_Basis Spec_Knots Spec_Eval Spec_Class Spec_Rational Spec_Elevate Spec_Unify
  Model_Basis Model_Knots Model_Curve Model_Rational Model_Elevate Model_Unify
  Proof_Base Proof_Basis Proof_Ders Proof_Eval Proof_Trim Proof_PropBasis Proof_Build2 Proof_Ctor Proof_Interp3 Proof_SurfEdit2
  Proof_Elevate2 Proof_Elevate4 Proof_Unify Proof_Unify2 Proof_Unify3 Proof_Unify5 Proof_Join.
Import ListNotations.
Local Open Scope R_scope.

(** A clamped knot vector of degree 1..12 *)
Definition gk (k : list R) (n p : nat) : Prop :=
  knots_ok k n p /\ end_clamped k n p /\ (forall i, (i <= p)%nat -> kn k i = kn k 0) /\ kn k p < kn k (p + 1) /\
  kn k n = last_knot k /\ first_knot k < last_knot k.

Lemma info_gk eps p (c : @info R) : 0 <= eps -> clamped_info eps p c -> gk (knots_of c) (length (poles_of c)) p.
Proof.
  intros He Hc. destruct (info_km eps p c He Hc) as (km & H & _ & -> & -> & _).
  pose proof (ck_knots_ok p _ _ H) as OK. fold (fk km) in OK. fold (npol p km) in OK.
  destruct (fk_first p km H) as (F1 & F2). destruct (fk_dom p km H) as (D1 & D2). pose proof (lo_hi p km H).
  pose proof (kmok_len p km H) as L2.
  split; [exact OK|]. split; [|split; [|split; [|split]]].
  - intros i Hi. rewrite D2. unfold hi. pose proof (ck_n p _ _ H) as N. rewrite map_length in N. fold (npol p km) in N.
    apply (ck_at p _ _ H (length km - 1)); [rewrite map_length; lia|].
    rewrite pre_S. destruct H as (_ & _ & _ & _ & F & _). rewrite map_length in F. rewrite F. lia.
  - intros i Hi. unfold first_knot in F1. rewrite F1. unfold lo.
    apply (ck_at p _ _ H 0); [rewrite map_length; lia|]. rewrite pre_0, (ck_pre_1 p _ _ H). lia.
  - destruct (ck_lst p _ _ H 0) as (A & B & C & D); [rewrite map_length; lia|].
    unfold lst in *. rewrite (ck_pre_1 p _ _ H) in *. replace (p + 1 - 1)%nat with p in * by lia. rewrite Nat.add_1_r. exact D.
  - congruence.
  - lra.
Qed.

Section AtR.
Variable eps : R.
Local Hint Extern 0 (Num R) => exact (NumR eps) : typeclass_instances.

Lemma pole_app1 (A B : list (pt R)) c i : (i < length A)%nat -> pole (A ++ B) c i = pole A c i.
Proof. intros H. unfold pole. rewrite app_nth1 by exact H. reflexivity. Qed.

Section Finish.
Variables (k1 k2 : list R) (n1 n2 p : nat) (PA P1 P2 : list (pt R)).
Hypothesis G1 : gk k1 n1 p.
Hypothesis G2 : gk k2 n2 p.
Hypothesis Hp : (1 <= p <= 12)%nat.
Hypothesis LA : length PA = n1.
Hypothesis L1 : length P1 = n1.
Hypothesis L2 : length P2 = n2.
Variable C : nat -> Prop.
Hypothesis HA : forall c i, C c -> (i < n1)%nat -> pole PA c i = pole P1 c i.
Hypothesis HJ : forall c, C c -> pole P1 c (n1 - 1) = pole P2 c 0.
Let P := PA ++ tl P2.
Let k := joined k1 k2 n1 p.

Lemma finish_len : length P = (n1 + n2 - 1)%nat.
Proof. unfold P. rewrite app_length. destruct G2 as ((_ & H & _) & _). destruct P2; simpl in *; lia. Qed.

Lemma finish_pole2 c i : C c -> (i < n2)%nat -> pole P c (i + (n1 - 1)) = pole P2 c i.
Proof.
  intros Hc Hi. destruct G1 as ((_ & H1 & _) & _). destruct i as [|i].
  - cbn [Nat.add]. unfold P. rewrite pole_app1 by lia. rewrite HA by (auto; lia). apply HJ, Hc.
  - unfold P, pole. rewrite app_nth2 by lia. rewrite LA. replace (S i + (n1 - 1) - n1)%nat with i by lia.
    destruct P2; [simpl in *; lia|reflexivity].
Qed.

Lemma finish_ok : join_finish PA P2 k1 k2 p p = Ok (mk p P k (first_knot k1) (last_knot k2 + (last_knot k1 - first_knot k2))).
Proof.
  destruct G1 as (K1 & E1 & S1 & Z1 & T1 & V1). destruct G2 as (K2 & E2 & S2 & Z2 & T2 & V2).
  pose proof K1 as (Lk1 & Hn1 & N1 & _). pose proof K2 as (Lk2 & Hn2 & N2 & _).
  unfold join_finish. destruct P2 as [|q P2'] eqn:EP; [simpl in L2; lia|].
  rewrite back_kn by lia. rewrite (front_nth k2 0) by lia. cbn [bind]. rewrite map_length.
  destruct (Nat.ltb_spec (length k2) (p + 1)); [lia|].
  assert (Ek : removelast k1 ++ skipn (p + 1) (map (fun x => nsub (nadd x (kn k1 (length k1 - 1))) (nth 0 k2 0)) k2) = k).
  { unfold k, joined. nsimp. fold (last_knot k1). rewrite <- T1. reflexivity. }
  rewrite Ek. pose proof (joined_ok k1 k2 n1 n2 p K1 K2 ltac:(lia) E1 S2) as OK. fold k in OK. pose proof OK as (Lk & Hk & Nk & _).
  assert (LP : length (PA ++ P2') = (n1 + n2 - 1)%nat) by (rewrite app_length; simpl in L2; lia).
  rewrite (mk_curve_accepts eps) by (auto; lia). unfold P. cbn [tl]. do 2 f_equal.
  - apply (joined_1 k1 k2 n1 n2 p K1); lia.
  - rewrite Lk. replace (n1 + n2 - 1 + p + 1 - 1)%nat with (n2 + p + (n1 - 1))%nat by lia.
    unfold k. rewrite (joined_2 k1 k2 n1 n2 p K1 K2 ltac:(lia) E1 S2) by lia. rewrite T1, (E2 (n2 + p)%nat) by lia. rewrite T2. unfold first_knot. ring.
Qed.

Lemma ev_of k0 n0 : evaluable eps k0 n0 p. Proof. left. lia. Qed.

Lemma finish_first x d : first_knot k1 <= x < last_knot k1 \/ (x = last_knot k1 /\ d = 0%nat) ->
  exists q q', eval_value x k1 P1 p d = Ok q /\ eval_value x k P p d = Ok q' /\ forall c, C c -> q' c = q c.
Proof.
  destruct G1 as (K1 & E1 & S1 & Z1 & T1 & V1). destruct G2 as (K2 & E2 & S2 & Z2 & T2 & V2). intros Hx.
  pose proof K1 as (_ & Hn1 & _). pose proof K2 as (_ & Hn2 & _).
  pose proof (joined_ok k1 k2 n1 n2 p K1 K2 ltac:(lia) E1 S2) as OK. fold k in OK.
  destruct (joined_dom k1 k2 n1 n2 p K1 K2 ltac:(lia) E1 S2) as (D1 & D2). fold k in D1, D2. rewrite S1 in D1 by lia. rewrite T1, T2 in D2.
  fold (first_knot k1) in D1. fold (first_knot k2) in D2.
  destruct (le_lt_dec d p) as [Hd|Hd].
  2: { exists pzero, pzero. rewrite !(eval_value_high eps) by lia. auto. }
  destruct (CV_eval eps k (n1 + n2 - 1) p P x d OK finish_len (ev_of _ _)) as (q' & Q1 & Q2); [rewrite D1, D2; lra|exact Hd|].
  destruct (CV_eval eps k1 n1 p P1 x d K1 L1 (ev_of _ _)) as (q & R1 & R2); [rewrite S1, T1 by lia; fold (first_knot k1); lra|exact Hd|].
  exists q, q'. split; [exact R1|]. split; [exact Q1|]. intros c Hc. rewrite Q2, R2.
  destruct Hx as [Hx|(-> & ->)].
  - apply (joined_first k1 k2 n1 n2 p K1 K2 ltac:(lia) E1 S2); [|exact Hd|].
    + intros i Hi. unfold P. rewrite pole_app1 by lia. apply HA; auto.
    + rewrite S1, T1 by lia. exact Hx.
  - replace (last_knot k1) with (kn k2 p + (kn k1 n1 - kn k2 0)) at 1 by (rewrite S2 by lia; rewrite T1; ring).
    unfold k. rewrite (joined_second k1 k2 n1 n2 p K1 K2 ltac:(lia) E1 S2 (pole P c) (pole P2 c)).
    + assert (A2 : CV k2 n2 p 0 (pole P2 c) (kn k2 p) = pole P2 c 0).
      { destruct (eval_value_start eps k2 n2 p P2 K2 L2 (ev_of _ _) S2 Z2) as (r & X1 & X2).
        destruct (CV_eval eps k2 n2 p P2 (kn k2 p) 0 K2 L2 (ev_of _ _)) as (r' & Y1 & Y2); [|lia|].
        { rewrite S2, T2 by lia. fold (first_knot k2). lra. }
        rewrite <- Y2. rewrite S2 in Y1 by lia. rewrite X1 in Y1. injection Y1 as <-. apply X2. }
      assert (A1 : CV k1 n1 p 0 (pole P1 c) (last_knot k1) = pole P1 c (n1 - 1)).
      { destruct (eval_value_end eps k1 n1 p P1 K1 L1 (ev_of _ _) E1) as (r & X1 & X2). rewrite T1 in X1.
        rewrite <- R2. rewrite X1 in R1. injection R1 as <-. apply X2. }
      rewrite A1, A2. symmetry. apply HJ, Hc.
    + intros i Hi. apply finish_pole2; auto.
    + lia.
    + rewrite S2, T2 by lia. fold (first_knot k2). lra.
Qed.

Lemma finish_second x d : first_knot k2 <= x <= last_knot k2 ->
  exists q q', eval_value x k2 P2 p d = Ok q /\ eval_value (x + (last_knot k1 - first_knot k2)) k P p d = Ok q' /\ forall c, C c -> q' c = q c.
Proof.
  destruct G1 as (K1 & E1 & S1 & Z1 & T1 & V1). destruct G2 as (K2 & E2 & S2 & Z2 & T2 & V2). intros Hx.
  pose proof K1 as (_ & Hn1 & _). pose proof K2 as (_ & Hn2 & _).
  pose proof (joined_ok k1 k2 n1 n2 p K1 K2 ltac:(lia) E1 S2) as OK. fold k in OK.
  destruct (joined_dom k1 k2 n1 n2 p K1 K2 ltac:(lia) E1 S2) as (D1 & D2). fold k in D1, D2. rewrite S1 in D1 by lia. rewrite T1, T2 in D2.
  fold (first_knot k1) in D1. fold (first_knot k2) in D2.
  destruct (le_lt_dec d p) as [Hd|Hd].
  2: { exists pzero, pzero. rewrite !(eval_value_high eps) by lia. auto. }
  destruct (CV_eval eps k (n1 + n2 - 1) p P (x + (last_knot k1 - first_knot k2)) d OK finish_len (ev_of _ _)) as (q' & Q1 & Q2); [rewrite D1, D2; lra|exact Hd|].
  destruct (CV_eval eps k2 n2 p P2 x d K2 L2 (ev_of _ _)) as (q & R1 & R2); [rewrite S2, T2 by lia; fold (first_knot k2); lra|exact Hd|].
  exists q, q'. split; [exact R1|]. split; [exact Q1|]. intros c Hc. rewrite Q2, R2.
  rewrite <- T1. unfold first_knot. unfold k. apply (joined_second k1 k2 n1 n2 p K1 K2 ltac:(lia) E1 S2); [|exact Hd|].
  - intros i Hi. apply finish_pole2; auto.
  - rewrite S2, T2 by lia. exact Hx.
Qed.
End Finish.

(** The copies brought to one degree. *)
Lemma as_bscurve_ok c : 0 <= eps -> clamped_object eps c -> as_bscurve c = Ok c.
Proof.
  intros He (Hc & B1 & B2). destruct (info_gk eps _ _ He Hc) as (K & _ & _ & _ & T & _). unfold info_of, knots_of, poles_of in K, T. cbn [fst snd] in K, T.
  pose proof K as (L & H & N & _). unfold as_bscurve. rewrite (mk_curve_accepts eps) by (auto; lia).
  destruct c as [d P k l h]. cbn in *. unfold first_knot, last_knot in *. congruence.
Qed.

Lemma elevate_one c m : 0 < eps -> clamped_object eps c -> (c_deg c <= m <= 12)%nat ->
  exists c', increaseDegree c (m - c_deg c) = Ok c' /\ clamped_object eps c' /\ c_deg c' = m /\
    c_lo c' = c_lo c /\ c_hi c' = c_hi c /\
    forall x d, c_lo c <= x <= c_hi c -> exists q, eval_value x (c_knots c) (c_poles c) (c_deg c) d = Ok q /\
      exists q', eval_value x (c_knots c') (c_poles c') m d = Ok q' /\ forall j, q' j = q j.
Proof.
  intros He (Hc & B1 & B2) Hm. destruct (degree_one eps m (info_of c) He Hc) as (P' & k' & E & C' & F1 & F2 & _ & _ & V).
  { cbn. lia. } { lia. }
  unfold info_of, knots_of, poles_of in *. cbn [fst snd] in *.
  unfold increaseDegree. destruct (increase_degree (c_knots c) (c_poles c) (c_deg c) (m - c_deg c)) as [[kk PP]| | |]; cbn [bind] in *; try discriminate.
  injection E as -> ->. replace (c_deg c + (m - c_deg c))%nat with m by lia.
  eexists. split; [reflexivity|]. unfold clamped_object, info_of. cbn [c_deg c_poles c_knots c_lo c_hi].
  split; [split; [exact C'|split; congruence]|]. split; [reflexivity|]. split; [reflexivity|]. split; [reflexivity|].
  intros x d Hx. rewrite B1, B2 in Hx. destruct (V x d Hx) as (q & q' & Q1 & Q2 & Q3). exists q. split; [exact Q1|].
  exists q'. split; [exact Q2|]. intros j. rewrite <- Q3, pow1. ring.
Qed.

Lemma join_pair_ok c1 c2 : 0 < eps -> clamped_object eps c1 -> clamped_object eps c2 -> (c_deg c1 <= 12)%nat -> (c_deg c2 <= 12)%nat ->
  exists d1 d2, join_pair c1 c2 = Ok (d1, d2) /\
    increaseDegree c1 (max (c_deg c1) (c_deg c2) - c_deg c1) = Ok d1 /\ increaseDegree c2 (max (c_deg c1) (c_deg c2) - c_deg c2) = Ok d2.
Proof.
  intros He H1 H2 D1 D2. set (m := max (c_deg c1) (c_deg c2)).
  destruct (elevate_one c1 m He H1 ltac:(lia)) as (d1 & E1 & _). destruct (elevate_one c2 m He H2 ltac:(lia)) as (d2 & E2 & _).
  exists d1, d2. unfold join_pair, unify_curves_degree, max_degree. cbn [map fold_left bind]. fold m. cbn [mapM]. rewrite E1, E2. cbn [bind get nth_error]. auto.
Qed.

Lemma join_ok c1 c2 : 0 < eps -> clamped_object eps c1 -> clamped_object eps c2 ->
  (1 <= max (c_deg c1) (c_deg c2) <= 12)%nat ->
  (exists q1 q2, value c1 (c_hi c1) 0 = Ok q1 /\ value c2 (c_lo c2) 0 = Ok q2 /\ forall i, q1 i = q2 i) ->
  exists c, join c1 c2 = Ok c /\ c_deg c = max (c_deg c1) (c_deg c2) /\
    c_lo c = c_lo c1 /\ c_hi c = c_hi c1 + (c_hi c2 - c_lo c2) /\
    (forall x d, c_lo c1 <= x < c_hi c1 \/ (x = c_hi c1 /\ d = 0%nat) ->
       exists q q', value c1 x d = Ok q /\ value c x d = Ok q' /\ forall i, q' i = q i) /\
    (forall x d, c_lo c2 <= x <= c_hi c2 ->
       exists q q', value c2 x d = Ok q /\ value c (x + (c_hi c1 - c_lo c2)) d = Ok q' /\ forall i, q' i = q i).
Proof.
  intros He H1 H2 Hm HE. set (m := max (c_deg c1) (c_deg c2)) in *.
  destruct (join_pair_ok c1 c2 He H1 H2 ltac:(lia) ltac:(lia)) as (d1 & d2 & EJ & X1 & X2). fold m in X1, X2.
  destruct (elevate_one c1 m He H1 ltac:(lia)) as (e1 & Y1 & O1 & Dg1 & Lo1 & Hi1 & V1). rewrite X1 in Y1. injection Y1 as <-.
  destruct (elevate_one c2 m He H2 ltac:(lia)) as (e2 & Y2 & O2 & Dg2 & Lo2 & Hi2 & V2). rewrite X2 in Y2. injection Y2 as <-.
  unfold join. rewrite !as_bscurve_ok by (auto; lra). cbn [bind]. rewrite EJ. cbn [bind].
  destruct O1 as (I1 & F1 & G1). destruct O2 as (I2 & F2 & G2). rewrite Dg1 in I1. rewrite Dg2 in I2.
  pose proof (info_gk eps _ _ ltac:(lra) I1) as K1. pose proof (info_gk eps _ _ ltac:(lra) I2) as K2.
  unfold info_of, knots_of, poles_of in K1, K2. cbn [fst snd] in K1, K2.
  pose proof K1 as (KK1 & E1 & S1 & Z1 & T1 & W1). pose proof K2 as (KK2 & E2 & S2 & Z2 & T2 & W2).
  pose proof KK1 as (_ & N1 & _). pose proof KK2 as (_ & N2 & _).
  set (P1 := c_poles d1) in *. set (P2 := c_poles d2) in *. set (k1 := c_knots d1) in *. set (k2 := c_knots d2) in *.
  rewrite (back_nth P1 (fun _ => 0)) by lia. rewrite (front_nth P2 (fun _ => 0)) by lia. cbn [bind].
  set (qa := nth (length P1 - 1) P1 (fun _ => 0)). set (qb := nth 0 P2 (fun _ => 0)).
  assert (Hq : forall c, qa c = qb c).
  { destruct HE as (q1 & q2 & B1 & B2 & B3). intros c.
    destruct H1 as (J1 & A1 & A2). destruct H2 as (J2 & A3 & A4).
    pose proof (info_gk eps _ _ ltac:(lra) J1) as (_ & _ & _ & _ & _ & U1).
    pose proof (info_gk eps _ _ ltac:(lra) J2) as (_ & _ & _ & _ & _ & U2). unfold info_of, knots_of in U1, U2. cbn [fst snd] in U1, U2.
    rewrite (value_guard_eval eps) in B1, B2 by lra.
    destruct (V1 (c_hi c1) 0%nat ltac:(lra)) as (q & Q1 & q' & Q2 & Q3). rewrite B1 in Q1. injection Q1 as <-.
    destruct (V2 (c_lo c2) 0%nat ltac:(lra)) as (r & R1 & r' & R2 & R3). rewrite B2 in R1. injection R1 as <-.
    destruct (eval_value_end eps k1 _ m P1 KK1 eq_refl ltac:(left; lia) E1) as (v & M1 & M2). rewrite T1, <- G1, Hi1 in M1.
    fold k1 P1 in Q2. rewrite Q2 in M1. injection M1 as <-.
    destruct (eval_value_start eps k2 _ m P2 KK2 eq_refl ltac:(left; lia) S2 Z2) as (v & M3 & M4). fold (first_knot k2) in M3. rewrite <- F2, Lo2 in M3.
    fold k2 P2 in R2. rewrite R2 in M3. injection M3 as <-.
    change (qa c) with (polec P1 c (length P1 - 1)). change (qb c) with (polec P2 c 0). rewrite <- M2, <- M4, Q3, R3. apply B3. }
  set (PA := removelast P1 ++ [_]).
  assert (LA : length PA = length P1) by (unfold PA; rewrite app_length, length_removelast; simpl; lia).
  assert (HA : forall c i, True -> (i < length P1)%nat -> pole PA c i = pole P1 c i).
  { intros c i _ Hi. unfold PA, pole. destruct (Nat.eq_dec i (length P1 - 1)) as [->|Ne].
    - rewrite app_nth2 by (rewrite length_removelast; lia). rewrite length_removelast, Nat.sub_diag. cbn [nth].
      unfold pscal, padd. nsimp. rewrite <- Hq. fold qa. lra.
    - rewrite app_nth1 by (rewrite length_removelast; lia). rewrite nth_removelast by lia. reflexivity. }
  rewrite Dg1, Dg2.
  assert (HJ : forall c, True -> pole P1 c (length P1 - 1) = pole P2 c 0) by (intros c _; apply Hq).
  rewrite (finish_ok k1 k2 _ _ m PA P1 P2 K1 K2 ltac:(lia) LA eq_refl eq_refl (fun _ => True) HJ).
  eexists. split; [reflexivity|]. cbn [c_deg c_lo c_hi]. split; [reflexivity|]. split; [congruence|].
  split; [rewrite <- F2, <- G2, <- G1, Hi1, Lo2, Hi2; ring|].
  destruct H1 as (J1 & A1 & A2). destruct H2 as (J2 & A3 & A4).
  split.
  - intros x d Hx.
    assert (Hx' : c_lo c1 <= x <= c_hi c1).
    { pose proof (info_gk eps _ _ ltac:(lra) J1) as (_ & _ & _ & _ & _ & U1). unfold info_of, knots_of in U1. cbn [fst snd] in U1. lra. }
    destruct (V1 x d Hx') as (q & Q1 & q' & Q2 & Q3).
    destruct (finish_first k1 k2 _ _ m PA P1 P2 K1 K2 ltac:(lia) LA eq_refl eq_refl (fun _ => True) HA HJ x d) as (r & r' & R1 & R2 & R3).
    { rewrite <- F1, <- G1, Lo1, Hi1. exact Hx. }
    fold k1 P1 in Q2. rewrite Q2 in R1. injection R1 as <-. exists q, r'.
    split; [rewrite (value_guard_eval eps) by lra; exact Q1|]. split; [|intros i; rewrite R3 by auto; apply Q3].
    rewrite (value_guard_eval eps); [exact R2|]. cbn [c_lo c_hi]. rewrite <- F1, <- G1, <- F2, <- G2, Lo1, Hi1, Lo2, Hi2.
    assert (c_lo c2 < c_hi c2) by (rewrite <- Lo2, <- Hi2, F2, G2; exact W2). lra.
  - intros x d Hx. destruct (V2 x d Hx) as (q & Q1 & q' & Q2 & Q3).
    destruct (finish_second k1 k2 _ _ m PA P1 P2 K1 K2 ltac:(lia) LA eq_refl eq_refl (fun _ => True) HA HJ x d) as (r & r' & R1 & R2 & R3).
    { rewrite <- F2, <- G2, Lo2, Hi2. exact Hx. }
    fold k2 P2 in Q2. rewrite Q2 in R1. injection R1 as <-. exists q, r'.
    split; [rewrite (value_guard_eval eps) by lra; exact Q1|]. split; [|intros i; rewrite R3 by auto; apply Q3].
    rewrite <- G1, <- F2, Hi1, Lo2 in R2. rewrite (value_guard_eval eps); [exact R2|].
    cbn [c_lo c_hi]. rewrite <- F1, <- G1, <- F2, <- G2, Lo1, Hi1, Lo2, Hi2.
    assert (c_lo c1 < c_hi c1) by (rewrite <- Lo1, <- Hi1, F1, G1; exact W1). lra.
Qed.
End AtR.
