(** Extensions of curves to a point. *)
From Coq Require Import List Arith ZArith Reals Lia Lra Bool Permutation.
From Verif Require Import Model_Base Model_Knots Model_Basis Model_Curve Model_Interp Model_Math Model_Wrap Model_Elevate Model_Unify Model_Connect
  Spec_Base Spec_Basis Spec_Eval Spec_Knots Spec_Class Spec_Interp Spec_Solve Spec_Elevate Spec_Unify Spec_Connect Proof_Base Proof_Blossom Proof_Basis Proof_Ders Proof_Eval
  Proof_PropBasis Proof_Ctor Proof_Builders Proof_Band Proof_Trim Proof_Build2 Proof_Interp Proof_Interp2 Proof_Interp3 Proof_Interp4 Proof_SurfEdit2
  Proof_Elevate2 Proof_Elevate4 Proof_Unify Proof_Unify2 Proof_Unify3 Proof_Unify5 Proof_Join Proof_Join2
  Proof_Invariant Proof_Skin3 Proof_SW2 Proof_Connect1 Proof_Connect2 Proof_Connect3.
Import ListNotations.
Local Open Scope R_scope.

(** ** Clamped knot vectors: joined, mirrored *)
Lemma spaced_strict gap U : 0 <= gap -> spaced gap U -> strictly_increasing U.
Proof.
  intros Hg H i j Hij Hj. induction j as [|j IH]; [lia|].
  specialize (H j Hj). destruct (Nat.eq_dec i j) as [->|]; [lra|]. pose proof (IH ltac:(lia) ltac:(lia)). lra.
Qed.

Lemma map_repeat_each (f : R -> R) U M : map f (repeat_each U M) = repeat_each (map f U) M.
Proof.
  revert M; induction U as [|a U IH]; intros [|m M]; cbn [repeat_each map]; try reflexivity.
  rewrite map_app, IH. f_equal. clear. induction m; cbn [repeat map]; congruence.
Qed.
Lemma rev_repeat (x : R) m : rev (repeat x m) = repeat x m.
Proof.
  induction m as [|m IH]; [reflexivity|]. cbn [repeat rev]. rewrite IH. clear. induction m as [|m IH]; [reflexivity|].
  cbn [repeat app]. rewrite IH. reflexivity.
Qed.
Lemma rev_repeat_each U M : length M = length U -> rev (repeat_each U M) = repeat_each (rev U) (rev M).
Proof.
  revert M; induction U as [|a U IH]; intros [|m M] L; cbn [repeat_each rev] in *; try discriminate; [reflexivity|].
  injection L as L. rewrite rev_app_distr, IH, rev_repeat by exact L.
  rewrite repeat_each_app by (rewrite !rev_length; lia). cbn [repeat_each]. rewrite app_nil_r. reflexivity.
Qed.

Lemma count_re U M i : strictly_increasing U -> length M = length U -> (i < length U)%nat ->
  count_occ Req_EM_T (repeat_each U M) (kn U i) = nth i M 0%nat.
Proof.
  revert M i; induction U as [|a U IH]; intros [|m M] i Hs L Hi; cbn [length] in *; try lia.
  injection L as L.
  assert (Hs' : strictly_increasing U) by (intros x y Hxy Hy; apply (Hs (S x) (S y)); simpl; lia).
  cbn [repeat_each]. rewrite count_occ_app, count_repeat. destruct i as [|i].
  - unfold kn. cbn [nth]. destruct (Req_EM_T a a); [|congruence].
    assert (C : count_occ Req_EM_T (repeat_each U M) a = 0%nat).
    { apply count_occ_not_In. intros H. apply repeat_each_In in H. destruct (In_nth U a 0 H) as (j & Hj & E).
      specialize (Hs 0%nat (S j) ltac:(lia) ltac:(simpl; lia)). unfold kn in Hs. simpl in Hs. lra. }
    lia.
  - change (kn (a :: U) (S i)) with (kn U i). cbn [nth].
    destruct (Req_EM_T a (kn U i)) as [E|_]; [|apply IH; auto; lia].
    specialize (Hs 0%nat (S i) ltac:(lia) ltac:(simpl; lia)). unfold kn in *. simpl in Hs. lra.
Qed.

Lemma clamped_split gap p U M : clamped_knots gap p U M ->
  exists a V b N, U = a :: V ++ [b] /\ M = (p + 1)%nat :: N ++ [(p + 1)%nat] /\ length N = length V /\
    spaced gap U /\ forall n, In n N -> (1 <= n <= p)%nat.
Proof.
  intros (L & H2 & Hs & M0 & M1 & Mi).
  destruct U as [|a U]; [simpl in H2; lia|]. destruct M as [|m M]; [discriminate|].
  cbn [length] in *. destruct (exists_last (l := U)) as (V & b & ->); [intros ->; simpl in H2; lia|].
  destruct (exists_last (l := M)) as (N & n & ->); [intros ->; rewrite app_length in L; simpl in L; lia|].
  rewrite !app_length in *. cbn [length] in *.
  assert (LN : length N = length V) by lia.
  cbn [nth] in M0. subst m. replace (S (length V + 1) - 1)%nat with (S (length N)) in M1 by lia. cbn [nth] in M1.
  rewrite app_nth2, Nat.sub_diag in M1 by lia. cbn [nth] in M1. subst n.
  exists a, V, b, N. repeat split; auto.
  - destruct (In_nth N n 0%nat H) as (i & Hi & E). specialize (Mi (S i) ltac:(lia)). cbn [nth] in Mi.
    rewrite app_nth1 in Mi by exact Hi. lia.
  - destruct (In_nth N n 0%nat H) as (i & Hi & E). specialize (Mi (S i) ltac:(lia)). cbn [nth] in Mi.
    rewrite app_nth1 in Mi by exact Hi. lia.
Qed.
Lemma clamped_build gap p a V b N : length N = length V -> spaced gap (a :: V ++ [b]) -> (forall n, In n N -> (1 <= n <= p)%nat) ->
  clamped_knots gap p (a :: V ++ [b]) ((p + 1)%nat :: N ++ [(p + 1)%nat]).
Proof.
  intros L Hs HN. split; [cbn [length]; rewrite !app_length; simpl; lia|].
  split; [cbn [length]; rewrite app_length; simpl; lia|]. split; [exact Hs|]. split; [reflexivity|].
  cbn [length]. rewrite app_length. cbn [length]. split.
  - replace (S (length V + 1) - 1)%nat with (S (length N)) by lia. cbn [nth]. rewrite app_nth2, Nat.sub_diag by lia. reflexivity.
  - intros [|i] Hi; [lia|]. cbn [nth]. rewrite app_nth1 by lia. apply HN, nth_In. lia.
Qed.

Lemma spaced_app gap A x B : spaced gap (A ++ [x]) -> spaced gap (x :: B) -> spaced gap (A ++ x :: B).
Proof.
  intros H1 H2 i Hi. rewrite app_length in Hi. cbn [length] in Hi. unfold kn.
  destruct (Nat.lt_ge_cases (S i) (length A)) as [H|H].
  - specialize (H1 i ltac:(rewrite app_length; simpl; lia)). unfold kn in H1. rewrite !app_nth1 in * by lia. exact H1.
  - destruct (Nat.eq_dec (S i) (length A)) as [E|E].
    + specialize (H1 i ltac:(rewrite app_length; simpl; lia)). unfold kn in H1.
      rewrite (app_nth1 A [x] 0 (n := i)) in H1 by lia. rewrite (app_nth2 A [x] 0 (n := S i)) in H1 by lia.
      rewrite (app_nth1 A (x :: B) 0 (n := i)) by lia. rewrite (app_nth2 A (x :: B) 0 (n := S i)) by lia.
      rewrite E, Nat.sub_diag in *. exact H1.
    + specialize (H2 (i - length A)%nat ltac:(simpl; lia)). unfold kn in H2. rewrite !app_nth2 by lia.
      replace (S i - length A)%nat with (S (i - length A)) by lia. exact H2.
Qed.
Lemma spaced_map_shift gap s U : spaced gap U -> spaced gap (map (fun x => x + s) U).
Proof.
  intros H i Hi. rewrite map_length in Hi. specialize (H i Hi). unfold kn in *.
  rewrite !(nth_indep (map _ _) 0 (0 + s)) by (rewrite map_length; lia). rewrite !(map_nth (fun x => x + s)). lra.
Qed.
Lemma spaced_tail gap a U : spaced gap (a :: U) -> spaced gap U.
Proof. intros H i Hi. exact (H (S i) ltac:(simpl; lia)). Qed.
Lemma removelast_repeat (x : R) m : removelast (repeat x (m + 1)) = repeat x m.
Proof. rewrite Nat.add_1_r. cbn [repeat]. rewrite repeat_cons. apply removelast_last. Qed.

Lemma list_sum_cons n l : list_sum (n :: l) = (n + list_sum l)%nat.
Proof. reflexivity. Qed.

Lemma joined_clamped gap p U1 M1 U2 M2 : clamped_knots gap p U1 M1 -> clamped_knots gap p U2 M2 -> (1 <= p)%nat ->
  let s := kn U1 (length U1 - 1) - kn U2 0 in
  exists U M, clamped_knots gap p U M /\
    removelast (repeat_each U1 M1) ++ skipn (p + 1) (map (fun x => x + s) (repeat_each U2 M2)) = repeat_each U M /\
    (poles_for p M + 1 = poles_for p M1 + poles_for p M2)%nat /\ kn U 0 = kn U1 0.
Proof.
  intros H1 H2 Hp s.
  destruct (clamped_split _ _ _ _ H1) as (a1 & V1 & b1 & N1 & -> & -> & L1 & S1 & B1).
  destruct (clamped_split _ _ _ _ H2) as (a2 & V2 & b2 & N2 & -> & -> & L2 & S2 & B2).
  assert (Es : a2 + s = b1).
  { unfold s, kn. cbn [nth length]. rewrite app_length. cbn [length].
    replace (S (length V1 + 1) - 1)%nat with (S (length V1)) by lia. cbn [nth]. rewrite app_nth2, Nat.sub_diag by lia. cbn [nth]. ring. }
  clearbody s.
  exists (a1 :: (V1 ++ b1 :: map (fun x => x + s) V2) ++ [b2 + s]), ((p + 1)%nat :: (N1 ++ p :: N2) ++ [(p + 1)%nat]).
  split; [|split; [|split]].
  - apply clamped_build.
    + rewrite !app_length. cbn [length]. rewrite map_length. lia.
    + rewrite <- app_assoc. cbn [app]. change (spaced gap ((a1 :: V1) ++ b1 :: (map (fun x => x + s) V2 ++ [b2 + s]))).
      apply spaced_app; [exact S1|]. apply (spaced_map_shift gap s) in S2. cbn [map] in S2. rewrite map_app, Es in S2. exact S2.
    + intros n Hn. apply in_app_or in Hn as [Hn|[<-|Hn]]; [apply B1; exact Hn|lia|apply B2; exact Hn].
  - cbn [repeat_each]. rewrite !repeat_each_app by (rewrite ?app_length; cbn [length]; rewrite ?map_length; lia).
    cbn [repeat_each]. rewrite !app_nil_r, !map_app, map_repeat_each.
    assert (Hr : forall x m, map (fun x => x + s) (repeat x m) = repeat (x + s) m).
    { intros x m. clear. induction m; cbn [repeat map]; congruence. }
    rewrite !Hr.
    rewrite skipn_app, repeat_length, Nat.sub_diag. rewrite skipn_all2 by (rewrite repeat_length; lia).
    cbn [skipn app]. rewrite !app_assoc.
    rewrite removelast_app by (rewrite Nat.add_1_r; discriminate). rewrite removelast_repeat. rewrite <- !app_assoc. reflexivity.
  - unfold poles_for. rewrite !list_sum_cons, !list_sum_app, !list_sum_cons. change (list_sum []) with 0%nat. lia.
  - reflexivity.
Qed.

Lemma mirrored_clamped gap p U M s : clamped_knots gap p U M ->
  let U' := map (fun x => s - x) (rev U) in
  clamped_knots gap p U' (rev M) /\ map (fun x => s - x) (rev (repeat_each U M)) = repeat_each U' (rev M) /\
  poles_for p (rev M) = poles_for p M.
Proof.
  intros H U'. assert (L : length M = length U) by apply H. split; [|split].
  - destruct (clamped_split _ _ _ _ H) as (a & V & b & N & EU & EM & LN & Sp & B). unfold U'. rewrite EU, EM.
    cbn [rev]. rewrite !rev_app_distr. cbn [rev app]. cbn [map]. rewrite map_app. cbn [map].
    apply clamped_build.
    + rewrite map_length, !rev_length. exact LN.
    + rewrite EU in Sp. intros i Hi.
      replace (s - b :: map (fun x => s - x) (rev V) ++ [s - a]) with (map (fun x => s - x) (rev (a :: V ++ [b]))) in *
        by (cbn [rev]; rewrite rev_app_distr; cbn [rev app map]; rewrite map_app; reflexivity).
      rewrite map_length, rev_length in Hi. set (W := a :: V ++ [b]) in *.
      specialize (Sp (length W - S (S i))%nat ltac:(lia)). unfold kn in *.
      rewrite !(nth_indep (map _ _) 0 (s - 0)) by (rewrite map_length, rev_length; lia). rewrite !(map_nth (fun x => s - x)).
      rewrite !rev_nth by lia. replace (S (length W - S (S i))) with (length W - S i)%nat in Sp by lia. lra.
    + intros n Hn. apply B, in_rev, Hn.
  - rewrite rev_repeat_each by exact L. apply map_repeat_each.
  - unfold poles_for. f_equal. f_equal. clear. induction M as [|m M IH]; [reflexivity|].
    cbn [rev]. rewrite list_sum_app, IH. unfold list_sum. cbn [fold_right]. lia.
Qed.

Section AtR.
Variable eps : R.
Local Hint Extern 0 (Num R) => exact (NumR eps) : typeclass_instances.

(** join of curves whose ends agree on some coordinates *)
Lemma join_on (D : nat -> Prop) c1 c2 : 0 < eps -> clamped_object eps c1 -> clamped_object eps c2 ->
  (1 <= max (c_deg c1) (c_deg c2) <= 12)%nat ->
  (exists q1 q2, value c1 (c_hi c1) 0 = Ok q1 /\ value c2 (c_lo c2) 0 = Ok q2 /\ forall i, D i -> q1 i = q2 i) ->
  exists c, join c1 c2 = Ok c /\ c_deg c = max (c_deg c1) (c_deg c2) /\
    c_lo c = c_lo c1 /\ c_hi c = c_hi c1 + (c_hi c2 - c_lo c2) /\ clamped_object eps c /\
    (forall x d, c_lo c1 <= x < c_hi c1 \/ (x = c_hi c1 /\ d = 0%nat) ->
       exists q q', value c1 x d = Ok q /\ value c x d = Ok q' /\ forall i, D i -> q' i = q i) /\
    (forall x d, c_lo c2 <= x <= c_hi c2 ->
       exists q q', value c2 x d = Ok q /\ value c (x + (c_hi c1 - c_lo c2)) d = Ok q' /\ forall i, D i -> q' i = q i).
Proof.
  intros He H1 H2 Hm HE. set (m := max (c_deg c1) (c_deg c2)) in *.
  destruct (join_pair_ok eps c1 c2 He H1 H2 ltac:(lia) ltac:(lia)) as (d1 & d2 & EJ & X1 & X2). fold m in X1, X2.
  destruct (elevate_one eps c1 m He H1 ltac:(lia)) as (e1 & Y1 & O1 & Dg1 & Lo1 & Hi1 & V1). rewrite X1 in Y1. injection Y1 as <-.
  destruct (elevate_one eps c2 m He H2 ltac:(lia)) as (e2 & Y2 & O2 & Dg2 & Lo2 & Hi2 & V2). rewrite X2 in Y2. injection Y2 as <-.
  unfold join. rewrite !(as_bscurve_ok eps) by (auto; lra). cbn [bind]. rewrite EJ. cbn [bind].
  destruct O1 as (I1 & F1 & G1). destruct O2 as (I2 & F2 & G2). rewrite Dg1 in I1. rewrite Dg2 in I2.
  pose proof (info_gk eps _ _ ltac:(lra) I1) as K1. pose proof (info_gk eps _ _ ltac:(lra) I2) as K2.
  unfold info_of, knots_of, poles_of in K1, K2. cbn [fst snd] in K1, K2.
  pose proof K1 as (KK1 & E1 & S1 & Z1 & T1 & W1). pose proof K2 as (KK2 & E2 & S2 & Z2 & T2 & W2).
  pose proof KK1 as (_ & N1 & _). pose proof KK2 as (_ & N2 & _).
  set (P1 := c_poles d1) in *. set (P2 := c_poles d2) in *. set (k1 := c_knots d1) in *. set (k2 := c_knots d2) in *.
  rewrite (back_nth P1 (fun _ => 0)) by lia. rewrite (front_nth P2 (fun _ => 0)) by lia. cbn [bind].
  set (qa := nth (length P1 - 1) P1 (fun _ => 0)). set (qb := nth 0 P2 (fun _ => 0)).
  assert (Hq : forall c, D c -> qa c = qb c).
  { destruct HE as (q1 & q2 & B1 & B2 & B3). intros c HD.
    destruct H1 as (J1 & A1 & A2). destruct H2 as (J2 & A3 & A4).
    pose proof (info_gk eps _ _ ltac:(lra) J1) as (_ & _ & _ & _ & _ & U1).
    pose proof (info_gk eps _ _ ltac:(lra) J2) as (_ & _ & _ & _ & _ & U2). unfold info_of, knots_of in U1, U2. cbn [fst snd] in U1, U2.
    rewrite (value_guard_eval eps) in B1, B2 by lra.
    destruct (V1 (c_hi c1) 0%nat ltac:(lra)) as (q & Q1 & q' & Q2 & Q3). rewrite B1 in Q1. injection Q1 as <-.
    destruct (V2 (c_lo c2) 0%nat ltac:(lra)) as (r & R1 & r' & R2 & R3). rewrite B2 in R1. injection R1 as <-.
    destruct (eval_value_end eps k1 _ m P1 KK1 eq_refl ltac:(left; lia) E1) as (v & M1 & M2). rewrite T1, <- G1, Hi1 in M1.
    fold k1 P1 in Q2. rewrite Q2 in M1. injection M1 as <-.
    destruct (eval_value_start eps k2 _ m P2 KK2 eq_refl ltac:(left; lia) S2 Z2) as (v & M3 & M4). fold (first_knot k2) in M3. rewrite <- F2, Lo2 in M3.
    fold k2 P2 in R2. rewrite R2 in M3. injection M3 as <-.
    change (qa c) with (polec P1 c (length P1 - 1)). change (qb c) with (polec P2 c 0). rewrite <- M2, <- M4, Q3, R3. apply B3, HD. }
  set (PA := removelast P1 ++ [_]).
  assert (LA : length PA = length P1) by (unfold PA; rewrite app_length, length_removelast; simpl; lia).
  assert (HA : forall c i, D c -> (i < length P1)%nat -> pole PA c i = pole P1 c i).
  { intros c i HD Hi. unfold PA, pole. destruct (Nat.eq_dec i (length P1 - 1)) as [->|Ne].
    - rewrite app_nth2 by (rewrite length_removelast; lia). rewrite length_removelast, Nat.sub_diag. cbn [nth].
      unfold pscal, padd. nsimp. rewrite <- Hq by exact HD. fold qa. lra.
    - rewrite app_nth1 by (rewrite length_removelast; lia). rewrite nth_removelast by lia. reflexivity. }
  rewrite Dg1, Dg2.
  assert (HJ : forall c, D c -> pole P1 c (length P1 - 1) = pole P2 c 0) by (intros c HD; apply Hq, HD).
  rewrite (finish_ok eps k1 k2 _ _ m PA P1 P2 K1 K2 ltac:(lia) LA eq_refl eq_refl D HJ).
  eexists. split; [reflexivity|]. cbn [c_deg c_lo c_hi]. split; [reflexivity|]. split; [congruence|].
  split; [rewrite <- F2, <- G2, <- G1, Hi1, Lo2, Hi2; ring|].
  destruct H1 as (J1 & A1 & A2). destruct H2 as (J2 & A3 & A4).
  split; [|split].
  - destruct I1 as (_ & U1 & M1 & C1 & Ek1 & Lp1). destruct I2 as (_ & U2 & M2 & C2 & Ek2 & Lp2).
    unfold info_of, knots_of, poles_of in Ek1, Lp1, Ek2, Lp2. cbn [fst snd] in Ek1, Lp1, Ek2, Lp2.
    change (c_poles d1) with P1 in Lp1. change (c_poles d2) with P2 in Lp2.
    change (c_knots d1) with k1 in Ek1. change (c_knots d2) with k2 in Ek2.
    pose proof (re_ends m U1 M1 (ck_ckn eps m U1 M1 ltac:(lra) C1)) as (RA1 & RB1). rewrite <- Ek1 in RA1, RB1.
    pose proof (re_ends m U2 M2 (ck_ckn eps m U2 M2 ltac:(lra) C2)) as (RA2 & RB2). rewrite <- Ek2 in RA2, RB2.
    destruct (joined_clamped eps m U1 M1 U2 M2 C1 C2 ltac:(lia)) as (U & M & CU & EU & LU & FU).
    pose proof (finish_len k2 (length P1) (length P2) m PA P1 P2 K2 Hm LA eq_refl eq_refl D HJ) as LP.
    assert (EJk : joined k1 k2 (length P1) m = repeat_each U M).
    { rewrite <- EU, <- Ek1, <- Ek2. unfold joined. f_equal. f_equal. apply map_ext. intros x.
      rewrite T1, RB1. fold (first_knot k2). rewrite RA2. ring. }
    split; [|split].
    + cbn [c_deg]. split; [reflexivity|]. exists U, M. split; [exact CU|]. unfold info_of, knots_of, poles_of. cbn [fst snd c_knots c_poles].
      split; [exact EJk|]. rewrite LP. lia.
    + cbn [c_lo c_knots]. rewrite EJk. rewrite (proj1 (re_ends m U M (ck_ckn eps m U M ltac:(lra) CU))), FU, RA1. reflexivity.
    + cbn [c_hi c_knots].
      destruct (joined_dom k1 k2 _ _ m KK1 KK2 ltac:(lia) E1 S2) as (D1 & D2).
      pose proof (info_gk eps m (PA ++ tl P2, joined k1 k2 (length P1) m, m) ltac:(lra)) as G.
      destruct G as (_ & _ & _ & _ & TT & _).
      { split; [reflexivity|]. exists U, M. unfold knots_of, poles_of. cbn [fst snd]. split; [exact CU|]. split; [exact EJk|]. rewrite LP. lia. }
      unfold knots_of, poles_of in TT. cbn [fst snd] in TT. rewrite LP in TT. rewrite <- TT, D2, T1, T2. unfold first_knot. ring.
  - intros x d Hx.
    assert (Hx' : c_lo c1 <= x <= c_hi c1).
    { pose proof (info_gk eps _ _ ltac:(lra) J1) as (_ & _ & _ & _ & _ & U1). unfold info_of, knots_of in U1. cbn [fst snd] in U1. lra. }
    destruct (V1 x d Hx') as (q & Q1 & q' & Q2 & Q3).
    destruct (finish_first eps k1 k2 _ _ m PA P1 P2 K1 K2 ltac:(lia) LA eq_refl eq_refl D HA HJ x d) as (r & r' & R1 & R2 & R3).
    { rewrite <- F1, <- G1, Lo1, Hi1. exact Hx. }
    fold k1 P1 in Q2. rewrite Q2 in R1. injection R1 as <-. exists q, r'.
    split; [rewrite (value_guard_eval eps) by lra; exact Q1|]. split; [|intros i HD; rewrite R3 by auto; apply Q3].
    rewrite (value_guard_eval eps); [exact R2|]. cbn [c_lo c_hi]. rewrite <- F1, <- G1, <- F2, <- G2, Lo1, Hi1, Lo2, Hi2.
    assert (c_lo c2 < c_hi c2) by (rewrite <- Lo2, <- Hi2, F2, G2; exact W2). lra.
  - intros x d Hx. destruct (V2 x d Hx) as (q & Q1 & q' & Q2 & Q3).
    destruct (finish_second eps k1 k2 _ _ m PA P1 P2 K1 K2 ltac:(lia) LA eq_refl eq_refl D HA HJ x d) as (r & r' & R1 & R2 & R3).
    { rewrite <- F2, <- G2, Lo2, Hi2. exact Hx. }
    fold k2 P2 in Q2. rewrite Q2 in R1. injection R1 as <-. exists q, r'.
    split; [rewrite (value_guard_eval eps) by lra; exact Q1|]. split; [|intros i HD; rewrite R3 by auto; apply Q3].
    rewrite <- G1, <- F2, Hi1, Lo2 in R2. rewrite (value_guard_eval eps); [exact R2|].
    cbn [c_lo c_hi]. rewrite <- F1, <- G1, <- F2, <- G2, Lo1, Hi1, Lo2, Hi2.
    assert (c_lo c1 < c_hi c1) by (rewrite <- Lo1, <- Hi1, F1, G1; exact W1). lra.
Qed.
End AtR.
