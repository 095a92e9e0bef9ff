(** The class invariant through histories that raise the degree. *)
From Coq Require Import List Arith Reals Lia Lra.
From Verif Require Import Model_Base Model_Curve Model_Elevate Spec_Base Spec_Basis Spec_Eval Spec_Knots Spec_Class Spec_Elevate Spec_History
  Proof_Base Proof_Basis Proof_Builders Proof_Invariant Proof_Elevate2 Proof_Elevate4 Proof_Elevate5 Proof_Elevate6 Proof_Connect4 Proof_Curve.
Import ListNotations.
Local Open Scope R_scope.

Lemma runs eps k : nondecreasing k -> separated eps k -> exists U M, k = repeat_each U M /\ length M = length U /\ spaced eps U /\
  (forall i, (i < length U)%nat -> (1 <= nth i M 0)%nat).
Proof.
  induction k as [|x k IH]; intros ND SP.
  - exists [], []. split; [reflexivity|]. split; [reflexivity|]. split; [intros i Hi; cbn in Hi; lia|]. intros i Hi; cbn in Hi; lia.
  - destruct IH as (U & M & E & L & S & P).
    { intros i j Hij Hj. apply (ND (Datatypes.S i) (Datatypes.S j)); cbn [length]; lia. }
    { intros i j Hij Hj. apply (SP (Datatypes.S i) (Datatypes.S j)); cbn [length]; lia. }
    destruct U as [|u U].
    + destruct M; [|discriminate]. cbn in E. subst k. exists [x], [1%nat]. split; [reflexivity|]. split; [reflexivity|].
      split; [intros i Hi; cbn in Hi; lia|]. intros [|i] Hi; cbn in *; lia.
    + destruct M as [|m M]; [discriminate|]. pose proof (P 0%nat ltac:(cbn; lia)) as P0. cbn [nth] in P0. destruct m as [|m]; [lia|].
      assert (K0 : kn k 0 = u) by (rewrite E; reflexivity).
      assert (LK : (1 < length (x :: k))%nat) by (rewrite E; cbn; lia).
      destruct (SP 0%nat 1%nat ltac:(lia) LK) as [Q|Q]; unfold kn in Q; cbn [nth] in Q; fold (kn k 0) in Q; rewrite K0 in Q.
      * exists (u :: U), (Datatypes.S (Datatypes.S m) :: M). split; [rewrite E, Q; reflexivity|]. split; [exact L|]. split; [exact S|].
        intros [|i] Hi; [cbn; lia|]. apply (P (Datatypes.S i) Hi).
      * exists (x :: u :: U), (1%nat :: Datatypes.S m :: M). split; [rewrite E; reflexivity|]. split; [cbn in *; lia|]. split.
        -- intros [|i] Hi; [unfold kn; cbn; lra|]. apply (S i). cbn in *. lia.
        -- intros [|i] Hi; [cbn; lia|]. apply (P i). cbn in *. lia.
Qed.
Lemma kv_clamped eps k p lo hi : 0 < eps -> separated eps k -> kv k p lo hi -> exists U M, k = repeat_each U M /\ clamped_knots eps p U M.
Proof.
  intros He SP (ND & P1 & LT & IN & C1 & C2 & CI). destruct (runs eps k ND SP) as (U & M & E & L & S & P). exists U, M. split; [exact E|].
  pose proof (spaced_inc eps U ltac:(lra) S) as SI.
  assert (INU : forall i, (i < length U)%nat -> lo <= kn U i <= hi).
  { intros i Hi. apply IN. apply (count_occ_In Req_EM_T). rewrite E, count_re by auto. specialize (P i Hi). lia. }
  assert (AT : forall x, In x k -> exists i, (i < length U)%nat /\ kn U i = x).
  { intros x Hx. rewrite E in Hx. apply repeat_each_In in Hx. apply (In_nth _ _ 0) in Hx as (i & Hi & <-). exists i. auto. }
  destruct (AT lo) as (i0 & Hi0 & E0). { apply cnt_In. lia. }
  destruct (AT hi) as (i1 & Hi1 & E1). { apply cnt_In. lia. }
  assert (Z0 : i0 = 0%nat).
  { destruct (Nat.eq_dec i0 0) as [|N]; auto. exfalso. pose proof (SI 0%nat i0 ltac:(lia) Hi0). pose proof (INU 0%nat ltac:(lia)). lra. }
  assert (Z1 : i1 = (length U - 1)%nat).
  { destruct (Nat.eq_dec i1 (length U - 1)) as [|N]; auto. exfalso. pose proof (SI i1 (length U - 1)%nat ltac:(lia) ltac:(lia)). pose proof (INU (length U - 1)%nat ltac:(lia)). lra. }
  subst i0 i1. assert (L2 : (2 <= length U)%nat).
  { destruct (Nat.eq_dec (length U - 1) 0) as [Z|]; [|lia]. rewrite Z in E1. lra. }
  split; [exact L|]. split; [exact L2|]. split; [exact S|]. rewrite E in C1, C2, CI. rewrite <- E0, count_re in C1 by auto. rewrite <- E1, count_re in C2 by (auto; lia).
  split; [exact C1|]. split; [exact C2|]. intros i Hi. split; [apply P; lia|]. rewrite <- (count_re U M i) by (auto; lia). apply CI.
  rewrite <- E0, <- E1. split; apply SI; lia.
Qed.
Lemma clamped_kv p U M : (1 <= p)%nat -> ckn p U M -> kv (repeat_each U M) p (kn U 0) (kn U (length U - 1)).
Proof.
  intros P1 (L & L2 & SI & M0 & M1 & MI). split; [now apply repeat_each_nondec|]. split; [exact P1|]. split; [apply SI; lia|].
  assert (AT : forall x, In x (repeat_each U M) -> exists i, (i < length U)%nat /\ kn U i = x).
  { intros x Hx. apply repeat_each_In in Hx. apply (In_nth _ _ 0) in Hx as (i & Hi & <-). exists i. auto. }
  split.
  { intros x Hx. destruct (AT x Hx) as (i & Hi & <-). split.
    - destruct (Nat.eq_dec i 0) as [->|]; [lra|]. apply Rlt_le, SI; lia.
    - destruct (Nat.eq_dec i (length U - 1)) as [->|]; [lra|]. apply Rlt_le, SI; lia. }
  split; [rewrite count_re by (auto; lia); exact M0|]. split; [rewrite count_re by (auto; lia); exact M1|].
  intros x Hx. destruct (count_occ Req_EM_T (repeat_each U M) x) as [|n] eqn:Q; [lia|].
  destruct (AT x) as (i & Hi & <-). { apply (count_occ_In Req_EM_T). lia. }
  rewrite count_re in Q by auto. destruct (Nat.eq_dec i 0) as [->|]; [lra|]. destruct (Nat.eq_dec i (length U - 1)) as [->|]; [lra|].
  pose proof (MI i ltac:(lia)). lia.
Qed.
Lemma std_increase eps c t c' : 0 < eps -> standard c -> separated eps (c_knots c) -> (c_deg c + t <= 12)%nat ->
  @increaseDegree R (NumR eps) c t = Ok c' -> standard c'.
Proof.
  intros He ST SP H12 E. apply standard_kv in ST as (LK & lo & hi & K). destruct (kv_clamped eps _ _ _ _ He SP K) as (U & M & EK & CK).
  pose proof K as (_ & P1 & _). pose proof (ck_ckn eps _ U M ltac:(lra) CK) as CN. pose proof CN as (L & L2 & _).
  assert (LP : length (c_poles c) = poles_for (c_deg c) M).
  { unfold poles_for. rewrite <- (re_length U M L), <- EK. unfold c_n in LK. lia. }
  destruct (increase_degree_ok eps (c_deg c) t U M (c_poles c) He CK LP H12) as (P' & EI & CN' & LP' & _).
  unfold increaseDegree in E. rewrite EK in E. rewrite EI in E. cbn [bind] in E. injection E as <-. apply standard_kv. unfold c_n. cbn [c_knots c_poles c_deg].
  split.
  - pose proof (ck_n _ _ _ CN') as N. pose proof CN' as (L' & _). rewrite (re_length U _ L'), LP'. unfold poles_for.
    assert (G : (c_deg c + t + 1 <= list_sum (map (Nat.add t) M))%nat).
    { destruct CN' as (_ & _ & _ & M0 & _). rewrite <- M0. destruct (map (Nat.add t) M) as [|m M']; [cbn in L'; lia|]. cbn. lia. }
    lia.
  - eexists _, _. apply clamped_kv; [lia|exact CN'].
Qed.
Lemma calls_inv eps c l c' : 0 < eps -> standard c -> calls eps c l c' -> standard c' /\ shape_ok c' /\ well_formed c'.
Proof.
  intros He ST H. assert (S : standard c').
  { induction H as [|l c1 a c2 H IH MF R]; auto. destruct a as [o|t]; cbn [run_call meaningful] in *.
    - apply (history_standard eps ltac:(assumption) c1 ([] ++ [o]) c2 IH). econstructor; eauto. constructor.
    - destruct MF as (SP & H12). now apply (std_increase eps c1 t c2). }
  split; [exact S|]. split; [apply S|]. apply standard_wf. exact S.
Qed.

Lemma lit_calls : standard lit_curve /\ exists c', calls (1 / 10) lit_curve [Increase 1; Basic Reverse] c' /\ c_deg c' = 3%nat.
Proof.
  destruct lit_curve_ok as (He & CK & EK & D & LP & NB & H12). rewrite <- D in CK, LP, H12.
  assert (ST : standard lit_curve).
  { apply standard_kv. pose proof (ck_ckn (1 / 10) _ _ _ ltac:(lra) CK) as CN. split.
    - rewrite EK. unfold c_n. rewrite LP. reflexivity.
    - rewrite EK. eexists _, _. apply clamped_kv; [rewrite D; lia|exact CN]. }
  split; [exact ST|].
  destruct (curve_statement (1 / 10) lit_curve 1 _ _ He EK CK LP NB H12) as (c1 & E1 & D1 & K1 & L1 & _ & _ & NB1 & _).
  assert (SP : separated (1 / 10) (c_knots lit_curve)).
  { intros i j Hij Hj. cbn in Hj. do 7 (destruct j as [|j]; [do 7 (destruct i as [|i]; [cbn; try lia; first [left; reflexivity|right; lra]|]); lia|]). lia. }
  assert (C1 : calls (1 / 10) lit_curve ([] ++ [Increase 1]) c1) by (econstructor; [constructor|split; [exact SP|exact H12]|exact E1]).
  destruct (calls_inv (1 / 10) lit_curve _ c1 He ST C1) as (_ & _ & WF).
  destruct (reverse_prop (1 / 10) c1 ltac:(lra) WF NB1) as (c2 & E2 & D2).
  exists c2. split; [apply (one_more (1 / 10) lit_curve [Increase 1] c1 (Basic Reverse) c2 C1 I E2)|]. destruct D2 as (_ & D2 & _). rewrite D2, D1, D. reflexivity.
Qed.
