(** Lofts of clamped curves. *)
From Coq Require Import List Arith ZArith Reals Lia Lra Bool.
From Verif Require Import Model_Base Model_Knots Model_Math Model_Basis Model_Curve Model_Interp Model_Surface Model_Unify Model_Skin
  Spec_Base Spec_Basis Spec_Eval Spec_Knots Spec_Interp Spec_Surface Spec_Elevate Spec_Unify Spec_Skin Proof_Base Proof_Eval Proof_Curve
  Proof_Elevate2 Proof_Unify Proof_Unify3 Proof_Unify4 Proof_Unify5 Proof_Interp Proof_Interp2 Proof_Interp3 Proof_Interp4 Proof_Surface Proof_SurfEdit
  Proof_Tfi Proof_Skin1 Proof_Skin2 Proof_Skin3 Proof_Skin5.
Import ListNotations.
Local Open Scope R_scope.

Section AtR.
Variable eps : R.
Local Hint Extern 0 (Num R) => exact (NumR eps) : typeclass_instances.

Lemma rescale_ext k0 k k0' k' x : first_knot k0' = first_knot k0 -> last_knot k0' = last_knot k0 ->
  first_knot k' = first_knot k -> last_knot k' = last_knot k -> rescale k0' k' x = rescale k0 k x /\ ratio k0' k' = ratio k0 k.
Proof. intros A B C D. unfold rescale, ratio. rewrite A, B, C, D. auto. Qed.

Lemma nth_error_lt {A} (l : list A) i x : nth_error l i = Some x -> (i < length l)%nat.
Proof. intros H. apply nth_error_Some. congruence. Qed.

(** Lengths and multiplicities. *)
Lemma count_len (k L : list R) : (forall x, (count_occ Req_EM_T k x <= count_occ Req_EM_T L x)%nat) -> (length k <= length L)%nat.
Proof.
  revert L. induction k as [|x k IH]; intros L H; [cbn [length]; lia|].
  assert (Hin : In x L).
  { apply (count_occ_In Req_EM_T). specialize (H x). cbn [count_occ] in H. destruct (Req_EM_T x x); [lia|congruence]. }
  apply in_split in Hin as (l1 & l2 & ->). rewrite app_length. cbn [length].
  assert (length k <= length (l1 ++ l2))%nat.
  { apply IH. intros y. specialize (H y). rewrite count_occ_app in H |- *. cbn [count_occ] in H. destruct (Req_EM_T x y); lia. }
  rewrite app_length in *. lia.
Qed.
Lemma count_copies (L : list R) n x : count_occ Req_EM_T (concat (repeat L n)) x = (n * count_occ Req_EM_T L x)%nat.
Proof. induction n as [|n IH]; cbn [repeat concat]; [reflexivity|]. rewrite count_occ_app, IH. reflexivity. Qed.
Lemma copies_length (L : list R) n : length (concat (repeat L n)) = (n * length L)%nat.
Proof. induction n as [|n IH]; cbn [repeat concat]; [reflexivity|]. rewrite app_length, IH. reflexivity. Qed.
Lemma count_concat (ls : list (list R)) x : (list_max (map (fun l => count_occ Req_EM_T l x) ls) <= count_occ Req_EM_T (concat ls) x)%nat.
Proof. induction ls as [|l ls IH]; cbn; [lia|]. rewrite count_occ_app. fold (list_max (map (fun l => count_occ Req_EM_T l x) ls)). lia. Qed.
Lemma concat_bound {A} (ls : list (list R)) (cs : list A) (g : A -> nat) : length ls = length cs ->
  (forall i l c, nth_error ls i = Some l -> nth_error cs i = Some c -> (length l <= 13 * g c)%nat) ->
  (length (concat ls) <= 13 * list_sum (map g cs))%nat.
Proof.
  revert cs. induction ls as [|l ls IH]; intros [|c cs] L H; try discriminate; [cbn; lia|].
  cbn [concat map list_sum fold_right]. rewrite app_length. fold (list_sum (map g cs)).
  pose proof (H 0%nat l c eq_refl eq_refl). specialize (IH cs (eq_add_S _ _ L) (fun i l c A B => H (S i) l c A B)). lia.
Qed.

Lemma list_max_pos l : (list_max l > 0)%nat -> exists n, In n l /\ (n > 0)%nat.
Proof.
  induction l as [|a l IH]; cbn; intros H; [lia|]. destruct (Nat.eq_dec a 0) as [->|]; [|exists a; split; [left; reflexivity|lia]].
  destruct IH as (n & A & B); [cbn in H; exact H|]. exists n. split; [right; exact A|exact B].
Qed.

(** Unification in degree and knots of clamped curves. *)
Lemma unify_all c0 rest (cs := c0 :: rest) : 0 < eps ->
  (forall c, In c cs -> clamped_info eps (snd c) c /\ (snd c <= 12)%nat) -> knots_apart eps (knots_of c0) cs ->
  let m := list_max (map snd cs) in
  exists k us, (let* cs := unify_degree cs in unify_knots cs) = Ok us /\ length us = length cs /\
    first_knot k = first_knot (knots_of c0) /\ last_knot k = last_knot (knots_of c0) /\ (m <= 12)%nat /\
    (length k <= 13 * list_sum (map (fun c => length (knots_of c)) cs))%nat /\
    (forall x, In x k -> exists c y, In c cs /\ In y (knots_of c) /\ x = rescale (knots_of c0) (knots_of c) y) /\
    forall i c, nth_error cs i = Some c -> exists P', nth_error us i = Some (P', k, m) /\ clamped_info eps m (P', k, m) /\
      (length P' + m + 1 = length k)%nat /\
      forall x d, first_knot (knots_of c) <= x <= last_knot (knots_of c) ->
        first_knot k <= rescale (knots_of c0) (knots_of c) x <= last_knot k /\
        same_value eps (knots_of c) (poles_of c) (snd c) x k P' m (rescale (knots_of c0) (knots_of c) x) (ratio (knots_of c0) (knots_of c)) d.
Proof.
  intros He Hc Ha m.
  destruct (unify_degree_ok eps cs He ltac:(discriminate) Hc) as (cs' & E & L & V). fold m in V.
  destruct (V 0%nat c0 eq_refl) as (P0 & k0 & N0 & C0 & F0 & L0 & _).
  destruct cs' as [|c0' rest']; [discriminate|]. cbn [nth_error] in N0. injection N0 as ->.
  assert (HF : Forall (clamped_info eps m) ((P0, k0, m) :: rest')).
  { apply Forall_forall. intros c' Hc'. apply In_nth_error in Hc' as (i & Hi).
    destruct (nth_error cs i) as [c|] eqn:Ei.
    2:{ apply nth_error_None in Ei. exfalso. apply (Nat.lt_irrefl i). refine (Nat.lt_le_trans _ _ _ _ Ei). rewrite <- L. exact (nth_error_lt _ _ _ Hi). }
    destruct (V i c Ei) as (P' & k' & Hi' & C' & _). pose proof (eq_trans (eq_sym Hi) Hi') as Heq. injection Heq as ->. exact C'. }
  assert (HA : knots_apart eps k0 ((P0, k0, m) :: rest')).
  { intros a b x y Ia Ib Ix Iy. apply In_nth_error in Ia as (i & Hi). apply In_nth_error in Ib as (j & Hj).
    assert (Hl : forall i z, nth_error ((P0, k0, m) :: rest') i = Some z -> exists c, nth_error cs i = Some c).
    { intros i0 z Hz. destruct (nth_error cs i0) eqn:Ez; [eauto|]. apply nth_error_None in Ez.
      exfalso. apply (Nat.lt_irrefl i0). refine (Nat.lt_le_trans _ _ _ _ Ez). rewrite <- L. exact (nth_error_lt _ _ _ Hz). }
    destruct (Hl _ _ Hi) as (c & Ec). destruct (Hl _ _ Hj) as (c' & Ec').
    destruct (V i c Ec) as (Pi & ki & Hi' & _ & Fi & Li & _ & Ii & _). pose proof (eq_trans (eq_sym Hi) Hi') as Heq. injection Heq as ->.
    destruct (V j c' Ec') as (Pj & kj & Hj' & _ & Fj & Lj & _ & Ij & _). pose proof (eq_trans (eq_sym Hj) Hj') as Heq'. injection Heq' as ->.
    change (In x ki) in Ix. change (In y kj) in Iy.
    change (rescale k0 ki x = rescale k0 kj y \/ eps < Rabs (rescale k0 ki x - rescale k0 kj y)).
    destruct (rescale_ext (knots_of c0) (knots_of c) k0 ki x F0 L0 Fi Li) as (-> & _).
    destruct (rescale_ext (knots_of c0) (knots_of c') k0 kj y F0 L0 Fj Lj) as (-> & _).
    apply Ha; [eapply nth_error_In; eauto|eapply nth_error_In; eauto|apply Ii; exact Ix|apply Ij; exact Iy]. }
  destruct (unify_knots_ok eps m P0 k0 rest' He HF HA) as (k & us & E2 & L2 & _ & Fk & Lk & Mk & V2).
  exists k, us. rewrite E. cbn [bind]. split; [exact E2|]. split; [exact (eq_trans L2 L)|]. split; [congruence|]. split; [congruence|].
  split. { unfold m. apply list_max_le, Forall_forall. intros d Hd. apply in_map_iff in Hd as (c & <- & Hin). apply Hc, Hin. }
  split.
  { assert (H12 : (m <= 12)%nat) by (unfold m; apply list_max_le, Forall_forall; intros d Hd; apply in_map_iff in Hd as (c & <- & Hin); apply Hc, Hin).
    set (ls := map (fun c : @info R => map (rescale k0 (knots_of c)) (knots_of c)) ((P0, k0, m) :: rest')).
    apply Nat.le_trans with (length (concat ls)).
    - apply count_len. intros x. etransitivity; [|apply count_concat]. unfold ls. rewrite map_map.
      apply Nat.eq_le_incl. exact (Mk x).
    - apply concat_bound; [unfold ls; rewrite map_length; exact L|]. intros i l c Hl Hi.
      destruct (V i c Hi) as (P' & k' & Hi' & _ & _ & _ & M1 & M2 & _).
      pose proof (map_nth_error (fun c : @info R => map (rescale k0 (knots_of c)) (knots_of c)) _ _ Hi') as Hl'.
      pose proof (eq_trans (eq_sym Hl) Hl') as Heq. injection Heq as ->.
      rewrite map_length. change (length k' <= 13 * length (knots_of c))%nat. rewrite <- copies_length. apply count_len. intros x. rewrite count_copies.
      destruct (in_dec Req_EM_T x k') as [Hx|Hx].
      + rewrite (M1 x (M2 x Hx) : count_occ Req_EM_T k' x = _). pose proof (proj1 (count_occ_In Req_EM_T _ _) (M2 x Hx)). lia.
      + rewrite (proj1 (count_occ_not_In Req_EM_T _ _) Hx). lia. }
  split.
  { intros x Hx. apply (count_occ_In Req_EM_T) in Hx. rewrite (Mk x : count_occ Req_EM_T k x = _) in Hx. unfold max_multiplicity in Hx.
    apply list_max_pos in Hx as (n & Hn & Pn). apply in_map_iff in Hn as (c' & <- & Hc').
    apply (count_occ_In Req_EM_T) in Pn. apply in_map_iff in Pn as (y & <- & Hy).
    apply In_nth_error in Hc' as (i & Hi). destruct (nth_error cs i) as [c|] eqn:Ei.
    2:{ apply nth_error_None in Ei. exfalso. apply (Nat.lt_irrefl i). refine (Nat.lt_le_trans _ _ _ _ Ei). rewrite <- L. exact (nth_error_lt _ _ _ Hi). }
    destruct (V i c Ei) as (Pi & ki & Hi' & _ & Fi & Li & _ & Ii & _). pose proof (eq_trans (eq_sym Hi) Hi') as Heq. injection Heq as ->.
    change (In y ki) in Hy. exists c, y. split; [eapply nth_error_In; eauto|]. split; [apply Ii; exact Hy|].
    change (rescale k0 ki y = rescale (knots_of c0) (knots_of c) y). apply (rescale_ext (knots_of c0) (knots_of c) k0 ki y F0 L0 Fi Li). }
  intros i c Hi. destruct (V i c Hi) as (P1 & k1 & N1 & C1 & F1 & L1 & _ & _ & S1).
  destruct (V2 i _ N1) as (P2 & N2 & Len & C2 & S2). exists P2. split; [exact N2|]. split; [exact C2|]. split; [exact Len|].
  intros x d Hx.
  destruct (rescale_ext (knots_of c0) (knots_of c) k0 k1 x F0 L0 F1 L1) as (Er & Eq).
  assert (Hlt : first_knot (knots_of c) < last_knot (knots_of c)).
  { destruct (info_km eps (snd c) c ltac:(lra) (proj1 (Hc c (nth_error_In _ _ Hi)))) as (km & K1 & _ & K3 & _).
    destruct (fk_first (snd c) km K1) as (G1 & G2). rewrite K3, G1, G2. exact (Proof_Unify2.lo_hi (snd c) km K1). }
  assert (Hlt0 : first_knot k0 < last_knot k0).
  { destruct (info_km eps m (P0, k0, m) ltac:(lra) C0) as (km & K1 & _ & K3 & _). unfold knots_of in K3. cbn [fst snd] in K3.
    destruct (fk_first m km K1) as (G1 & G2). rewrite K3, G1, G2. exact (Proof_Unify2.lo_hi m km K1). }
  split.
  { rewrite Fk, Lk, <- Er. unfold rescale. rewrite F1, L1. unfold Rdiv. rewrite Rmult_assoc. fold (Rdiv (x - first_knot (knots_of c)) (last_knot (knots_of c) - first_knot (knots_of c))).
    assert (0 <= (x - first_knot (knots_of c)) / (last_knot (knots_of c) - first_knot (knots_of c)) <= 1).
    { split; [apply Rmult_le_pos; [lra|apply Rlt_le, Rinv_0_lt_compat; lra]|].
      apply (Rmult_le_reg_r (last_knot (knots_of c) - first_knot (knots_of c))); [lra|]. unfold Rdiv. rewrite Rmult_assoc, Rinv_l by lra. lra. }
    nra. }
  destruct (S1 x d Hx) as (a & b & A1 & A2 & A3).
  destruct (S2 x d) as (b' & z & B1 & B2 & B3).
  { unfold knots_of. cbn [fst snd]. rewrite F1, L1. exact Hx. }
  unfold knots_of in B1, B2, B3. cbn [fst snd] in B1, B2, B3. unfold poles_of in B1. cbn [fst snd] in B1. rewrite A2 in B1. injection B1 as <-.
  exists a, z. split; [exact A1|]. rewrite <- Er, <- Eq. split; [exact B2|]. intros i0. rewrite B3, <- A3, pow1. ring.
Qed.
End AtR.
