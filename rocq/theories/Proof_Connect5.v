(** Extensions of curves to a point, at the end. *)
From Coq Require Import List Arith ZArith Reals Lia Lra Bool Permutation.
From Verif Require Import Model_Base Model_Knots Model_Basis Model_Curve Model_Interp Model_Math Model_Wrap Model_Elevate Model_Unify Model_Connect
  Spec_Base Spec_Basis Spec_Eval Spec_Knots Spec_Class Spec_Interp Spec_Solve Spec_Elevate Spec_Unify Spec_Connect Proof_Base Proof_Blossom Proof_Basis Proof_Ders Proof_Eval
  Proof_PropBasis Proof_Ctor Proof_Builders Proof_Interp Proof_Interp2 Proof_Interp3 Proof_Interp4
  Proof_Elevate2 Proof_Unify Proof_Unify5 Proof_Join2 Proof_SurfEdit2
  Proof_Invariant Proof_Connect1 Proof_Connect2 Proof_Connect3 Proof_Connect4.
Import ListNotations.
Local Open Scope R_scope.

Lemma clamped_two k p (a b : R) : clamped_vector k (p + 1) p a b -> k = repeat_each [a; b] [(p + 1)%nat; (p + 1)%nat].
Proof.
  intros (L & _ & Ha & Hb & _). cbn [repeat_each]. rewrite app_nil_r.
  apply (nth_ext _ _ 0 0); [rewrite app_length, !repeat_length; lia|]. intros i Hi.
  change (nth i (repeat a (p + 1) ++ repeat b (p + 1)) 0) with (kn (repeat a (p + 1) ++ repeat b (p + 1)) i).
  rewrite kn_two by lia. change (nth i k 0) with (kn k i). destruct (Nat.ltb_spec i (p + 1)); [apply Ha; lia|apply Hb; lia].
Qed.
Lemma clamped_three k p (a b : R) : clamped_vector k (p + 2) p a b ->
  k = repeat_each [a; kn k (p + 1); b] [(p + 1)%nat; 1%nat; (p + 1)%nat].
Proof.
  intros (L & _ & Ha & Hb & _). cbn [repeat_each repeat app]. rewrite app_nil_r.
  apply (nth_ext _ _ 0 0); [rewrite app_length; cbn [length]; rewrite !repeat_length; lia|]. intros i Hi.
  change (nth i k 0) with (kn k i). destruct (Nat.lt_ge_cases i (p + 1)) as [H|H].
  - rewrite app_nth1 by (rewrite repeat_length; exact H). rewrite nth_repeat_lt by exact H. apply Ha. lia.
  - rewrite app_nth2, repeat_length by (rewrite repeat_length; exact H).
    destruct (i - (p + 1))%nat as [|j] eqn:E; cbn [nth]; [f_equal; lia|].
    rewrite nth_repeat_lt by lia. apply Hb. lia.
Qed.

Section AtR.
Variable eps : R.
Local Hint Extern 0 (Num R) => exact (NumR eps) : typeclass_instances.

Lemma cont_orders_seq p mc : cont_orders p mc = seq 1 (continuity p mc).
Proof. reflexivity. Qed.
Lemma continuity_le p mc : (continuity p mc <= p - 1)%nat.
Proof. destruct mc; cbn [continuity]; lia. Qed.

Lemma firsts_perm (x y : R) (f : nat -> @cpoint R) l : (forall i, cp_u (f i) = x) ->
  map cp_u (map f l) = repeat x (length l).
Proof. intros H. induction l as [|i l IH]; [reflexivity|]. cbn [map length repeat]. rewrite H, IH. reflexivity. Qed.

Lemma repeat_snoc (x : R) n : repeat x n ++ [x] = repeat x (n + 1).
Proof. rewrite Nat.add_1_r. cbn [repeat]. rewrite repeat_cons. reflexivity. Qed.

Lemma object_of p k P n (a b : R) : clamped_vector k n p a b -> length P = n -> (n = p + 1 \/ n = p + 2)%nat -> (1 <= p)%nat -> a < b ->
  eps * INR p < b - a -> 0 < eps ->
  (forall i, (p < i < n)%nat -> a + (b - a) / INR p <= kn k i <= b - (b - a) / INR p) ->
  clamped_object eps (mk p P k a b).
Proof.
  intros Hc LP Hn Hp Hab Hgap He Hi. pose proof Hc as (Lk & _ & Ha & Hb & _).
  assert (Pp : 1 <= INR p) by (replace 1 with (INR 1) by reflexivity; apply le_INR; lia).
  assert (G : eps < (b - a) / INR p).
  { apply (Rmult_lt_reg_r (INR p)); [lra|]. unfold Rdiv. rewrite Rmult_assoc, Rinv_l by lra. lra. }
  assert (G1 : eps < b - a).
  { apply Rle_lt_trans with (eps * INR p); [|exact Hgap]. rewrite <- (Rmult_1_r eps) at 1. apply Rmult_le_compat_l; lra. }
  split; [|split].
  - split; [reflexivity|]. unfold info_of, knots_of, poles_of. cbn [fst snd c_knots c_poles c_deg].
    destruct Hn as [-> | ->].
    + exists [a; b], [(p + 1)%nat; (p + 1)%nat]. split; [|split; [apply clamped_two; exact Hc|rewrite LP; unfold poles_for, list_sum; cbn [fold_right]; lia]].
      apply (clamped_build eps p a [] b []); [reflexivity| |intros m []].
      intros i Hi'. simpl in Hi'. destruct i as [|i]; [|lia]. unfold kn. simpl. lra.
    + exists [a; kn k (p + 1); b], [(p + 1)%nat; 1%nat; (p + 1)%nat].
      split; [|split; [apply clamped_three; exact Hc|rewrite LP; unfold poles_for, list_sum; cbn [fold_right]; lia]].
      specialize (Hi (p + 1)%nat ltac:(lia)).
      apply (clamped_build eps p a [kn k (p + 1)] b [1%nat]); [reflexivity| |].
      * remember (kn k (p + 1)) as z. clear - Hi G. intros i Hi'. simpl in Hi'. destruct i as [|[|i]]; [| |lia]; unfold kn; simpl; lra.
      * intros m [<-|[]]. lia.
  - cbn [c_lo c_knots]. unfold first_knot. rewrite Ha by lia. reflexivity.
  - cbn [c_hi c_knots]. unfold last_knot. rewrite Hb by lia. reflexivity.
Qed.

Lemma ext_at_ok lu dim c (q : pt R) u u_new (natural : bool) mc (a : nat -> pt R) :
  let p := c_deg c in let m := continuity p mc in
  complete_solver lu -> 0 < eps -> (1 <= p <= 24)%nat -> u < u_new -> curve_jet eps c u m a ->
  exists e, extention_to_point_at lu dim c q u u_new natural mc = Ok e /\ bounds e = (u, u_new) /\ (1 <= c_deg e <= p)%nat /\
    (forall d, (d <= m)%nat -> passes eps dim e u d (a d)) /\ passes eps dim e u_new 0 q /\
    (natural = true -> (2 < p)%nat -> passes eps dim e u_new 2 (fun _ => 0)) /\
    (eps * INR p < u_new - u -> clamped_object eps e).
Proof.
  intros p m Hco He Hp Huu Hj. unfold extention_to_point_at. fold p.
  rewrite (Hj 0%nat) by lia. cbn [bind]. rewrite cont_orders_seq. fold m.
  pose proof (continuity_le p mc) as Hm. fold m in Hm.
  set (f := fun i => mkcp (a i) u i).
  rewrite (mapM_fun _ f).
  2:{ intros i Hi. apply in_seq in Hi. rewrite (Hj i) by lia. reflexivity. }
  cbn [bind]. set (cs0 := map f (seq 1 m)).
  assert (L0 : length cs0 = m) by (unfold cs0; rewrite map_length, seq_length; reflexivity).
  assert (U0 : map cp_u cs0 = repeat u m).
  { unfold cs0. rewrite (firsts_perm u u_new) by reflexivity. rewrite seq_length. reflexivity. }
  assert (I0 : forall d, (1 <= d <= m)%nat -> In (f d) cs0).
  { intros d Hd. unfold cs0. apply in_map, in_seq. lia. }
  assert (Fin : forall B cs, (B = 1 \/ B = 2)%nat -> (B = 2%nat -> (2 <= p)%nat) -> (forall d, (1 <= d <= m)%nat -> In (f d) cs) ->
     length cs = (m + B - 1)%nat ->
     Permutation (map cp_u cs ++ [u; u_new]) (repeat u (m + 1) ++ repeat u_new B) ->
     (B = 1%nat \/ In (mkcp (fun _ => 0) u_new 2%nat) cs) ->
     exists e, interpolate_constraints lu dim u (a 0%nat) u_new q cs (min p (length cs + 1)) = Ok e /\ bounds e = (u, u_new) /\ (1 <= c_deg e <= p)%nat /\
      (forall d, (d <= m)%nat -> passes eps dim e u d (a d)) /\ passes eps dim e u_new 0 q /\
      (In (mkcp (fun _ => 0) u_new 2%nat) cs -> passes eps dim e u_new 2 (fun _ => 0)) /\
      (eps * INR p < u_new - u -> clamped_object eps e)).
  { intros B cs HB HB2 HI Lc Hperm Hnat.
    set (p' := min p (length cs + 1)).
    destruct (two_ends_ok eps lu dim u u_new (a 0%nat) q cs p' (m + 1) B Hco ltac:(lra) Huu) as (k & X & E & LX & Hcl & Hgap & P0 & P1 & Pq).
    - lia.
    - lia.
    - unfold p'. lia.
    - lia.
    - unfold p'. lia.
    - unfold p'. lia.
    - exact Hperm.
    - intros d Hd. exists (f d). split; [apply HI; lia|split; reflexivity].
    - destruct Hnat as [->|Hnat]; [left; intros d Hd; lia|]. destruct HB as [->| ->]; [left; intros d Hd; lia|].
      right. split; [reflexivity|]. split; [unfold p'; specialize (HB2 eq_refl); lia|]. eexists. split; [exact Hnat|split; reflexivity].
    - eexists. split; [exact E|]. split; [reflexivity|]. split; [cbn [c_deg]; unfold p'; lia|]. split; [|split; [exact P1|split]].
      + intros d Hd. destruct d as [|d]; [exact P0|]. exact (Pq _ (HI (S d) ltac:(lia))).
      + intros Hin. exact (Pq _ Hin).
      + intros Hg. apply (object_of p' k _ (m + 1 + B) u u_new Hcl); [apply poles_length| | |exact Huu| |exact He|exact Hgap].
        * unfold p'. specialize (HB2). lia.
        * unfold p'. lia.
        * apply Rle_lt_trans with (eps * INR p); [|exact Hg]. apply Rmult_le_compat_l; [lra|]. apply le_INR. unfold p'. lia. }
  destruct ((2 <? p)%nat && natural) eqn:Enat.
  - apply andb_prop in Enat as (E2 & ->). apply Nat.ltb_lt in E2.
    destruct (Fin 2%nat (cs0 ++ [mkcp pzero u_new 2%nat])) as (e & E & H1 & H2 & H3 & H4 & H5 & H6).
    + auto.
    + lia.
    + intros d Hd. apply in_or_app. left. apply I0; exact Hd.
    + rewrite app_length, L0. simpl. lia.
    + rewrite map_app, U0. cbn [map cp_u]. rewrite <- repeat_snoc, <- !app_assoc. apply Permutation_app_head. cbn [app repeat].
      apply perm_swap.
    + right. apply in_or_app. right. left. reflexivity.
    + exists e. split; [exact E|]. split; [exact H1|]. split; [exact H2|]. split; [exact H3|]. split; [exact H4|]. split; [|exact H6].
      intros _ _. apply H5. apply in_or_app. right. left. reflexivity.
  - destruct (Fin 1%nat cs0) as (e & E & H1 & H2 & H3 & H4 & H5 & H6).
    + auto.
    + lia.
    + exact I0.
    + lia.
    + rewrite U0, <- repeat_snoc, <- app_assoc. apply Permutation_refl.
    + left. reflexivity.
    + exists e. split; [exact E|]. split; [exact H1|]. split; [exact H2|]. split; [exact H3|]. split; [exact H4|]. split; [|exact H6].
      intros Hn Hp2. apply Nat.ltb_lt in Hp2. rewrite Hn, Hp2 in Enat. discriminate.
Qed.

Lemma object_value c x d : 0 < eps -> clamped_object eps c -> (c_deg c <= 24)%nat -> c_lo c <= x <= c_hi c -> exists v, value c x d = Ok v.
Proof.
  intros He (Hi & B1 & B2) Hd Hx. destruct (info_gk eps _ _ ltac:(lra) Hi) as (K & E & S1 & Z & T & W).
  unfold info_of, knots_of, poles_of in *. cbn [fst snd] in *.
  rewrite (value_guard_eval eps) by lra.
  destruct (rv_eval eps _ _ _ K x d (c_poles c)) as (v & Ev & _); [|reflexivity|left; unfold stack_max; lia|eauto].
  unfold inside. rewrite T, (S1 (c_deg c)) by lia. unfold first_knot in B1. lra.
Qed.
Lemma object_lt c : 0 < eps -> clamped_object eps c -> c_lo c < c_hi c.
Proof.
  intros He (Hi & B1 & B2). destruct (info_gk eps _ _ ltac:(lra) Hi) as (K & E & S1 & Z & T & W).
  unfold info_of, knots_of, poles_of in *. cbn [fst snd] in *. lra.
Qed.
Lemma object_jet c x n : 0 < eps -> clamped_object eps c -> (c_deg c <= 24)%nat -> c_lo c <= x <= c_hi c ->
  exists a, curve_jet eps c x n a.
Proof.
  intros He Hc Hd Hx. exists (fun d => match value c x d with Ok v => v | _ => fun _ => 0 end).
  intros d _. destruct (object_value c x d He Hc Hd Hx) as (v & ->). reflexivity.
Qed.


Lemma extended_end_full lu norm dim c (q t e : pt R) (natural : bool) mc :
  let p := c_deg c in let L := norm (psub e q) * (norm (psub e q) / norm t) in
  complete_solver lu -> 0 < eps -> clamped_object eps c -> (1 <= p <= 12)%nat ->
  value c (c_hi c) 0 = Ok e -> value c (c_hi c) 1 = Ok t -> norm t <> 0 -> eps * INR p < L ->
  exists r x, extended_to_point_end lu norm dim c q natural mc = Ok r /\ clamped_object eps r /\ c_deg r = p /\
    c_lo r = c_lo c /\ c_hi r = c_hi c + L /\
    (forall x d, c_lo c <= x < c_hi c \/ x = c_hi c /\ (d <= continuity p mc)%nat -> same_points eps dim c r x x d) /\
    passes eps dim r (c_hi r) 0 q /\
    (natural = true -> (2 < p)%nat -> passes eps dim r (c_hi r) 2 (fun _ => 0)) /\
    clamped_object eps x /\ (c_deg x <= p)%nat /\ c_lo x = c_hi c /\ c_hi x = c_hi c + L /\
    (forall y d, c_lo x <= y <= c_hi x -> same_points eps dim x r y y d).
Proof.
  intros p L Hco He Hc Hp Ee Et Ht HL.
  assert (HL0 : 0 < L) by (pose proof (pos_INR p); pose proof (Rmult_le_pos eps (INR p) ltac:(lra) ltac:(lra)); lra).
  unfold extended_to_point_end, extention_to_point. rewrite Et. cbn [bind]. rewrite Ee. cbn [bind].
  rewrite (divc_ok eps) by exact Ht. cbn [bind]. nsimp. change (c_hi c + _) with (c_hi c + L).
  pose proof (object_lt c He Hc) as Hlt.
  destruct (object_jet c (c_hi c) (continuity p mc) He Hc ltac:(fold p; lia) ltac:(lra)) as (a & Ha).
  destruct (ext_at_ok lu dim c q (c_hi c) (c_hi c + L) natural mc a Hco He ltac:(fold p; lia) ltac:(lra) Ha) as (x & Ex & Bx & Dx & Vx & Qx & Nx & Ox).
  fold p in Dx, Vx, Nx, Ox. rewrite Ex. cbn [bind]. specialize (Ox ltac:(lra)).
  unfold bounds in Bx. injection Bx as Blo Bhi.
  assert (Hmax : max (c_deg c) (c_deg x) = p) by (fold p; lia).
  destruct (join_on eps (fun i => (i < dim)%nat) c x He Hc Ox) as (r & Er & Dr & Lr & Hr & Or & V1 & V2).
  - rewrite Hmax. exact Hp.
  - destruct (Vx 0%nat ltac:(lia)) as (v & Ev & Hv). exists e, v. split; [exact Ee|]. split; [rewrite Blo; exact Ev|].
    intros i Hi. rewrite Hv by exact Hi. assert (Z := Ha 0%nat ltac:(lia)). rewrite Ee in Z. injection Z as <-. reflexivity.
  - exists r, x. split; [exact Er|]. split; [exact Or|]. split; [congruence|]. split; [exact Lr|].
    assert (Hhr : c_hi r = c_hi c + L) by (rewrite Hr, Blo, Bhi; ring). split; [exact Hhr|].
    assert (V2' : forall y d, c_lo x <= y <= c_hi x -> same_points eps dim x r y y d).
    { intros y d Hy. destruct (V2 y d Hy) as (z & z' & Ez & Ez' & Hz). exists z, z'. split; [exact Ez|].
      replace (y + (c_hi c - c_lo x)) with y in Ez' by (rewrite Blo; ring). auto. }
    assert (Pass : forall y d v, c_hi c <= y <= c_hi c + L -> passes eps dim x y d v -> passes eps dim r y d v).
    { intros y d v Hy (w & Ew & Hw). destruct (V2' y d ltac:(lra)) as (z & z' & Ez & Ez' & Hz). rewrite Ew in Ez. injection Ez as <-.
      exists z'. split; [exact Ez'|]. intros i Hi. rewrite Hz by exact Hi. apply Hw, Hi. }
    split; [|split; [|split; [|split; [exact Ox|split; [lia|auto]]]]].
    + intros y d [Hy|(-> & Hd)]; [apply V1; left; exact Hy|].
      destruct (Pass (c_hi c) d (a d) ltac:(lra) (Vx d Hd)) as (v & Ev & Hv). exists (a d), v. split; [apply Ha; exact Hd|]. auto.
    + rewrite Hhr. apply Pass; [lra|exact Qx].
    + intros Hn Hp2. rewrite Hhr. apply Pass; [lra|]. exact (Nx Hn Hp2).
Qed.
End AtR.
