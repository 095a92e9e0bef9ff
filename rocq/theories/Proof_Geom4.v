(** The test of a point against the boundary of a set of triangles, for the points on the sides
    of the triangles: the count of crossings is the same for all points near one off the boundary. *)
From Coq Require Import List Arith Lia Bool Reals Lra Psatz ZArith Permutation.
From Verif Require Import Model_Base Model_Mesh Model_Geom Model_Tess Spec_Mesh Spec_MeshEdit Spec_Geom Spec_Tess Proof_Base Proof_Mesh Proof_Mesh2
  Proof_Mesh3 Proof_Mesh4 Proof_Mesh9 Proof_PropMesh Proof_PropMesh2 Proof_PropMesh3 Proof_Plane Proof_Tess Proof_Tess2 Proof_Tess3 Proof_Tess4 Proof_Tess5 Proof_Geom
  Proof_Geom2 Proof_Geom3.
Import ListNotations.
Local Open Scope R_scope.

Implicit Types (h : heap C) (fs K l es : list nat) (f e : nat) (q : C).

(** what a corner at the height of q changes when the point goes down *)
Definition jump q (q' a : C) : R :=
  if Rlt_dec (snd q') (snd q) then if Req_EM_T (snd a) (snd q) then if Rlt_dec (fst q) (fst a) then 1 else 0 else 0 else 0.
Definition jmp q q' (a b : C) : R := jump q q' b - jump q q' a.

Lemma gap_y (y z : R) : exists d, 0 < d /\ forall z', Rabs (z' - z) < d -> (y < z -> y < z') /\ (z < y -> z' < y).
Proof.
  destruct (Req_EM_T y z) as [->|N].
  - exists 1. split; [lra|]. intros z' _. split; lra.
  - exists (Rabs (y - z)). split; [apply Rabs_pos_lt; lra|]. intros z' Z. unfold Rabs in Z. destruct (Rcase_abs (z' - z)), (Rcase_abs (y - z)); split; lra.
Qed.
Lemma on_seg_between (a b q : C) : orr a b q = 0 -> snd a <> snd b ->
  (snd a <= snd q <= snd b \/ snd b <= snd q <= snd a) -> on_seg a b q.
Proof.
  intros O N B. exists ((snd q - snd a) / (snd b - snd a)). split.
  - destruct B as [B|B].
    + split; [apply Rmult_le_pos; [lra|left; apply Rinv_0_lt_compat; lra]|]. apply (Rmult_le_reg_r (snd b - snd a)); [lra|]. unfold Rdiv. rewrite Rmult_assoc, Rinv_l by lra. lra.
    + replace ((snd q - snd a) / (snd b - snd a)) with ((snd a - snd q) / (snd a - snd b)) by (field; lra).
      split; [apply Rmult_le_pos; [lra|left; apply Rinv_0_lt_compat; lra]|]. apply (Rmult_le_reg_r (snd a - snd b)); [lra|]. unfold Rdiv. rewrite Rmult_assoc, Rinv_l by lra. lra.
  - unfold along, orr in *. destruct q as [x y]. cbn in *. f_equal; [|field; lra]. apply (Rmult_eq_reg_r (snd b - snd a)); [|lra].
    replace ((fst a + (y - snd a) / (snd b - snd a) * (fst b - fst a)) * (snd b - snd a)) with (fst a * (snd b - snd a) + (y - snd a) * (fst b - fst a)) by (field; lra). lra.
Qed.
Lemma on_seg_level (a b q : C) : snd a = snd q -> snd b = snd q -> fst a <= fst q <= fst b \/ fst b <= fst q <= fst a -> on_seg a b q.
Proof.
  intros A B D. destruct (Req_EM_T (fst a) (fst b)) as [E|E].
  - exists 0. split; [lra|]. unfold along. destruct q as [x y]. cbn in *. f_equal; lra.
  - exists ((fst q - fst a) / (fst b - fst a)). split.
    + destruct D as [D|D].
      * split; [apply Rmult_le_pos; [lra|left; apply Rinv_0_lt_compat; lra]|]. apply (Rmult_le_reg_r (fst b - fst a)); [lra|]. unfold Rdiv. rewrite Rmult_assoc, Rinv_l by lra. lra.
      * replace ((fst q - fst a) / (fst b - fst a)) with ((fst a - fst q) / (fst a - fst b)) by (field; lra).
        split; [apply Rmult_le_pos; [lra|left; apply Rinv_0_lt_compat; lra]|]. apply (Rmult_le_reg_r (fst a - fst b)); [lra|]. unfold Rdiv. rewrite Rmult_assoc, Rinv_l by lra. lra.
    + unfold along. destruct q as [x y]. cbn in *. f_equal; [field; lra|]. subst y. rewrite B. lra.
Qed.

Lemma prod_sign (x y : R) : (0 < x * y -> (0 < x /\ 0 < y) \/ (x < 0 /\ y < 0)) /\ (x * y < 0 -> (0 < x /\ y < 0) \/ (x < 0 /\ 0 < y)).
Proof.
  destruct (Rtotal_order x 0) as [X|[->|X]]; [|lra|]; (destruct (Rtotal_order y 0) as [Y|[->|Y]]; [|lra|]).
  - assert (0 < - x * - y) by (apply Rmult_lt_0_compat; lra). lra.
  - assert (0 < - x * y) by (apply Rmult_lt_0_compat; lra). lra.
  - assert (0 < x * - y) by (apply Rmult_lt_0_compat; lra). lra.
  - assert (0 < x * y) by (apply Rmult_lt_0_compat; lra). lra.
Qed.
Lemma whr_near q a b : ~ on_seg a b q -> exists d, 0 < d /\ forall q', near d q q' -> whr q' a b = whr q a b + jmp q q' a b.
Proof.
  intros NS. destruct (gap_y (snd a) (snd q)) as (d1 & D1 & G1). destruct (gap_y (snd b) (snd q)) as (d2 & D2 & G2).
  assert (O : exists d, 0 < d /\ forall q', near d q q' -> (0 < orr a b q -> 0 < orr a b q') /\ (orr a b q < 0 -> orr a b q' < 0)).
  { destruct (Rtotal_order (orr a b q) 0) as [L|[E|L]].
    - destruct (orr_near b a q) as (d & D & H); [rewrite orr_swap; lra|]. exists d. split; auto. intros q' N. specialize (H q' N). rewrite orr_swap in H. split; intros; lra.
    - exists 1. split; [lra|]. intros q' _. split; lra.
    - destruct (orr_near a b q L) as (d & D & H). exists d. split; auto. intros q' N. specialize (H q' N). split; intros; lra. }
  destruct O as (d3 & D3 & G3).
  exists (Rmin d1 (Rmin d2 d3)). split; [repeat apply Rmin_glb_lt; auto|]. intros q' N.
  assert (N1 : near d1 q q') by (eapply near_mono; [exact N|apply Rmin_l]).
  assert (N2 : near d2 q q') by (eapply near_mono; [exact N|eapply Rle_trans; [apply Rmin_r|apply Rmin_l]]).
  assert (N3 : near d3 q q') by (eapply near_mono; [exact N|eapply Rle_trans; [apply Rmin_r|apply Rmin_r]]).
  destruct (G1 (snd q') (proj2 N1)) as (A1 & A2). destruct (G2 (snd q') (proj2 N2)) as (B1 & B2). destruct (G3 q' N3) as (O1 & O2). clear G1 G2 G3 N1 N2 N3 N.
  assert (LA : snd a = snd q -> orr a b q = (fst a - fst q) * (snd b - snd q)) by (intros E; unfold orr; rewrite E; ring).
  assert (LB : snd b = snd q -> orr a b q = - (fst b - fst q) * (snd a - snd q)) by (intros E; unfold orr; rewrite E; ring).
  assert (S : snd a <> snd b -> (snd a <= snd q <= snd b \/ snd b <= snd q <= snd a) -> orr a b q <> 0) by (intros X Y Z; apply NS, on_seg_between; auto).
  assert (SL : snd a = snd q -> snd b = snd q -> ~ (fst a <= fst q <= fst b \/ fst b <= fst q <= fst a)) by (intros X Y Z; apply NS, on_seg_level; auto).
  assert (FA : snd a = snd q -> snd b <> snd q -> (fst q < fst a /\ 0 < (snd b - snd q) * orr a b q) \/ (fst a < fst q /\ (snd b - snd q) * orr a b q < 0)).
  { intros E X. specialize (S ltac:(lra) ltac:(lra)). rewrite (LA E) in *. assert (P : 0 < (snd b - snd q) * (snd b - snd q)) by nra.
    destruct (Rtotal_order (fst a) (fst q)) as [L|[L|L]]; [right; split; auto; nra| |left; split; auto; nra]. exfalso. apply S. rewrite L. ring. }
  assert (FB : snd b = snd q -> snd a <> snd q -> (fst q < fst b /\ (snd a - snd q) * orr a b q < 0) \/ (fst b < fst q /\ 0 < (snd a - snd q) * orr a b q)).
  { intros E X. specialize (S ltac:(lra) ltac:(lra)). rewrite (LB E) in *. assert (P : 0 < (snd a - snd q) * (snd a - snd q)) by nra.
    destruct (Rtotal_order (fst b) (fst q)) as [L|[L|L]]; [right; split; auto; nra| |left; split; auto; nra]. exfalso. apply S. rewrite L. ring. }
  pose proof prod_sign as SG.
  assert (FA1 : snd a = snd q -> snd q < snd b -> (fst q < fst a /\ 0 < orr a b q) \/ (fst a < fst q /\ orr a b q < 0)).
  { intros E X. destruct (FA E ltac:(lra)) as [(Y & Z)|(Y & Z)]; apply SG in Z; [left|right]; split; lra. }
  assert (FA2 : snd a = snd q -> snd b < snd q -> (fst q < fst a /\ orr a b q < 0) \/ (fst a < fst q /\ 0 < orr a b q)).
  { intros E X. destruct (FA E ltac:(lra)) as [(Y & Z)|(Y & Z)]; apply SG in Z; [left|right]; split; lra. }
  assert (FB1 : snd b = snd q -> snd q < snd a -> (fst q < fst b /\ orr a b q < 0) \/ (fst b < fst q /\ 0 < orr a b q)).
  { intros E X. destruct (FB E ltac:(lra)) as [(Y & Z)|(Y & Z)]; apply SG in Z; [left|right]; split; lra. }
  assert (FB2 : snd b = snd q -> snd a < snd q -> (fst q < fst b /\ 0 < orr a b q) \/ (fst b < fst q /\ orr a b q < 0)).
  { intros E X. destruct (FB E ltac:(lra)) as [(Y & Z)|(Y & Z)]; apply SG in Z; [left|right]; split; lra. }
  clear LA LB FA FB SG.
  unfold whr, wh, wc, lefto, pos, jmp, jump. rewrite !orr_ro. cbn [ro fst snd].
  destruct (Rle_dec (snd a) (snd q')), (Rle_dec (snd b) (snd q')), (Rle_dec (snd a) (snd q)), (Rle_dec (snd b) (snd q)), (Rlt_dec (snd q') (snd q)),
    (Req_EM_T (snd a) (snd q)), (Req_EM_T (snd b) (snd q)); try (exfalso; lra);
  try specialize (FA1 ltac:(lra) ltac:(lra)); try specialize (FA2 ltac:(lra) ltac:(lra)); try specialize (FB1 ltac:(lra) ltac:(lra));
  try specialize (FB2 ltac:(lra) ltac:(lra)); try specialize (S ltac:(lra) ltac:(lra)); try specialize (SL ltac:(lra) ltac:(lra));
  repeat match goal with |- context [Rlt_dec ?x ?y] => destruct (Rlt_dec x y) end; cbn; try lra; exfalso; lra.
Qed.
Lemma G_near h q : forall es, (forall e, In e es -> ~ on_seg (sc h e) (ec h e) q) ->
  exists d, 0 < d /\ forall q', near d q q' -> G (whr q') h es = G (whr q) h es + G (jmp q q') h es.
Proof.
  induction es as [|e es IH]; intros O.
  - exists 1. split; [lra|]. intros. cbn. lra.
  - destruct IH as (d1 & D1 & H1); [intros; apply O; now right|]. destruct (whr_near q (sc h e) (ec h e)) as (d2 & D2 & H2); [apply O; now left|].
    exists (Rmin d1 d2). split; [now apply Rmin_glb_lt|]. intros q' N. unfold G in *. cbn [sumR].
    rewrite H1, H2; [lra| |]; (eapply near_mono; [exact N|]); [apply Rmin_r|apply Rmin_l].
Qed.
Lemma jmp_anti q q' a b : jmp q q' b a = - jmp q q' a b.
Proof. unfold jmp. lra. Qed.
Lemma jmp_zero h q q' fs : tmesh h fs -> forall l, incl l fs -> G (jmp q q') h (alle h l) = 0.
Proof.
  intros (H & HT). induction l as [|f l IH]; intros I; [reflexivity|].
  change (alle h (f :: l)) with (Lf h f ++ alle h l). rewrite G_app, IH by (intros x Ix; apply I; now right).
  destruct (HT f (I f (or_introl eq_refl))) as (e1 & e2 & e3 & Q & W). pose proof (Lf_of _ _ _ H (I f (or_introl eq_refl))) as L. rewrite Q in L.
  destruct (tri_st _ _ _ _ _ L) as (T1 & T2 & T3). rewrite Q. unfold G, jmp. cbn [sumR]. rewrite T1, T2, T3. lra.
Qed.

Section Inside.
Variable eps : R.
Local Hint Extern 0 (Num R) => exact (NumR eps) : typeclass_instances.
Lemma is_inside_all h fs K es q tol : tmesh h fs -> no_over h fs -> incl K fs -> NoDup K -> NoDup es -> (forall e, In e es <-> on_boundary_of h K e) ->
  0 <= tol -> (forall e, In e es -> ~ near_seg (sc h e) (ec h e) tol q) ->
  exists r, is_inside h q es tol = Ok r /\ (r = true <-> exists f, In f K /\ inc h f q).
Proof.
  intros TM NO IK NK NE HE T0 FAR. pose proof TM as (H & HT).
  assert (HE' : forall e, In e es <-> In e (filter (fun e => negb (inK h K e)) (alle h K))) by (intros e; rewrite HE; apply (on_boundary_iff h fs); auto; now apply mesh_ok_iff).
  assert (P : Permutation es (filter (fun e => negb (inK h K e)) (alle h K))) by (apply NoDup_Permutation; auto; apply NoDup_filter; now apply (NoDup_alle h fs)).
  assert (LV : forall e, In e es -> exists f, In f K /\ In e (Lf h f)) by (intros e Ie; apply HE', filter_In in Ie as (Ie & _); now apply in_alle in Ie).
  assert (HC : forall e, In e es -> start_coords h e = Ok (sc h e) /\ end_coords h e = Ok (ec h e)).
  { intros e Ie. destruct (LV e Ie) as (f & If & Ie'). pose proof (Lf_of _ _ _ H (IK _ If)). split; [now apply (floop_sc h f (Lf h f))|now apply (floop_ec h f (Lf h f))]. }
  assert (ES : forall g, (forall a b, g b a = - g a b) -> G g h es = G g h (alle h K)).
  { intros g A. rewrite (sumR_perm _ _ _ P : G g h es = _). unfold G. rewrite (sumR_perm _ _ _ (filter_perm (inK h K) (alle h K))), sumR_app.
    fold (G g h (filter (inK h K) (alle h K))). rewrite (interior_zero g A h fs K H IK NK). lra. }
  assert (ON : forall e, In e es -> ~ on_seg (sc h e) (ec h e) q).
  { intros e Ie (t & Ht & ->). apply (FAR e Ie). exists t. split; auto.
    match goal with |- _ * (Rabs (?x - ?x) + Rabs (?y - ?y)) <= _ => replace (x - x) with 0 by lra; replace (y - y) with 0 by lra end. rewrite Rabs_R0. lra. }
  destruct (G_near h q es ON) as (d0 & D0 & H0).
  assert (SAME : forall q', near d0 q q' -> G (whr q') h es = G (whr q) h es).
  { intros q' N. rewrite (H0 q' N), (ES _ (jmp_anti q q')), (jmp_zero h q q' fs TM K IK). lra. }
  assert (CNT : forall q', offe h K q' -> exists m, NoDup m /\ (forall f, In f m <-> In f K /\ inf h f q') /\ INR (length m) = G (whr q') h es /\ (length m <= 1)%nat).
  { intros q' OF. destruct (wh_sum h q' fs TM K IK NK OF) as (m & NM & HM & SM). exists m. split; auto. split; auto. split; [now rewrite (ES _ (whr_anti q'))|].
    destruct m as [|x [|y m]]; cbn; auto with arith. exfalso. inversion NM as [|? ? X _]; subst. apply X. left.
    apply (NO y x q'); [| | apply HM; cbn; auto | apply HM; cbn; auto]; apply IK, HM; cbn; auto. }
  unfold is_inside. eexists. split; [apply ray_cast_off; auto|].
  { intros e Ie. destruct (on_segment (sc h e) (ec h e) q tol) eqn:OS; auto. apply on_segment_sound in OS. exfalso. now apply (FAR e Ie). }
  cbn [xorb].
  assert (OFK : forall q', offe h fs q' -> offe h K q') by (intros q' O f e If; apply O; auto).
  split.
  - intros OD.
    assert (X : forall l, incl l K -> (exists f, In f l /\ inc h f q) \/ exists d, 0 < d /\ forall q', near d q q' -> ~ exists f, In f l /\ inc h f q').
    { induction l as [|f l IH]; intros I.
      - right. exists 1. split; [lra|]. intros q' _ (f & [] & _).
      - destruct IH as [(g & Ig & C)|(d & D & N)]; [intros x Ix; apply I; now right|left; exists g; split; [now right|auto]|].
        assert (If : In f fs) by (apply IK, I; now left).
        destruct (inc_dec h fs f q TM If) as [C|C]; [left; exists f; split; [now left|auto]|].
        destruct (out_near h fs f q TM If C) as (d' & D' & N'). right. exists (Rmin d d'). split; [now apply Rmin_glb_lt|].
        intros q' Q (g & [<-|Ig] & C').
        + apply (N' q'); auto. eapply near_mono; [exact Q|apply Rmin_r].
        + apply (N q'); [eapply near_mono; [exact Q|apply Rmin_l]|]. exists g. auto. }
    destruct (X K (incl_refl K)) as [Y|(d & D & N)]; auto. exfalso.
    destruct (gen_off h fs h fs q (Rmin d0 d) TM TM) as (q' & Q' & O' & _); [now apply Rmin_glb_lt|].
    destruct (CNT q' (OFK q' O')) as (m & NM & HM & SM & _). rewrite SAME in SM by (eapply near_mono; [exact Q'|apply Rmin_l]).
    assert (E : m = []).
    { destruct m as [|x m]; auto. exfalso. destruct (HM x) as (A & _). destruct (A (or_introl eq_refl)) as (Ix & J).
      apply (N q'); [eapply near_mono; [exact Q'|apply Rmin_r]|]. exists x. split; auto. destruct J as (e1 & e2 & e3 & Q & r & s & t & R0 & S0 & T1 & E1 & E2).
      exists e1, e2, e3. split; auto. exists r, s, t. repeat split; auto; lra. }
    subst m. cbn in SM. rewrite <- whs_G in SM. apply eq_IZR in SM. rewrite <- SM in OD. discriminate.
  - intros (f & If & C). destruct (toward h fs f q (d0 / 2) TM (IK _ If) C ltac:(lra)) as (q1 & Q1 & J).
    destruct (inf_near h fs f q1 TM (IK _ If) J) as (d1 & D1 & N1).
    destruct (gen_off h fs h fs q1 (Rmin d1 (d0 / 2)) TM TM) as (q' & Q' & O' & _); [apply Rmin_glb_lt; lra|].
    assert (NQ : near d0 q q').
    { assert (Q2 : near (d0 / 2) q1 q') by (eapply near_mono; [exact Q'|apply Rmin_r]). destruct Q1 as (A1 & A2), Q2 as (B1 & B2).
      split; [replace (fst q' - fst q) with ((fst q' - fst q1) + (fst q1 - fst q)) by lra|replace (snd q' - snd q) with ((snd q' - snd q1) + (snd q1 - snd q)) by lra];
      (eapply Rle_lt_trans; [apply Rabs_triang|lra]). }
    destruct (CNT q' (OFK q' O')) as (m & NM & HM & SM & L1). rewrite (SAME q' NQ) in SM.
    assert (I : In f m) by (apply HM; split; auto; apply N1; eapply near_mono; [exact Q'|apply Rmin_l]).
    destruct m as [|x [|y m]]; [destruct I| |cbn in L1; lia]. cbn in SM. rewrite <- whs_G in SM. apply eq_IZR in SM. now rewrite <- SM.
Qed.
End Inside.
Lemma is_inside_full eps h fs K es q tol : tri_mesh h fs -> no_overlap h fs -> incl K fs -> NoDup K -> NoDup es -> (forall e, In e es <-> on_boundary_of h K e) ->
  0 <= tol ->
  ((exists e A B, In e es /\ from_to h e A B /\ on_seg A B q) -> @is_inside R (NumR eps) h q es tol = Ok true) /\
  ((forall e A B, In e es -> from_to h e A B -> ~ near_seg A B tol q) ->
     exists r, @is_inside R (NumR eps) h q es tol = Ok r /\ (r = true <-> exists f A B D, In f K /\ corners h f A B D /\ in_closed A B D q)).
Proof.
  intros TM NO IK NK NE HE T0. destruct (is_inside_prop eps h fs K es q tol TM NO IK NK NE HE T0) as (X & _). split; auto.
  apply tri_mesh_iff in TM. apply (no_overlap_iff _ _ TM) in NO. pose proof TM as (H & HT).
  assert (LV : forall e, In e es -> exists f, In f fs /\ In e (Lf h f)).
  { intros e Ie. apply HE, (on_boundary_iff h fs) in Ie; auto; [|now apply mesh_ok_iff]. apply filter_In in Ie as (Ie & _). apply in_alle in Ie as (f & If & Ie). exists f. auto. }
  intros FAR. destruct (is_inside_all eps h fs K es q tol TM NO IK NK NE HE T0) as (r & Q & I).
  - intros e Ie. destruct (LV e Ie) as (f & If & Ie'). apply (FAR e); auto. now apply (from_to_live h fs f).
  - exists r. split; auto. rewrite I. split.
    + intros (f & If & e1 & e2 & e3 & Q' & IO). exists f, (ec h e1), (ec h e2), (ec h e3). split; auto. split; auto. apply corners_of; auto. apply (Lf_of _ _ _ H); auto.
    + intros (f & A & B & D & If & CO & IO). apply corners_inv in CO as (e1 & e2 & e3 & L & Q' & -> & -> & ->). exists f. split; auto. exists e1, e2, e3. auto.
Qed.
