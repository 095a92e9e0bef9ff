From Coq Require Import List Arith Bool Lia Reals Lra.
From Verif Require Import Model_Base Proof_Base Model_Vec Model_Wire Spec_Wire.
Import ListNotations.
Local Open Scope R_scope.

Section AtR.
Variable eps : R.
Local Hint Extern 0 (Num R) => exact (NumR eps) : typeclass_instances.
Variable dim : nat.
Variable project : nat -> pt R -> R * R.
Variable bounds : nat -> R * R.

Lemma dist_ok (a b : pt R) : distance sqrt dim a b = dist_n dim a b.
Proof.
  unfold distance, norm, dist_n. f_equal. unfold sq_norm. induction dim as [|m IH]; cbn [dot sqdist_n]; [reflexivity|].
  rewrite IH. unfold psub. nsimp. ring.
Qed.

Definition same_but (h h' : topo R) (ed : nat) : Prop :=
  t_points h' = t_points h /\ length (t_edges h') = length (t_edges h) /\
  forall e, e <> ed -> nth_error (t_edges h') e = nth_error (t_edges h) e.

Lemma same_but_refl h ed : same_but h h ed. Proof. repeat split. Qed.
Lemma same_but_trans h1 h2 h3 ed : same_but h1 h2 ed -> same_but h2 h3 ed -> same_but h1 h3 ed.
Proof. intros (A1 & B1 & C1) (A2 & B2 & C2). repeat split; try congruence. intros e E. rewrite C2, C1; auto. Qed.

Lemma set1_ok h ed v e p : edge_at h ed e -> nth_error (t_points h) v = Some p ->
  exists b h', set_vertex1 project bounds h ed v = Ok (b, h') /\ same_but h h' ed /\
    (b = false -> h' = h) /\ (b = false -> e_tol e < snd (project (e_curve e) p)) /\
    exists e', edge_at h' ed e' /\ e_v2 e' = e_v2 e /\ e_tol e' = e_tol e /\ e_curve e' = e_curve e /\ (e_v1 e' = if b then v else e_v1 e).
Proof.
  intros He Hp. unfold set_vertex1. rewrite (proj2 (get_some _ _ _) He), (proj2 (get_some _ _ _) Hp). cbn [bind].
  destruct (project (e_curve e) p) as [u d] eqn:Pr. cbn [nltb NumR]. destruct (Rltb_spec (e_tol e) d) as [L|L].
  - exists false, h. repeat split; auto. exists e. auto.
  - destruct (bounds (e_curve e)) as [lo hi].
    assert (Le : (ed < length (t_edges h))%nat) by (apply nth_error_Some; unfold edge_at in He; congruence).
    rewrite set_ok by exact Le. cbn [bind]. eexists true, _. split; [reflexivity|]. split.
    + split; [reflexivity|]. cbn [t_edges]. split; [apply upd_length|]. intros e0 N. rewrite nth_error_upd.
      destruct (Nat.eqb_spec ed e0); [congruence|reflexivity].
    + split; [discriminate|]. split; [discriminate|]. eexists. unfold edge_at. cbn [t_edges]. rewrite nth_error_upd, Nat.eqb_refl.
      destruct (Nat.ltb_spec ed (length (t_edges h))); [|lia]. cbn [andb]. split; [reflexivity|]. cbn. auto.
Qed.
Lemma set2_ok h ed v e p : edge_at h ed e -> nth_error (t_points h) v = Some p ->
  exists b h', set_vertex2 project bounds h ed v = Ok (b, h') /\ same_but h h' ed /\
    (b = false -> h' = h) /\ (b = false -> e_tol e < snd (project (e_curve e) p)) /\
    exists e', edge_at h' ed e' /\ e_v1 e' = e_v1 e /\ e_tol e' = e_tol e /\ e_curve e' = e_curve e /\ (e_v2 e' = if b then v else e_v2 e).
Proof.
  intros He Hp. unfold set_vertex2. rewrite (proj2 (get_some _ _ _) He), (proj2 (get_some _ _ _) Hp). cbn [bind].
  destruct (project (e_curve e) p) as [u d] eqn:Pr. cbn [nltb NumR]. destruct (Rltb_spec (e_tol e) d) as [L|L].
  - exists false, h. repeat split; auto. exists e. auto.
  - destruct (bounds (e_curve e)) as [lo hi].
    assert (Le : (ed < length (t_edges h))%nat) by (apply nth_error_Some; unfold edge_at in He; congruence).
    rewrite set_ok by exact Le. cbn [bind]. eexists true, _. split; [reflexivity|]. split.
    + split; [reflexivity|]. cbn [t_edges]. split; [apply upd_length|]. intros e0 N. rewrite nth_error_upd.
      destruct (Nat.eqb_spec ed e0); [congruence|reflexivity].
    + split; [discriminate|]. split; [discriminate|]. eexists. unfold edge_at. cbn [t_edges]. rewrite nth_error_upd, Nat.eqb_refl.
      destruct (Nat.ltb_spec ed (length (t_edges h))); [|lia]. cbn [andb]. split; [reflexivity|]. cbn. auto.
Qed.

Lemma front_ok {A} (l : list A) f : nth_error l 0 = Some f -> front l = Ok f.
Proof. destruct l; [discriminate|]. intros [= ->]. reflexivity. Qed.
Lemma back_ok {A} (l : list A) b : nth_error l (length l - 1) = Some b -> back l = Ok b.
Proof.
  destruct l as [|x l] using rev_ind; [discriminate|]. rewrite app_length. cbn [length].
  replace (length l + 1 - 1)%nat with (length l) by lia. rewrite nth_error_app2, Nat.sub_diag by lia. intros [= ->].
  unfold back. rewrite rev_app_distr. reflexivity.
Qed.
Lemma v1_ok h w v : starts_at h w v <-> wire_vertex1 h w = Ok v.
Proof.
  unfold wire_vertex1, starts_at, edge_at. split.
  - intros (e & eo & E & H & V). rewrite (front_ok _ _ E). cbn [bind]. rewrite (proj2 (get_some _ _ _) H). cbn [bind]. congruence.
  - destruct (w_edges w) as [|e l] eqn:W; [discriminate|]. cbn. destruct (get (t_edges h) e) eqn:G; try discriminate.
    cbn [bind]. intros [= <-]. apply get_some in G. eauto.
Qed.
Lemma v2_ok h w v : ends_at h w v <-> wire_vertex2 h w = Ok v.
Proof.
  unfold wire_vertex2, ends_at, edge_at. split.
  - intros (e & eo & E & H & V). rewrite (back_ok _ _ E). cbn [bind]. rewrite (proj2 (get_some _ _ _) H). cbn [bind]. congruence.
  - destruct (nth_error (w_edges w) (length (w_edges w) - 1)) as [b|] eqn:B.
    + rewrite (back_ok _ _ B). cbn [bind]. destruct (get (t_edges h) b) eqn:G; try discriminate.
      cbn [bind]. intros [= <-]. apply get_some in G. eauto.
    + destruct (w_edges w) as [|x l] eqn:W; [discriminate|]. apply nth_error_None in B. cbn in B. lia.
Qed.
Lemma ends_exist h w : proper h w -> (exists v, starts_at h w v) /\ (exists v, ends_at h w v).
Proof.
  intros (N & P). destruct (w_edges w) as [|x l] eqn:W; [congruence|].
  split.
  - destruct (P x (or_introl eq_refl)) as (eo & He). exists (e_v1 eo), x, eo. rewrite W. auto.
  - destruct (nth_error (x :: l) (length (x :: l) - 1)) as [b|] eqn:B; [|apply nth_error_None in B; cbn in B; lia].
    destruct (P b) as (eo & He); [eapply nth_error_In, B|]. exists (e_v2 eo), b, eo. rewrite W. auto.
Qed.

Lemma is_closed_ok h w : proper h w ->
  exists b, is_closed h w = Ok b /\ (b = true <-> exists v, starts_at h w v /\ ends_at h w v).
Proof.
  intros P. destruct (ends_exist h w P) as ((v1 & H1) & (v2 & H2)). pose proof P as (N & _).
  unfold is_closed. destruct (w_edges w) eqn:W; [congruence|]. cbn [length Nat.eqb].
  rewrite (proj1 (v1_ok h w v1) H1), (proj1 (v2_ok h w v2) H2). cbn [bind]. eexists. split; [reflexivity|].
  split.
  - intros E. apply Nat.eqb_eq in E. subst v2. eauto.
  - intros (v & A & B). apply v1_ok in A, H1. apply v2_ok in B, H2. apply Nat.eqb_eq. congruence.
Qed.

(* facts kept by the changes *)
Lemma proper_other h h' w ed : same_but h h' ed -> proper h w -> ~ In ed (w_edges w) -> proper h' w.
Proof.
  intros (_ & _ & S) (N & P) I. split; [exact N|]. intros e J. destruct (P e J) as (eo & He). exists eo. unfold edge_at in *.
  rewrite S; [exact He|]. intros ->. contradiction.
Qed.
Lemma connected_other h h' w ed : same_but h h' ed -> connected h w -> ~ In ed (w_edges w) -> connected h' w.
Proof.
  intros (_ & _ & S) C I i e f E F. destruct (C i e f E F) as (eo & fo & He & Hf & V). exists eo, fo. unfold edge_at in *.
  assert (e <> ed) by (intros ->; apply I; eapply nth_error_In; eauto).
  assert (f <> ed) by (intros ->; apply I; eapply nth_error_In; eauto).
  rewrite !S by assumption. auto.
Qed.
Lemma starts_other h h' w ed v : same_but h h' ed -> ~ In ed (w_edges w) -> starts_at h w v -> starts_at h' w v.
Proof.
  intros (_ & _ & S) I (e & eo & E & H & V). exists e, eo. unfold edge_at in *. rewrite S; auto.
  intros ->. apply I. eapply nth_error_In; eauto.
Qed.
Lemma ends_other h h' w ed v : same_but h h' ed -> ~ In ed (w_edges w) -> ends_at h w v -> ends_at h' w v.
Proof.
  intros (_ & _ & S) I (e & eo & E & H & V). exists e, eo. unfold edge_at in *. rewrite S; auto.
  intros ->. apply I. eapply nth_error_In; eauto.
Qed.

Lemma connected_front h w ed eo v : connected h w -> edge_at h ed eo -> starts_at h w v -> e_v2 eo = v ->
  connected h (mkw (ed :: w_edges w) (w_tol w)).
Proof.
  intros C He (f & fo & Hf & Hfo & <-) V i a b A B; cbn [w_edges] in A, B. destruct i as [|i].
  - cbn in A. injection A as <-. change (nth_error (w_edges w) 0 = Some b) in B. rewrite Hf in B. injection B as <-. exists eo, fo. auto.
  - eapply C; eauto.
Qed.
Lemma connected_back h w ed eo v : connected h w -> edge_at h ed eo -> ends_at h w v -> v = e_v1 eo ->
  connected h (mkw (w_edges w ++ [ed]) (w_tol w)).
Proof.
  intros C He (f & fo & Hf & Hfo & Vf) V i a b A B. cbn [w_edges] in A, B.
  assert (Lf : (length (w_edges w) - 1 < length (w_edges w))%nat) by (apply nth_error_Some; congruence).
  destruct (Nat.ltb_spec (S i) (length (w_edges w))) as [L|L].
  - rewrite nth_error_app1 in A by lia. rewrite nth_error_app1 in B by lia. eapply C; eauto.
  - assert (S i = length (w_edges w)).
    { assert (S i < length (w_edges w ++ [ed]))%nat by (apply nth_error_Some; congruence). rewrite app_length in *. cbn in *. lia. }
    rewrite nth_error_app1 in A by lia. rewrite nth_error_app2 in B by lia.
    replace (S i - length (w_edges w))%nat with 0%nat in B by lia. cbn in B. injection B as <-.
    replace i with (length (w_edges w) - 1)%nat in A by lia. rewrite Hf in A. injection A as <-. exists fo, eo. split; auto. split; auto. congruence.
Qed.
Lemma proper_front h w ed eo : proper h w -> edge_at h ed eo -> proper h (mkw (ed :: w_edges w) (w_tol w)).
Proof. intros (N & P) He. split; [discriminate|]. intros e [<-|I]; eauto. Qed.
Lemma proper_back h w ed eo : proper h w -> edge_at h ed eo -> proper h (mkw (w_edges w ++ [ed]) (w_tol w)).
Proof.
  intros (N & P) He. split; [cbn; intros E; apply app_eq_nil in E as (_ & E); discriminate|]. intros e I. cbn in I.
  apply in_app_or in I as [I|[<-|[]]]; eauto.
Qed.

Lemma sound_set h h' ed e' : sound h -> same_but h h' ed -> edge_at h' ed e' ->
  (e_v1 e' < length (t_points h))%nat -> (e_v2 e' < length (t_points h))%nat -> sound h'.
Proof.
  intros S (P & L & O) He V1 V2 e eo H. rewrite P. destruct (Nat.eq_dec e ed) as [->|N].
  - unfold edge_at in *. assert (eo = e') by congruence. subst. auto.
  - unfold edge_at in H. rewrite O in H by exact N. apply (S e eo H).
Qed.

Notation add := (@add_edge R (NumR eps) sqrt dim project bounds).

Definition joined (w w' : wire R) (ed : nat) : Prop :=
  w_tol w' = w_tol w /\ (w_edges w' = ed :: w_edges w \/ w_edges w' = w_edges w ++ [ed]).

Lemma point_at (h : topo R) v : (v < length (t_points h))%nat -> exists p, nth_error (t_points h) v = Some p.
Proof. intros L. destruct (nth_error (t_points h) v) eqn:E; [eauto|]. apply nth_error_None in E. lia. Qed.
Lemma starts_lt h w v : sound h -> starts_at h w v -> (v < length (t_points h))%nat.
Proof. intros S (e & eo & _ & He & <-). apply (S e eo He). Qed.
Lemma ends_lt h w v : sound h -> ends_at h w v -> (v < length (t_points h))%nat.
Proof. intros S (e & eo & _ & He & <-). apply (S e eo He). Qed.

(* what one call does *)
Lemma add_ok h w ed eo : sound h -> proper h w -> edge_at h ed eo -> ~ In ed (w_edges w) ->
  exists b h' w', add h w ed = Ok (b, h', w') /\ sound h' /\ proper h' w' /\ same_but h h' ed /\
    (b = false -> h' = h /\ w' = w) /\ (b = true -> joined w w' ed) /\
    (connected h w -> faithful dim project h (w_tol w) ed -> connected h' w') /\
    (b = true <-> is_closed h w = Ok false /\
       exists v1 v2 p1 p2 q1 q2, starts_at h w v1 /\ ends_at h w v2 /\
         nth_error (t_points h) v1 = Some p1 /\ nth_error (t_points h) v2 = Some p2 /\
         nth_error (t_points h) (e_v1 eo) = Some q1 /\ nth_error (t_points h) (e_v2 eo) = Some q2 /\
         (e_v2 eo = v1 \/ e_v1 eo = v2 \/ dist_n dim p2 q1 < w_tol w \/ dist_n dim p1 q2 < w_tol w)).
Proof.
  intros S P He NI. destruct (ends_exist h w P) as ((v1 & H1) & (v2 & H2)).
  pose proof (starts_lt _ _ _ S H1) as L1. pose proof (ends_lt _ _ _ S H2) as L2.
  destruct (S ed eo He) as (M1 & M2).
  destruct (point_at h v1 L1) as (p1 & P1). destruct (point_at h v2 L2) as (p2 & P2).
  destruct (point_at h _ M1) as (q1 & Q1). destruct (point_at h _ M2) as (q2 & Q2).
  destruct (is_closed_ok h w P) as (cl & Ec & Hc).
  unfold add_edge. destruct (length (w_edges w) =? 0)%nat eqn:Z.
  { apply Nat.eqb_eq in Z. destruct P as (N & _). destruct (w_edges w); [congruence|discriminate]. }
  rewrite Ec. cbn [bind]. destruct cl.
  { exists false, h, w. split; [reflexivity|]. split; [exact S|]. split; [exact P|]. split; [apply same_but_refl|].
    split; [auto|]. split; [discriminate|]. split; [auto|]. split; [discriminate|]. intros (K & _). discriminate. }
  rewrite (proj1 (v1_ok h w v1) H1), (proj1 (v2_ok h w v2) H2), (proj2 (get_some _ _ _) He). cbn [bind].
  assert (ACC : forall c, c \/ True -> (e_v2 eo = v1 \/ e_v1 eo = v2 \/ dist_n dim p2 q1 < w_tol w \/ dist_n dim p1 q2 < w_tol w) ->
    (true = true <-> Ok false = @Ok bool false /\ exists v1 v2 p1 p2 q1 q2, starts_at h w v1 /\ ends_at h w v2 /\
         nth_error (t_points h) v1 = Some p1 /\ nth_error (t_points h) v2 = Some p2 /\
         nth_error (t_points h) (e_v1 eo) = Some q1 /\ nth_error (t_points h) (e_v2 eo) = Some q2 /\
         (e_v2 eo = v1 \/ e_v1 eo = v2 \/ dist_n dim p2 q1 < w_tol w \/ dist_n dim p1 q2 < w_tol w))).
  { intros c _ K. split; [|reflexivity]. intros _. split; [reflexivity|]. exists v1, v2, p1, p2, q1, q2. repeat (split; [assumption|]). exact K. }
  destruct (Nat.eqb_spec v1 (e_v2 eo)) as [E1|E1].
  { exists true, h, (mkw (ed :: w_edges w) (w_tol w)). split; [reflexivity|]. split; [exact S|]. split; [eapply proper_front; eauto|].
    split; [apply same_but_refl|]. split; [discriminate|]. split; [intros _; split; [reflexivity|left; reflexivity]|].
    split; [intros C _; eapply connected_front; eauto|]. apply (ACC True); auto. }
  destruct (Nat.eqb_spec v2 (e_v1 eo)) as [E2|E2].
  { exists true, h, (mkw (w_edges w ++ [ed]) (w_tol w)). split; [reflexivity|]. split; [exact S|]. split; [eapply proper_back; eauto|].
    split; [apply same_but_refl|]. split; [discriminate|]. split; [intros _; split; [reflexivity|right; reflexivity]|].
    split; [intros C _; eapply connected_back; eauto|]. apply (ACC True); auto. }
  rewrite (proj2 (get_some _ _ _) P2), (proj2 (get_some _ _ _) Q1). cbn [bind]. rewrite dist_ok. cbn [nltb NumR].
  assert (FA : faithful dim project h (w_tol w) ed -> w_tol w <= e_tol eo /\
     (dist_n dim p2 q1 < w_tol w -> snd (project (e_curve eo) p2) < e_tol eo) /\
     (dist_n dim p1 q2 < w_tol w -> snd (project (e_curve eo) p1) < e_tol eo)).
  { intros (eo' & a1 & a2 & He' & A1 & A2 & T & F). unfold edge_at in *. assert (eo' = eo) by congruence. subst eo'.
    assert (a1 = q1) by congruence. assert (a2 = q2) by congruence. subst a1 a2. split; [exact T|]. split; intros D.
    - destruct (F p2 (nth_error_In _ _ P2)) as (K & _). lra.
    - destruct (F p1 (nth_error_In _ _ P1)) as (_ & K). lra. }
  destruct (Rltb_spec (dist_n dim p2 q1) (w_tol w)) as [D1|D1].
  - destruct (set1_ok h ed v2 eo p2 He P2) as (b1 & h1 & R1 & SB1 & NB1 & FB1 & e' & He' & V2' & T' & C' & V1').
    rewrite R1. cbn [bind].
    assert (S1 : sound h1).
    { eapply sound_set; eauto; [rewrite V1'; destruct b1; auto|rewrite V2'; auto]. }
    set (w1 := mkw (w_edges w ++ [ed]) (w_tol w)).
    assert (PR1 : proper h1 w1) by (eapply (proper_back h1 w ed); eauto; eapply proper_other; eauto).
    assert (ST1 : starts_at h1 w1 v1).
    { pose proof (starts_other _ _ _ _ _ SB1 NI H1) as (f & fo & Hf & Hfo & Vf). exists f, fo. split; [|auto].
      cbn [w1 w_edges]. rewrite nth_error_app1; [exact Hf|]. apply nth_error_Some. congruence. }
    rewrite (proj1 (v1_ok h1 w1 v1) ST1). cbn [bind]. rewrite (proj2 (get_some _ _ _) He'). cbn [bind].
    destruct SB1 as (PT1 & LE1 & OT1). rewrite PT1. rewrite (proj2 (get_some _ _ _) P1). cbn [bind].
    rewrite V2', (proj2 (get_some _ _ _) Q2). cbn [bind]. rewrite dist_ok. cbn [w1 w_tol]. fold w1.
    assert (SB1 : same_but h h1 ed) by (split; [|split]; auto).
    assert (CN1 : connected h w -> faithful dim project h (w_tol w) ed -> e_v1 e' = v2).
    { intros _ F. destruct (FA F) as (_ & F1 & _). destruct b1; [exact V1'|]. specialize (FB1 eq_refl). specialize (F1 D1). lra. }
    destruct (Rltb_spec (dist_n dim p1 q2) (w_tol w)) as [D2|D2].
    + destruct (set2_ok h1 ed v1 e' p1 He') as (b2 & h2 & R2 & SB2 & NB2 & FB2 & e2 & He2 & V1'' & T2 & C2 & V2''); [rewrite PT1; exact P1|].
      rewrite R2. cbn [bind]. exists true, h2, w1. split; [reflexivity|].
      assert (SB : same_but h h2 ed) by (eapply same_but_trans; eauto).
      split. { eapply (sound_set h1); eauto; rewrite PT1; [rewrite V1'', V1'; destruct b1; auto|rewrite V2''; destruct b2; [auto|rewrite V2'; auto]]. }
      split. { eapply (proper_back h2 w ed); eauto. eapply proper_other; eauto. }
      split; [exact SB|]. split; [discriminate|]. split; [intros _; split; [reflexivity|right; reflexivity]|].
      split; [|apply (ACC True); auto].
      intros C F. eapply (connected_back h2 w ed e2 v2); eauto; [eapply connected_other; eauto|eapply ends_other; eauto|].
      rewrite V1''. symmetry. auto.
    + exists true, h1, w1. split; [reflexivity|]. split; [exact S1|]. split; [exact PR1|]. split; [exact SB1|].
      split; [discriminate|]. split; [intros _; split; [reflexivity|right; reflexivity]|]. split; [|apply (ACC True); auto].
      intros C F. eapply (connected_back h1 w ed e' v2); eauto; [eapply connected_other; eauto|eapply ends_other; eauto|].
      symmetry. auto.
  - cbn [bind]. rewrite (proj1 (v1_ok h w v1) H1). cbn [bind]. rewrite (proj2 (get_some _ _ _) He). cbn [bind].
    rewrite (proj2 (get_some _ _ _) P1), (proj2 (get_some _ _ _) Q2). cbn [bind]. rewrite dist_ok.
    destruct (Rltb_spec (dist_n dim p1 q2) (w_tol w)) as [D2|D2].
    + destruct (set2_ok h ed v1 eo p1 He P1) as (b2 & h2 & R2 & SB2 & NB2 & FB2 & e2 & He2 & V1'' & T2 & C2 & V2'').
      rewrite R2. cbn [bind]. exists true, h2, (mkw (ed :: w_edges w) (w_tol w)). split; [reflexivity|].
      split. { eapply (sound_set h); eauto; [rewrite V1''; auto|rewrite V2''; destruct b2; auto]. }
      split. { eapply (proper_front h2 w ed); eauto. eapply proper_other; eauto. }
      split; [exact SB2|]. split; [discriminate|]. split; [intros _; split; [reflexivity|left; reflexivity]|].
      split; [|apply (ACC True); auto].
      intros C F. destruct (FA F) as (_ & _ & F2). eapply (connected_front h2 w ed e2 v1); eauto;
        [eapply connected_other; eauto|eapply starts_other; eauto|].
      destruct b2; [exact V2''|]. specialize (FB2 eq_refl). specialize (F2 D2). lra.
    + exists false, h, w. split; [reflexivity|]. split; [exact S|]. split; [exact P|]. split; [apply same_but_refl|].
      split; [auto|]. split; [discriminate|]. split; [auto|]. split; [discriminate|].
      intros (_ & w1 & w2 & a1 & a2 & b1 & b2 & A1 & A2 & A3 & A4 & A5 & A6 & A7). exfalso.
      apply v1_ok in A1, H1. apply v2_ok in A2, H2. assert (w1 = v1) by congruence. assert (w2 = v2) by congruence. subst w1 w2.
      assert (a1 = p1) by congruence. assert (a2 = p2) by congruence. assert (b1 = q1) by congruence. assert (b2 = q2) by congruence. subst.
      destruct A7 as [K|[K|[K|K]]]; try congruence; lra.
Qed.

Lemma closed_stays h w ed : proper h w -> (exists v, starts_at h w v /\ ends_at h w v) -> add h w ed = Ok (false, h, w).
Proof.
  intros P V. destruct (is_closed_ok h w P) as (cl & Ec & Hc). unfold add_edge.
  destruct (length (w_edges w) =? 0)%nat eqn:Z.
  { apply Nat.eqb_eq in Z. destruct P as (N & _). destruct (w_edges w); [congruence|discriminate]. }
  rewrite Ec. cbn [bind]. rewrite (proj2 Hc V). reflexivity.
Qed.

Lemma faithful_other h h' tol e ed : same_but h h' ed -> e <> ed -> faithful dim project h tol e -> faithful dim project h' tol e.
Proof.
  intros (P & _ & O) N (eo & p1 & p2 & He & F). exists eo, p1, p2. unfold edge_at in *. rewrite P, O by exact N. auto.
Qed.

Notation adds := (@add_edges R (NumR eps) sqrt dim project bounds).
Lemma adds_ok l : forall h w, sound h -> proper h w -> connected h w ->
  NoDup l -> (forall e, In e l -> ~ In e (w_edges w)) -> (forall e, In e l -> faithful dim project h (w_tol w) e) ->
  exists bs h' w', adds h w l = Ok (bs, h', w') /\ sound h' /\ proper h' w' /\ connected h' w' /\ length bs = length l /\
    (forall e, In e (w_edges w') <-> In e (w_edges w) \/ exists i, nth_error l i = Some e /\ nth_error bs i = Some true).
Proof.
  induction l as [|ed l IH]; intros h w S P C ND D F.
  - exists [], h, w. split; [reflexivity|]. split; [exact S|]. split; [exact P|]. split; [exact C|]. split; [reflexivity|].
    intros e. split; [auto|]. intros [I|(i & E & _)]; [exact I|]. destruct i; discriminate.
  - destruct (F ed (or_introl eq_refl)) as (eo & q1 & q2 & He & _).
    destruct (add_ok h w ed eo S P He (D ed (or_introl eq_refl))) as (b & h1 & w1 & E1 & S1 & P1 & SB & FB & TB & CN & _).
    inversion ND as [|? ? N1 N2]; subst.
    assert (TOL : w_tol w1 = w_tol w) by (destruct b; [destruct (TB eq_refl); auto|destruct (FB eq_refl) as (_ & ->); auto]).
    assert (IN : forall e, In e (w_edges w1) <-> In e (w_edges w) \/ (b = true /\ e = ed)).
    { intros e. destruct b.
      - destruct (TB eq_refl) as (_ & [K|K]); rewrite K; cbn; rewrite ?in_app_iff; cbn; intuition congruence.
      - destruct (FB eq_refl) as (_ & ->). intuition congruence. }
    destruct (IH h1 w1 S1 P1) as (bs & h2 & w2 & E2 & S2 & P2 & C2 & L2 & I2); auto.
    + apply CN; [exact C|]. apply F. left; reflexivity.
    + intros e I J. apply IN in J as [J|(_ & ->)]; [|contradiction]. apply (D e); [right; exact I|exact J].
    + intros e I. rewrite TOL. eapply faithful_other; eauto; [intros ->; contradiction|]. apply F. right; exact I.
    + exists (b :: bs), h2, w2. split; [cbn [add_edges]; rewrite E1; cbn [bind]; rewrite E2; reflexivity|].
      split; [exact S2|]. split; [exact P2|]. split; [exact C2|]. split; [cbn; lia|].
      intros e. rewrite I2, IN. split.
      * intros [[I|(-> & ->)]|(i & A & B)]; [left; exact I|right; exists 0%nat; auto|right; exists (Datatypes.S i); auto].
      * intros [I|([|i] & A & B)]; [auto|cbn in A, B; left; right; split; congruence|right; exists i; auto].
Qed.

Notation new := (@new_wire R (NumR eps) sqrt dim project bounds).
Lemma new_ok tol h ed eo : sound h -> edge_at h ed eo ->
  exists h' w, new tol h ed = Ok (h', w) /\ w_edges w = [ed] /\ w_tol w = tol /\ sound h' /\ proper h' w /\ connected h' w /\ same_but h h' ed.
Proof.
  intros S He. destruct (S ed eo He) as (M1 & M2). destruct (point_at h _ M1) as (q1 & Q1). destruct (point_at h _ M2) as (q2 & Q2).
  assert (CN : forall h', connected h' (mkw [ed] tol)).
  { intros h' i e f A B. destruct i as [|[|i]]; discriminate. }
  assert (PR : forall h' e', edge_at h' ed e' -> proper h' (mkw [ed] tol)).
  { intros h' e' E'. split; [discriminate|]. intros e [<-|[]]. eauto. }
  unfold new_wire. assert (V : wire_vertex1 h (mkw [ed] tol) = Ok (e_v1 eo)).
  { apply v1_ok. exists ed, eo. auto. }
  rewrite V. cbn [bind]. rewrite (proj2 (get_some _ _ _) He), (proj2 (get_some _ _ _) Q1). cbn [bind].
  rewrite (proj2 (get_some _ _ _) Q2). cbn [bind]. rewrite dist_ok. cbn [nltb NumR].
  destruct (Rltb_spec (dist_n dim q1 q2) tol) as [D|D].
  - destruct (set2_ok h ed (e_v1 eo) eo q1 He Q1) as (b & h' & R & SB & NB & FB & e' & He' & V1' & T' & C' & V2').
    rewrite R. cbn [bind]. exists h', (mkw [ed] tol). split; [reflexivity|]. split; [reflexivity|]. split; [reflexivity|].
    split. { eapply sound_set; eauto; [rewrite V1'; auto|rewrite V2'; destruct b; auto]. }
    split; [eapply PR; eauto|]. split; [apply CN|exact SB].
  - exists h, (mkw [ed] tol). split; [reflexivity|]. split; [reflexivity|]. split; [reflexivity|]. split; [exact S|].
    split; [eapply PR; eauto|]. split; [apply CN|apply same_but_refl].
Qed.

Lemma history_ok tol h e0 eo l : sound h -> edge_at h e0 eo -> NoDup (e0 :: l) ->
  (forall e, In e l -> faithful dim project h tol e) ->
  exists h0 w0 bs h' w', new tol h e0 = Ok (h0, w0) /\ adds h0 w0 l = Ok (bs, h', w') /\ connected h' w' /\ length bs = length l /\
    (forall e, In e (w_edges w') <-> e = e0 \/ exists i, nth_error l i = Some e /\ nth_error bs i = Some true).
Proof.
  intros S He ND F. inversion ND as [|? ? N1 N2]; subst.
  destruct (new_ok tol h e0 eo S He) as (h0 & w0 & E0 & W0 & T0 & S0 & P0 & C0 & SB0).
  destruct (adds_ok l h0 w0 S0 P0 C0 N2) as (bs & h' & w' & E' & S' & P' & C' & L' & I').
  - rewrite W0. intros e I [->|[]]. contradiction.
  - intros e I. rewrite T0. eapply faithful_other; eauto. intros ->; contradiction.
  - exists h0, w0, bs, h', w'. split; [exact E0|]. split; [exact E'|]. split; [exact C'|]. split; [exact L'|]. intros e.
    rewrite I', W0. cbn. intuition congruence.
Qed.
End AtR.
