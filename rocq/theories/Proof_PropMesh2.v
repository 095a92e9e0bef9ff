(** Histories of edits, flips, removals, turning around a vertex. *)
From Coq Require Import List Arith Lia Bool Permutation.
From Verif Require Import Model_Base Proof_Base Model_Mesh Spec_Mesh Spec_MeshEdit Proof_Mesh Proof_Mesh2 Proof_Mesh3 Proof_Mesh4 Proof_Mesh5 Proof_Mesh6 Proof_Mesh7 Proof_Mesh8 Proof_Mesh9 Proof_Mesh10 Proof_PropMesh.
Import ListNotations.
Local Open Scope nat_scope.

Section Mesh.
Context {C : Type}.
Implicit Types (h : heap C) (fs l es K N : list nat) (f e o v x y : nat) (p : ptr).

(** ** C46 *)
Lemma minv_nil h : minv h [].
Proof. split; [constructor|]. split; [intros f []|]. intros e o (f & [] & _). Qed.
Lemma split_at fs i : i < length fs -> fs = firstn i fs ++ nth i fs 0 :: skipn (S i) fs.
Proof. intros Hi. rewrite <- (firstn_skipn i fs) at 1. f_equal. now apply skipn_S_nth. Qed.

Lemma grow_av h (c : C) : forall k first cur rest, grow_loop k (av h c) first cur rest = grow_loop k h first cur rest.
Proof.
  induction k as [|k IH]; intros; [reflexivity|]. cbn [grow_loop]. change (ends_at_tail (av h c) first) with (ends_at_tail h first).
  destruct (take_first _ _) as [[[e r]|]| | |]; cbn [bind]; auto.
Qed.
Lemma loops_av h (c : C) b : takeClosedLoops (av h c) b = takeClosedLoops h b.
Proof.
  unfold takeClosedLoops. generalize (length b). intros n. revert b. induction n as [|n IH]; intros [|e b]; auto. cbn [take_loops]. rewrite grow_av.
  destruct (grow_loop _ _ _ _ _) as [[l r]| | |]; cbn [bind]; auto. now rewrite IH.
Qed.
Lemma cavity_minv h fs K es (c : C) : minv h fs -> incl K fs -> NoDup K -> getOrientedFacesBoundaries h K = Ok [es] ->
  let h1 := av h c in
  exists h', add_vertex h1 es (nv h) = Ok (h', seq (nf h) (length es)) /\
    minv h' (without K fs ++ seq (nf h) (length es)) /\
    (forall f, In f (without K fs) -> Lf h' f = Lf h f) /\
    (forall i, i < length es -> Lf h' (nf h + i) = [nth i es 0; ne h + 2 * i; ne h + 2 * i + 1]) /\
    (forall i, i < length es -> en h' (nth i es 0) = en h (nth i es 0) /\ en h' (ne h + 2 * i) = Some (nv h) /\
       en h' (ne h + 2 * i + 1) = st h (nth i es 0) /\ op h' (nth i es 0) = op h (nth i es 0)) /\
    (forall x, x < ne h -> ~ In x es -> E h' x = E h x) /\
    (forall x, vco h' x = if x =? nv h then Some c else vco h x) /\ nv h' = S (nv h) /\
    (forall i, i < length es -> op h' (ne h + 2 * i) = Some (ne h + 2 * ((i + 1) mod length es) + 1)) /\ ne h <= ne h'.
Proof.
  intros H IK NK HB. cbn zeta. destruct (minv_av h fs c H) as (H1 & LL).
  assert (EQ : forall K', incl K' fs -> forall e, Live (av h c) K' e <-> Live h K' e).
  { intros K' IK' e. unfold Live. split; intros (f & If & Ie); exists f; (split; [auto|]); [rewrite LL in Ie by auto|rewrite LL by auto]; auto. }
  assert (HB' : getOrientedFacesBoundaries (av h c) K = Ok [es]).
  { destruct (oriented_ok (av h c) fs K H1 IK NK) as (ls & X & _). rewrite X. rewrite <- HB. rewrite <- X.
    unfold getOrientedFacesBoundaries. rewrite (boundary_ok _ fs K H IK), (boundary_ok _ fs K H1 IK).
    assert (Q : alle (av h c) K = alle h K).
    { unfold alle. clear - LL IK. induction K as [|f K IH]; auto. cbn. rewrite LL by (apply IK; now left). f_equal. apply IH. intros g Ig. apply IK. now right. }
    rewrite Q. cbn [bind]. rewrite loops_av. reflexivity. }
  assert (Bv : nv h < nv (av h c)) by (rewrite nv_av; lia).
  destruct (cavity_ok (av h c) fs K es (nv h) H1 IK NK HB' Bv) as (ND & NE & HE & _ & HC & HO).
  assert (IW : incl (without K fs) fs) by (intros g Ig; now apply in_without in Ig).
  destruct (refill (av h c) fs (without K fs) es (nv h)) as (h' & A0 & A1 & A2 & A3 & A4 & A5 & A6 & A7 & A8 & A9 & A10 & A11); auto.
  { apply NoDup_without, H. }
  exists h'. split; [exact A0|]. split; [exact A1|]. split.
  { intros f If. rewrite A2 by auto. apply LL. auto. }
  split; [exact A3|]. split.
  { intros i Hi. destruct (A4 i Hi) as (X1 & X2 & X3 & X4 & _). auto. }
  split; [exact A5|]. split.
  { intros x. rewrite A6. apply vco_av. }
  split; [rewrite A8; apply nv_av|]. split; [intros i Hi; now apply A4|]. rewrite A7. change (ne (av h c)) with (ne h). lia.
Qed.

Lemma step_prop h fs a : mesh_ok h fs -> permitted h fs a -> exists h' fs', perform h fs a = Ok (h', fs') /\ mesh_ok h' fs'.
Proof.
  intros M P. pose proof M as H. apply mesh_ok_iff in H. destruct a as [cs|f e c|a b|f1 f2|i c|K c|i|v|]; cbn [permitted perform] in *.
  - destruct (new_face_ok h fs cs H P) as (h1 & h2 & A & B & D & _). rewrite A. cbn [bind]. rewrite B. cbn [bind].
    do 2 eexists. split; [reflexivity|]. now apply mesh_ok_iff.
  - unfold add_face. destruct e as [i|]; [|do 2 eexists; split; [reflexivity|auto]].
    assert (L : Live h fs i) by (apply (LiveI _ _ _ M), P; auto). rewrite get_e_ok by (now apply (Live_lt _ _ _ H)). cbn [bind].
    destruct (ptr_eqb _ _); [|do 2 eexists; split; [reflexivity|auto]].
    unfold add_face_edge. rewrite get_e_ok by (now apply (Live_lt _ _ _ H)). cbn [bind]. change (he_opp (E h i)) with (op h i).
    destruct (op h i) eqn:O; [do 2 eexists; split; [reflexivity|auto]|].
    destruct (attach_face_ok h fs i c H L O) as (h' & a & b & _ & _ & A & R). rewrite A. cbn [bind].
    do 2 eexists. split; [reflexivity|]. apply mesh_ok_iff. repeat match type of R with _ /\ _ => destruct R as (_ & R) end. exact R.
  - destruct P as (La & Lb & N & Oa & Ob & x & y & S1 & E1 & S2 & E2).
    apply opp_iff in Oa as (_ & Oa). apply opp_iff in Ob as (_ & Ob). apply starts_iff in S1 as (_ & S1 & _). apply starts_iff in S2 as (_ & S2 & _).
    apply ends_iff in E1 as (_ & E1 & _). apply ends_iff in E2 as (_ & E2 & _).
    destruct (link_minv h fs a b) as (A & B); auto; try (now apply (LiveI h fs)). { split; congruence. }
    rewrite A. cbn [bind]. do 2 eexists. split; [reflexivity|]. now apply mesh_ok_iff.
  - destruct P as (I1 & I2 & N & (l1 & F1 & T1) & (l2 & F2 & T2)). apply face_loop_iff, Lf_ok in F1, F2.
    destruct (flip_ok h fs f1 f2) as [(_ & A)|(h' & R)]; auto; try congruence.
    + rewrite A. cbn [bind]. do 2 eexists. split; [reflexivity|auto].
    + destruct R as (e11 & e21 & e31 & e12 & e22 & e32 & v1 & v2 & v3 & v4 & R).
      do 17 (destruct R as (_ & R)). destruct R as (A & R). rewrite A. cbn [bind]. do 2 eexists. split; [reflexivity|].
      apply mesh_ok_iff. repeat match type of R with _ /\ _ => destruct R as (_ & R) end. exact R.
  - cbn [make_vertex]. change (mkh (h_e h) (h_v h ++ [mkhv c None]) (h_f h)) with (av h c). unfold make_vertex.
    rewrite (get_nth fs i 0) by auto. cbn [bind]. destruct (minv_av h fs c H) as (H1 & _). rewrite (split_at fs i P) in H1.
    destruct (add_vertex_face_minv _ _ _ _ (nv h) H1) as (h' & A & B); [rewrite nv_av; lia|].
    change (mkh (h_e h) (h_v h ++ [mkhv c None]) (h_f h)) with (av h c). change (length (h_v h)) with (nv h). rewrite A. cbn [bind].
    do 2 eexists. split; [reflexivity|]. now apply mesh_ok_iff.
  - destruct P as (IK & NK & es & HB). unfold getOrientedFacesBoundary. rewrite HB. cbn [bind front].
    destruct (cavity_minv h fs K es c H IK NK HB) as (h' & A & B & _). unfold make_vertex.
    change (mkh (h_e h) (h_v h ++ [mkhv c None]) (h_f h)) with (av h c). change (length (h_v h)) with (nv h). rewrite A. cbn [bind].
    do 2 eexists. split; [reflexivity|]. now apply mesh_ok_iff.
  - destruct (eraseFace_minv h fs i H P) as (h' & A & B). rewrite A. do 2 eexists. split; [reflexivity|]. now apply mesh_ok_iff.
  - destruct (remove_faces_minv v fs [] h H) as (h' & A & B & _). rewrite A. cbn [bind]. do 2 eexists. split; [reflexivity|].
    apply mesh_ok_iff. exact B.
  - destruct (repair_ok h fs H) as (h' & A & B & _). rewrite A. cbn [bind]. do 2 eexists. split; [reflexivity|].
    apply mesh_ok_iff. now apply (sameE_minv h).
Qed.
Lemma reached_prop h fs : reached h fs -> mesh_ok h fs.
Proof.
  induction 1 as [|h fs a h' fs' R IH P Q]; [apply mesh_ok_iff, minv_nil|].
  destruct (step_prop h fs a IH P) as (h'' & fs'' & A & B). rewrite Q in A. injection A as <- <-. exact B.
Qed.

(** ** C50 *)
Lemma touches_iff h fs f v : minv h fs -> In f fs -> v < nv h -> (touches h f v <-> has_v h v f = true).
Proof.
  intros H If Bv. unfold touches, has_v. rewrite existsb_exists. split.
  - intros (l & e & L & I & Ev). apply face_loop_iff, Lf_ok in L. subst l. exists (Some v). split; [|apply ptr_eqb_refl].
    apply in_map_iff. exists e. split; auto. now apply ends_iff in Ev.
  - intros (q & I & Q). destruct (ptr_eqb_spec (Some v) q) as [<-|]; [|discriminate]. apply in_map_iff in I as (e & Ev & Ie).
    exists (Lf h f), e. split; [apply face_loop_iff, (Lf_of _ fs); auto|]. split; auto. apply ends_iff. split; auto.
    apply (Live_lt _ fs _ H). exists f. auto.
Qed.
Lemma remove_faces_prop h fs v : mesh_ok h fs -> v < length (h_v h) ->
  exists h' kept n, remove_faces h fs v = Ok (h', kept, n) /\ mesh_ok h' kept /\
    (forall f, In f kept <-> In f fs /\ ~ touches h f v) /\ n + length kept = length fs /\
    (forall f l, In f kept -> (face_loop h f l <-> face_loop h' f l)) /\
    (forall e, links_kept h h' e) /\ h_v h' = h_v h /\ h_f h' = h_f h /\
    (forall e, live h' kept e ->
       (forall o, opp_is h' e (Some o) <-> opp_is h e (Some o) /\ exists f, In f kept /\ face_is h o (Some f))).
Proof.
  intros M Bv. pose proof M as H. apply mesh_ok_iff in H.
  destruct (remove_faces_minv v fs [] h H) as (h' & A & B & D & G & K & N & O). cbn [app] in *.
  set (kept := filter (fun f => negb (has_v h v f)) fs) in *.
  exists h', kept, (length (filter (has_v h v) fs)). split; auto. split; [now apply mesh_ok_iff|].
  assert (KI : forall f, In f kept <-> In f fs /\ has_v h v f = false).
  { intros f. unfold kept. rewrite filter_In. rewrite negb_true_iff. tauto. }
  split.
  { intros f. rewrite KI. split; intros (X & Y); (split; [auto|]).
    - intros T. apply (touches_iff h fs) in T; auto. congruence.
    - destruct (has_v h v f) eqn:Z; auto. exfalso. apply Y. now apply (touches_iff h fs). }
  split.
  { unfold kept. clear. induction fs as [|f fs IH]; auto. cbn. destruct (has_v h v f); cbn; lia. }
  assert (LQ : forall f l, floop h f l <-> floop h' f l).
  { intros f l. unfold floop. rewrite <- K. unfold nf, nv, F. rewrite <- D, <- G. split; intros (X1 & X2 & X3 & X4 & X5);
    (split; [auto|]; split; [auto|]; split; [auto|]; split; [auto|]); intros i Hi; specialize (X5 i Hi); destruct (N (nth i l 0)) as (N1 & N2 & N3 & N4);
    [rewrite N1, N2, N3, N4|rewrite N1, N2, N3, N4 in X5]; auto. }
  split. { intros f l _. rewrite !face_loop_iff. apply LQ. }
  split.
  { intros e r. rewrite is_edge_iff. intros (X & Y). exists (op h' e). apply is_edge_iff. split; [lia|].
    destruct (N e) as (N1 & N2 & N3 & N4). rewrite <- Y. unfold en, fc, nx, pv, op in *. rewrite <- N1, <- N2, <- N3, <- N4. now destruct (E h' e). }
  split; auto. split; auto.
  intros e Le o. assert (IK : incl kept fs) by (intros f If; now apply KI in If).
  assert (Le' : Live h kept e).
  { apply (Live_iff h kept). { intros f If. apply (Lf_of _ fs); auto. }
    destruct Le as (f & l & If & Fl & Ie). exists f, l. rewrite face_loop_iff in *. split; auto. split; auto. now apply LQ. }
  rewrite !opp_iff, K, (O e Le'). split.
  - intros (X & Y). destruct (op h e) as [o'|] eqn:Oe; [|discriminate]. destruct (existsb _ _) eqn:Z; [discriminate|]. injection Y as ->.
    split; auto. destruct (minv_pair h fs e o H) as ((f & If & Io) & _); auto. { now apply (Live_incl _ kept). }
    destruct (floop_in _ _ _ _ (Lf_of _ _ _ H If) Io) as (Bo & Fo & _).
    exists f. split; [|apply face_iff; auto]. apply KI. split; auto. destruct (has_v h v f) eqn:W; auto.
    assert (existsb (fun f => ptr_eqb (fc h o) (Some f)) (filter (has_v h v) fs) = true); [|congruence].
    apply existsb_exists. exists f. rewrite filter_In. split; auto. rewrite Fo. apply ptr_eqb_refl.
  - intros ((X & ->) & f & If & Fo). split; auto. destruct (existsb _ _) eqn:Z; auto. exfalso.
    apply existsb_exists in Z as (g & Ig & Q). apply filter_In in Ig as (_ & Ig). apply face_iff in Fo as (_ & Fo).
    destruct (ptr_eqb_spec (fc h o) (Some g)); [|discriminate]. assert (f = g) by congruence. subst g. apply KI in If. destruct If. congruence.
Qed.
Lemma erase_prop h k1 f k2 : mesh_ok h (k1 ++ f :: k2) ->
  exists h', eraseFace h (k1 ++ f :: k2) (length k1) = Ok (h', k1 ++ k2) /\ mesh_ok h' (k1 ++ k2) /\
    (forall g l, face_loop h g l <-> face_loop h' g l) /\
    (forall e, links_kept h h' e) /\ h_v h' = h_v h /\ h_f h' = h_f h /\
    (forall e, live h' (k1 ++ k2) e ->
       (forall o, opp_is h' e (Some o) <-> opp_is h e (Some o) /\ ~ face_is h o (Some f))).
Proof.
  intros M. pose proof M as H. apply mesh_ok_iff in H.
  destruct (cut_minv h k1 f k2 H) as (h' & A & D & G & K & N & O & B).
  assert (If : In f (k1 ++ f :: k2)) by apply in_elt.
  exists h'. split.
  { unfold eraseFace. rewrite (get_nth (k1 ++ f :: k2) (length k1) 0) by (rewrite app_length; cbn; lia).
    rewrite app_nth2, Nat.sub_diag by lia. cbn [nth bind]. rewrite (getFaceEdges_ok _ _ _ (Lf_of _ _ _ H If)). cbn [bind]. rewrite A. cbn [bind].
    do 2 f_equal. f_equal.
    - rewrite firstn_app, Nat.sub_diag, firstn_all. cbn. now rewrite app_nil_r.
    - rewrite skipn_app. replace (S (length k1) - length k1) with 1 by lia. rewrite skipn_all2 by lia. reflexivity. }
  split; [now apply mesh_ok_iff|].
  assert (LQ : forall f l, floop h f l <-> floop h' f l).
  { intros g l. unfold floop. rewrite <- K. unfold nf, nv, F. rewrite <- D, <- G. split; intros (X1 & X2 & X3 & X4 & X5);
    (split; [auto|]; split; [auto|]; split; [auto|]; split; [auto|]); intros i Hi; specialize (X5 i Hi); destruct (N (nth i l 0)) as (N1 & N2 & N3 & N4);
    [rewrite N1, N2, N3, N4|rewrite N1, N2, N3, N4 in X5]; auto. }
  split. { intros g l. rewrite !face_loop_iff. apply LQ. }
  split.
  { intros e r. rewrite is_edge_iff. intros (X & Y). exists (op h' e). apply is_edge_iff. split; [lia|].
    destruct (N e) as (N1 & N2 & N3 & N4). rewrite <- Y. unfold en, fc, nx, pv, op in *. rewrite <- N1, <- N2, <- N3, <- N4. now destruct (E h' e). }
  split; auto. split; auto.
  intros e Le o. assert (IK : incl (k1 ++ k2) (k1 ++ f :: k2)) by (intros g; rewrite !in_app_iff; cbn; tauto).
  assert (Le' : Live h (k1 ++ k2) e).
  { apply (Live_iff h (k1 ++ k2)). { intros g Ig. apply (Lf_of _ (k1 ++ f :: k2)); auto. }
    destruct Le as (g & l & Ig & Fl & Ie). exists g, l. rewrite face_loop_iff in *. split; auto. split; auto. now apply LQ. }
  rewrite !opp_iff, K, (O e Le'), face_iff. split.
  - intros (X & Y). destruct (op h e) as [o'|] eqn:Oe; [|discriminate]. destruct (ptr_eqb_spec (fc h o') (Some f)); [discriminate|]. injection Y as ->.
    split; auto. intros (_ & Q). contradiction.
  - intros ((X & Y) & Z). rewrite Y. split; auto. destruct (ptr_eqb_spec (fc h o) (Some f)) as [Q|]; auto. exfalso. apply Z. split; auto.
    apply (Live_lt _ _ _ H). apply (minv_pair h (k1 ++ f :: k2) e); auto. now apply (Live_incl _ (k1 ++ k2)).
Qed.
Lemma repair_prop h fs : mesh_ok h fs ->
  exists h', repairVertexEdges h fs = Ok h' /\ mesh_ok h' fs /\ vertices_ok h' fs /\ h_e h' = h_e h /\ h_f h' = h_f h /\ coords_kept h h'.
Proof.
  intros M. pose proof M as H. apply mesh_ok_iff in H. destruct (repair_ok h fs H) as (h' & A & S & V & R). exists h'. split; auto.
  destruct (sameE_minv h h' fs S H) as (H' & LL). assert (M' : mesh_ok h' fs) by now apply mesh_ok_iff. split; auto.
  assert (LQ : forall e, Live h' fs e <-> Live h fs e).
  { intros e. unfold Live. split; intros (f & If & Ie); exists f; (split; [auto|]); [rewrite <- LL|rewrite LL]; auto. }
  split.
  { intros e v Le Ev. apply (LiveI _ _ _ M'), LQ in Le. apply ends_iff in Ev as (E1 & E2 & E3). rewrite (sameE_en h h' e S) in E2.
    destruct (R e v Le E2) as (e' & R1 & R2 & R3). exists e'. rewrite vedge_iff, ends_iff, (sameE_en h h' e' S), (sameE_ne h h' S).
    split; auto. split; [apply (LiveI _ _ _ M'); now apply LQ|]. split; auto. now apply (Live_lt _ fs). }
  destruct S as (S1 & S2 & _). split; auto. split; auto. apply coords_kept_vco. auto.
Qed.

(** ** C61 *)
Lemma turns_rot h fs e x : minv h fs -> Live h fs e -> (turns_to h e x <-> rot h e x).
Proof.
  intros H L. split.
  - intros T. revert L. induction T as [|e o p x O P T IH]; intros L; [constructor|].
    apply opp_iff in O as (_ & O). apply prev_iff in P as (_ & P).
    assert (S : sig h e = Some p) by (unfold sig; now rewrite O). apply rot_step with p; auto. apply IH.
    apply (rot_live h fs e p); auto. eapply rot_step; eauto. constructor.
  - intros T. revert L. induction T as [|e q x S T IH]; intros L; [constructor|]. pose proof S as S'. unfold sig in S. destruct (op h e) as [o|] eqn:O; [|discriminate].
    apply turns_on with o q.
    + apply opp_iff. split; auto. now apply (Live_lt _ fs).
    + apply prev_iff. split; auto. apply (Live_lt _ fs); auto. now apply (minv_pair h fs e).
    + apply IH. apply (rot_live h fs e q); auto. eapply rot_step; eauto. constructor.
Qed.
Lemma is_boundary_prop h fs v e : mesh_ok h fs -> live h fs e -> vedge_is h v (Some e) ->
  exists b, is_boundary h v = Ok b /\ (b = false <-> exists x, turns_to h e x /\ opp_is h x None).
Proof.
  intros M L V. pose proof M as H. apply mesh_ok_iff in H. apply (LiveI _ _ _ M) in L. apply vedge_iff in V as (Bv & V).
  destruct (is_boundary_ok h fs v e H L Bv V) as (b & A & B). exists b. split; auto. rewrite B. split; intros (x & X & Y); exists x.
  - split; [now apply (turns_rot h fs)|]. apply opp_iff. split; auto. apply (Live_lt _ fs); auto. now apply (rot_live h fs e).
  - split; [now apply (turns_rot h fs)|]. now apply opp_iff in Y.
Qed.
(** an interior vertex is called a boundary vertex *)
Lemma interior_prop h fs v e : mesh_ok h fs -> live h fs e -> vedge_is h v (Some e) -> ends h e v ->
  (forall x, live h fs x -> ends h x v -> exists o, opp_is h x (Some o)) -> is_boundary h v = Ok true.
Proof.
  intros M L V Ev Q. destruct (is_boundary_prop h fs v e M L V) as (b & A & B). rewrite A. destruct b; auto. exfalso.
  destruct B as (B & _). destruct (B eq_refl) as (x & T & O). pose proof M as H. apply mesh_ok_iff in H. apply (LiveI _ _ _ M) in L.
  apply (turns_rot h fs) in T; auto. destruct (rot_live h fs e x H T L) as (Lx & Ex). apply ends_iff in Ev as (E1 & E2 & E3).
  destruct (Q x) as (o & Ho). { now apply (LiveI _ _ _ M). } { apply ends_iff. split; [now apply (Live_lt _ fs)|]. split; [congruence|auto]. }
  apply opp_iff in Ho, O. destruct Ho, O. congruence.
Qed.
Lemma no_opposite_prop h v e : vedge_is h v (Some e) -> opp_is h e None -> is_boundary h v = Ok false.
Proof.
  intros V O. apply vedge_iff in V as (Bv & V). apply opp_iff in O as (Be & O). unfold is_boundary.
  destruct (get_v_ok h v Bv) as (r & R1 & R2 & _). rewrite R1. cbn [bind]. rewrite R2, V. cbn [deref bind].
  change (length (h_e h)) with (ne h). destruct (ne h) eqn:N; [lia|]. cbn [turn]. rewrite get_e_ok by lia. cbn [bind].
  change (he_opp (E h e)) with (op h e). now rewrite O.
Qed.
End Mesh.
