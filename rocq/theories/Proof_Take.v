(** Proofs about the removal of the faces on one side of a boundary. *)
From Coq Require Import Reals List Arith Bool Lia Lra.
From Verif Require Import Model_Base Model_Knots Model_Mesh Model_Geom Model_Tess Model_Refine Model_Quality Model_Take
  Spec_Base Spec_Mesh Spec_MeshEdit Spec_Geom Spec_Tess Spec_Refine Spec_Quality
  Proof_Base Proof_Mesh Proof_Mesh2 Proof_Mesh3 Proof_Mesh4 Proof_PropMesh Proof_PropMesh2 Proof_Tess Proof_Tess2 Proof_Tess5 Proof_Tess6 Proof_PropTess2.
Import ListNotations.
Local Open Scope nat_scope.

(** ** What does not look at the opposites *)
Definition same4 (h h' : plane) := h_v h' = h_v h /\ h_f h' = h_f h /\ ne h' = ne h /\
  forall x, en h' x = en h x /\ fc h' x = fc h x /\ nx h' x = nx h x /\ pv h' x = pv h x.
Lemma same4_refl h : same4 h h.
Proof. repeat split. Qed.
Lemma same4_trans h1 h2 h3 : same4 h1 h2 -> same4 h2 h3 -> same4 h1 h3.
Proof.
  intros (A1 & A2 & A3 & A4) (B1 & B2 & B3 & B4). split; [congruence|]. split; [congruence|]. split; [congruence|].
  intros x. destruct (A4 x) as (<- & <- & <- & <-). apply B4.
Qed.
Lemma get_e_none (h : plane) e : ~ e < ne h -> get_e h e = Undef BadIndex.
Proof. intros H. unfold get_e, get. replace (nth_error (h_e h) e) with (@None hedge); [reflexivity|]. symmetry. apply nth_error_None. unfold ne in H. lia. Qed.
Lemma end_of_same h h' e : same4 h h' -> end_of h' e = end_of h e.
Proof.
  intros (_ & _ & K & N). unfold end_of. destruct (lt_dec e (ne h)) as [L|L].
  - rewrite !get_e_ok by lia. cbn [bind]. destruct (N e) as (X & _). unfold en in X. now rewrite X.
  - rewrite !get_e_none by lia. reflexivity.
Qed.
Lemma prev_of_same h h' e : same4 h h' -> prev_of h' e = prev_of h e.
Proof.
  intros (_ & _ & K & N). unfold prev_of. destruct (lt_dec e (ne h)) as [L|L].
  - rewrite !get_e_ok by lia. cbn [bind]. destruct (N e) as (_ & _ & _ & X). unfold pv in X. now rewrite X.
  - rewrite !get_e_none by lia. reflexivity.
Qed.
Lemma end_coords_same h h' e : same4 h h' -> end_coords h' e = end_coords h e.
Proof. intros S. unfold end_coords. rewrite (end_of_same h h' e S). destruct S as (V & _). destruct (end_of h e); cbn [bind]; auto. unfold get_v. now rewrite V. Qed.
Lemma start_coords_same h h' e : same4 h h' -> start_coords h' e = start_coords h e.
Proof. intros S. unfold start_coords. rewrite (prev_of_same h h' e S). destruct (prev_of h e); cbn [bind]; auto. now apply end_coords_same. Qed.
Lemma floop_same h h' f l : same4 h h' -> floop h f l -> floop h' f l.
Proof.
  intros (V & F' & K & N) L. apply (floop_frame h h' f l L); try (unfold nv, nf, F; rewrite ?V, ?F'; auto; lia).
Qed.

Section AtR.
Variable eps : R.
Local Hint Extern 0 (Num R) => exact (NumR eps) : typeclass_instances.

Lemma ray_same h h' q tol es : same4 h h' -> forall b, ray_cast h' q es tol b = ray_cast h q es tol b.
Proof.
  intros S. induction es as [|e es IH]; intros b; [reflexivity|]. cbn [ray_cast]. rewrite (start_coords_same h h' e S), (end_coords_same h h' e S).
  destruct (start_coords h e) as [a| | |]; cbn [bind]; auto. destruct (end_coords h e) as [c| | |]; cbn [bind]; auto.
  destruct (on_segment a c q tol); auto. destruct (xorb _ _); apply IH.
Qed.
Lemma centroid_same h h' f l es tol : same4 h h' -> floop h f l -> is_centroid_inside_boundary h' f es tol = is_centroid_inside_boundary h f es tol.
Proof.
  intros S L. unfold is_centroid_inside_boundary, getFaceCoords. rewrite (getFaceEdges_ok h f l L), (getFaceEdges_ok h' f l (floop_same _ _ _ _ S L)). cbn [bind].
  replace (mapM (end_coords h') l) with (mapM (end_coords h) l). { destruct (mapM (end_coords h) l); cbn [bind]; auto. destruct (divc _ _); cbn [bind]; auto. unfold is_inside. now rewrite (ray_same h h'). }
  clear L. induction l as [|e l IH]; [reflexivity|]. cbn [mapM]. rewrite (end_coords_same h h' e S), IH. reflexivity.
Qed.

(** ** The loop *)
Lemma find_face_ok (t : nat -> result bool) (P : nat -> bool) fs : (forall f, In f fs -> t f = Ok (P f)) ->
  (find_face t fs = Ok None /\ filter P fs = [] /\ filter (fun f => negb (P f)) fs = fs) \/
  exists k1 f k2, fs = k1 ++ f :: k2 /\ find_face t fs = Ok (Some (length k1)) /\ P f = true /\ filter P k1 = [] /\ filter (fun f => negb (P f)) k1 = k1.
Proof.
  induction fs as [|g fs IH]; intros H; [left; auto|]. cbn [find_face filter]. rewrite (H g (or_introl eq_refl)). cbn [bind]. destruct (P g) eqn:Pg.
  - right. exists [], g, fs. cbn. auto.
  - destruct IH as [(A & B & D)|(k1 & f & k2 & -> & A & B & D & D')]. { intros; apply H; cbn; auto. }
    + left. rewrite A. cbn. now rewrite B, D.
    + right. exists (g :: k1), f, k2. rewrite A. cbn. rewrite Pg. cbn. rewrite D, D'. auto.
Qed.
Lemma take_loop_ok (test : plane -> nat -> result bool) (P : nat -> bool)
  (TS : forall h h' f l, same4 h h' -> floop h f l -> test h' f = test h f) : forall n h fs taken, length fs < n -> minv h fs -> (forall f, In f fs -> test h f = Ok (P f)) ->
  exists h', take_loop n test h fs taken = Ok (h', filter (fun f => negb (P f)) fs, taken ++ filter P fs) /\
    minv h' (filter (fun f => negb (P f)) fs) /\ same4 h h' /\
    (forall e, Live h (filter (fun f => negb (P f)) fs) e ->
      op h' e = match op h e with
                | Some o => if existsb (fun f => ptr_eqb (fc h o) (Some f)) (filter P fs) then None else Some o
                | None => None end).
Proof.
  induction n as [|n IH]; intros h fs taken Hn M HT; [lia|]. cbn [take_loop].
  destruct (find_face_ok (test h) P fs HT) as [(A & B & D)|(k1 & f & k2 & Q & A & B & D & D')]; rewrite A; cbn [bind].
  - exists h. rewrite B, D, app_nil_r. split; [reflexivity|]. split; [exact M|]. split; [apply same4_refl|]. intros e _. cbn. now destruct (op h e).
  - pose proof M as M0. rewrite Q in M. assert (If : In f fs) by (rewrite Q; apply in_elt).
    destruct (cut_minv h k1 f k2 M) as (h1 & A0 & A1 & A2 & A3 & A4 & A5 & A6). assert (S1 : same4 h h1) by (repeat split; auto; apply A4).
    rewrite (get_nth fs (length k1) 0) by (rewrite Q, app_length; cbn; lia).
    assert (NF : nth (length k1) fs 0 = f) by (rewrite Q, app_nth2, Nat.sub_diag by lia; reflexivity). rewrite NF. cbn [bind].
    assert (EF : eraseFace h fs (length k1) = Ok (h1, k1 ++ k2)).
    { unfold eraseFace. rewrite (get_nth fs (length k1) 0) by (rewrite Q, app_length; cbn; lia). rewrite NF. cbn [bind].
      rewrite (getFaceEdges_ok _ _ _ (Lf_of _ _ _ M0 If)). cbn [bind]. rewrite A0. cbn [bind]. rewrite Q. do 2 f_equal. f_equal.
      - rewrite firstn_app, Nat.sub_diag, firstn_all. cbn. now rewrite app_nil_r.
      - rewrite skipn_app. replace (S (length k1) - length k1) with 1 by lia. rewrite skipn_all2 by lia. reflexivity. }
    rewrite EF. cbn [bind].
    assert (FP : filter P fs = f :: filter P (k1 ++ k2)). { rewrite Q, !filter_app, D. cbn. now rewrite B. }
    assert (FN : filter (fun f => negb (P f)) fs = filter (fun f => negb (P f)) (k1 ++ k2)). { rewrite Q, !filter_app. cbn. now rewrite B. }
    assert (IK : incl (k1 ++ k2) fs) by (rewrite Q; intros g; rewrite !in_app_iff; cbn; tauto).
    assert (LL : forall g, In g fs -> Lf h1 g = Lf h g).
    { intros g Ig. apply (Lf_ok h1 g (Lf h g)). apply (floop_same h h1); [exact S1|]. now apply (Lf_of _ fs). }
    assert (OPS : forall h' : plane, (forall e, Live h1 (filter (fun f => negb (P f)) (k1 ++ k2)) e ->
        op h' e = match op h1 e with Some o => if existsb (fun f => ptr_eqb (fc h1 o) (Some f)) (filter P (k1 ++ k2)) then None else Some o | None => None end) ->
      forall e, Live h (filter (fun f => negb (P f)) fs) e ->
        op h' e = match op h e with Some o => if existsb (fun f => ptr_eqb (fc h o) (Some f)) (filter P fs) then None else Some o | None => None end).
    { intros h' B6 e Le. rewrite FN in Le. rewrite B6.
      - rewrite A5. 2:{ apply Live_incl with (2 := Le). intros g. rewrite filter_In. tauto. }
        rewrite FP. destruct (op h e) as [o|]; auto. cbn [existsb]. destruct (ptr_eqb (fc h o) (Some f)); cbn [orb]; auto. destruct (A4 o) as (_ & -> & _). reflexivity.
      - destruct Le as (g & Ig & Ie). exists g. split; [auto|]. rewrite LL; auto. apply IK. now apply filter_In in Ig. }
    destruct (Nat.eqb_spec (length k1) (length (k1 ++ k2))) as [E|E].
    + assert (k2 = []) as -> by (rewrite app_length in E; destruct k2; [auto|cbn in E; lia]). rewrite app_nil_r in *.
      exists h1. rewrite FP, FN, D, D'. split; [reflexivity|]. split; [exact A6|]. split; [exact S1|].
      intros e Le. rewrite <- D' in Le. rewrite <- FN in Le. rewrite <- D. rewrite <- FP. apply OPS; [|exact Le]. intros e' Le'. rewrite D. cbn. now destruct (op h1 e').
    + destruct (IH h1 (k1 ++ k2) (taken ++ [f])) as (h' & B0 & B1 & B2 & B3).
      { rewrite Q in Hn. rewrite app_length in *. cbn in Hn. lia. } { exact A6. }
      { intros g Ig. rewrite (TS h h1 g (Lf h g) S1); [apply HT; auto|]. apply (Lf_of _ fs); auto. }
      exists h'. rewrite FP, FN. rewrite B0. split; [rewrite <- app_assoc; reflexivity|]. split; [exact B1|]. split; [now apply (same4_trans h h1)|].
      rewrite <- FN, <- FP. apply OPS. exact B3.
Qed.

Lemma take_prop (test : plane -> nat -> result bool) (P : nat -> bool) h fs
  (TS : forall h h' f l, same4 h h' -> floop h f l -> test h' f = test h f) :
  mesh_ok h fs -> (forall f, In f fs -> test h f = Ok (P f)) ->
  let kept := filter (fun f => negb (P f)) fs in
  exists h', take_faces test h fs = Ok (h', kept, filter P fs) /\ same4 h h' /\ mesh_ok h' kept /\
    (forall f l, face_loop h f l <-> face_loop h' f l) /\
    (forall e, links_kept h h' e) /\ h_v h' = h_v h /\ h_f h' = h_f h /\
    (forall e, live h' kept e ->
       (forall o, opp_is h' e (Some o) <-> opp_is h e (Some o) /\ exists f, In f kept /\ face_is h o (Some f))).
Proof.
  intros M HT kept. pose proof M as H. apply mesh_ok_iff in H.
  destruct (take_loop_ok test P TS (S (length fs)) h fs [] (Nat.lt_succ_diag_r _) H HT) as (h' & A & B & S4 & O). destruct S4 as (D & G & K & N). fold kept in A, B, O.
  exists h'. split. { unfold take_faces. destruct fs as [|f0 fs0]; [|exact A]. cbn in A |- *. congruence. }
  split; [repeat split; auto; apply N|].
  split; [now apply mesh_ok_iff|].
  assert (KI : forall f, In f kept <-> In f fs /\ P f = false).
  { intros f. unfold kept. rewrite filter_In. rewrite negb_true_iff. tauto. }
  assert (LQ : forall f l, floop h f l <-> floop h' f l).
  { intros f l. split; [apply floop_same; repeat split; auto; apply N|].
    apply floop_same. repeat split; auto; symmetry; apply N. }
  split. { intros f l. rewrite !face_loop_iff. apply LQ. }
  split.
  { intros e r. rewrite is_edge_iff. intros (X & Y). exists (op h' e). apply is_edge_iff. split; [lia|].
    destruct (N e) as (N1 & N2 & N3 & N4). rewrite <- Y. unfold en, fc, nx, pv, op in *. rewrite <- N1, <- N2, <- N3, <- N4. now destruct (E h' e). }
  split; auto. split; auto.
  intros e Le o. assert (IK : incl kept fs) by (intros f If; now apply KI in If).
  assert (Le' : Live h kept e).
  { apply (Live_iff h kept). { intros f If. apply (Lf_of _ fs); auto. }
    destruct Le as (f & l & If & Fl & Ie). exists f, l. rewrite face_loop_iff in *. split; auto. split; auto. now apply LQ. }
  rewrite !opp_iff, K, (O e Le'). split.
  - intros (X & Y). destruct (op h e) as [o'|] eqn:Oe; [|discriminate]. destruct (existsb _ _) eqn:Z; [discriminate|]. injection Y as ->.
    split; auto. destruct (minv_pair h fs e o H) as ((f & If & Io) & _); auto. { now apply (Live_incl _ kept). }
    destruct (floop_in _ _ _ _ (Lf_of _ _ _ H If) Io) as (Bo & Fo & _).
    exists f. split; [|apply face_iff; auto]. apply KI. split; auto. destruct (P f) eqn:W; auto.
    assert (existsb (fun f => ptr_eqb (fc h o) (Some f)) (filter P fs) = true); [|congruence].
    apply existsb_exists. exists f. rewrite filter_In. split; auto. rewrite Fo. apply ptr_eqb_refl.
  - intros ((X & ->) & f & If & Fo). split; auto. destruct (existsb _ _) eqn:Z; auto. exfalso.
    apply existsb_exists in Z as (g & Ig & Q). apply filter_In in Ig as (_ & Ig). apply face_iff in Fo as (_ & Fo).
    destruct (ptr_eqb_spec (fc h o) (Some g)); [|discriminate]. assert (f = g) by congruence. subst g. apply KI in If. destruct If. congruence.
Qed.
End AtR.
