(** Insertion of a point in a triangulation with empty circles: the cavity is the set of all the
    triangles whose circle contains the point, and its boundary is one closed chain around it. *)
From Coq Require Import List Arith Lia Bool Reals Lra Permutation ZArith.
From Verif Require Import Model_Base Model_Mesh Model_Geom Model_Tess Spec_Mesh Spec_MeshEdit Spec_Geom Proof_Base
  Proof_Mesh Proof_Mesh2 Proof_Mesh3 Proof_Mesh4 Proof_Mesh9 Proof_PropMesh Proof_PropMesh2 Proof_PropMesh3 Proof_Plane Proof_Geom
  Proof_Tess Proof_Tess2 Proof_Tess3 Proof_Tess4 Proof_Tess5 Proof_Del1.
Import ListNotations.
Local Open Scope nat_scope.

Notation C := (R * R)%type.
Implicit Types (h : heap C) (fs K S l es : list nat) (f e : nat) (xy p q : C).

(** ** The circle of a face *)
Definition circ h f (o : C) r2 : Prop := forall e, In e (Lf h f) -> dist2 (ec h e) o = r2.
Lemma circ_tri h f o r2 e1 e2 e3 : Lf h f = [e1; e2; e3] -> (circ h f o r2 <-> circle_through o r2 [ec h e1; ec h e2; ec h e3]).
Proof.
  intros Q. unfold circ, circle_through. rewrite Q. cbn. split.
  - intros H p [<-|[<-|[<-|[]]]]; apply H; auto.
  - intros H e [<-|[<-|[<-|[]]]]; apply H; auto.
Qed.
Lemma circ_exists h fs f : tmesh h fs -> In f fs -> exists o r2, circ h f o r2.
Proof.
  intros (H & HT) If. destruct (HT f If) as (e1 & e2 & e3 & Q & W). destruct (circle_exists (ec h e1) (ec h e2) (ec h e3)) as (o & r2 & X); [unfold ccw in W; lra|].
  exists o, r2. now apply (circ_tri h f o r2 e1 e2 e3).
Qed.
Definition bad h f p : Prop := exists o r2, circ h f o r2 /\ (pow o r2 p < 0)%R.
Lemma in_circle_face_bad eps h fs xy f : tmesh h fs -> In f fs ->
  exists d, @in_circle_face R (NumR eps) h xy f = Ok d /\ forall o r2, circ h f o r2 -> ((0 < d)%R <-> (pow o r2 xy < 0)%R).
Proof.
  intros (H & HT) If. destruct (HT f If) as (e1 & e2 & e3 & Q & W). pose proof (Lf_of _ _ _ H If) as L. rewrite Q in L.
  unfold in_circle_face. rewrite (triangle_coords_ok _ _ _ _ _ L). cbn [bind]. eexists. split; [reflexivity|].
  intros o r2 X. apply (circ_tri h f o r2 e1 e2 e3 Q) in X. destruct (in_circle_sign eps _ _ _ xy _ _ X) as (Y & _).
  destruct (Y W) as (Z & _). rewrite Z. unfold pow. split; lra.
Qed.
Lemma bad_all h fs f p o r2 : tmesh h fs -> In f fs -> bad h f p -> circ h f o r2 -> (pow o r2 p < 0)%R.
Proof.
  intros TM If (o' & r2' & X & Y) Z. destruct (in_circle_face_bad 0 h fs p f TM If) as (d & _ & D). apply (D o r2 Z). now apply (D o' r2' X).
Qed.
Lemma bad_dec h fs f p : tmesh h fs -> In f fs -> bad h f p \/ (forall o r2, circ h f o r2 -> (0 <= pow o r2 p)%R).
Proof.
  intros TM If. destruct (circ_exists h fs f TM If) as (o & r2 & X). destruct (Rlt_dec (pow o r2 p) 0) as [Y|Y].
  - left. exists o, r2. auto.
  - right. intros o' r2' X'. apply Rnot_lt_le. intros Z. apply Y. apply (bad_all h fs f p); auto. exists o', r2'. auto.
Qed.

(** ** The flood *)
Section AtR.
Variable eps : R.
Local Hint Extern 0 (Num R) => exact (NumR eps) : typeclass_instances.
Definition nb h fs f g := exists e o, In e (Lf h f) /\ op h e = Some o /\ In g fs /\ In o (Lf h g).
Lemma visit_bad h fs xy : tmesh h fs -> forall es K stack, (forall e, In e es -> Live h fs e) -> NoDup K -> incl K fs -> incl stack K ->
  exists N, visit h xy es K stack = Ok (K ++ N, rev N ++ stack) /\ NoDup (K ++ N) /\ incl (K ++ N) fs /\
    (forall g, In g N -> bad h g xy) /\
    (forall e o g, In e es -> op h e = Some o -> In g fs -> In o (Lf h g) -> bad h g xy -> In g (K ++ N)).
Proof.
  intros TM. pose proof TM as (H & HT). induction es as [|e es IH]; intros K stack HL ND IK IS; cbn [visit].
  - exists []. rewrite app_nil_r. repeat (split; auto). intros ? [].  intros ? ? ? [].
  - assert (Le : Live h fs e) by (apply HL; now left). assert (HL' : forall x, In x es -> Live h fs x) by (intros; apply HL; now right).
    rewrite get_e_ok by (now apply (Live_lt _ fs)). cbn [bind]. fold (op h e).
    assert (SKIP : (forall o g, op h e = Some o -> In g fs -> In o (Lf h g) -> bad h g xy -> In g K) ->
      exists N, visit h xy es K stack = Ok (K ++ N, rev N ++ stack) /\ NoDup (K ++ N) /\ incl (K ++ N) fs /\
        (forall g, In g N -> bad h g xy) /\
        (forall e0 o g, In e0 (e :: es) -> op h e0 = Some o -> In g fs -> In o (Lf h g) -> bad h g xy -> In g (K ++ N))).
    { intros SK. destruct (IH K stack HL' ND IK IS) as (N & A & B & D & E1 & E2). exists N. repeat (split; auto).
      intros e0 o g [<-|I0] O Ig Io Bg; [apply in_or_app; left; eauto|eauto]. }
    destruct (op h e) as [o|] eqn:OP; [|apply SKIP; congruence].
    destruct (minv_pair _ _ _ _ H Le OP) as ((g & Ig & Io) & _). destruct (floop_in _ _ _ _ (Lf_of _ _ _ H Ig) Io) as (Bo & Fo & _).
    assert (UQ : forall g', In g' fs -> In o (Lf h g') -> g' = g) by (intros g' Ig' Io'; apply (floop_face h g' g (Lf h g') (Lf h g) o); auto; apply (Lf_of _ _ _ H); auto).
    rewrite get_e_ok by auto. cbn [bind]. fold (fc h o). rewrite Fo. destruct (mem g K) eqn:M.
    { apply SKIP. intros o' g' [= <-] Ig' Io' _. rewrite (UQ g' Ig' Io'). now apply mem_iff. }
    destruct (in_circle_face_bad eps h fs xy g TM Ig) as (d & -> & DB). cbn [bind]. nsimp.
    destruct (circ_exists h fs g TM Ig) as (oo & rr & CI). destruct (Rltb_spec 0 d) as [LT|NL].
    + assert (NM : ~ In g K) by (intros J; apply mem_iff in J; congruence).
      destruct (IH (K ++ [g]) (g :: stack)) as (N & A & B & D & E1 & E2); auto.
      * apply NoDup_app_intro; auto; [repeat constructor; auto|]. intros x Ix [<-|[]]; auto.
      * intros x Ix. apply in_app_or in Ix as [Ix|[<-|[]]]; auto.
      * intros x [<-|Ix]; apply in_or_app; cbn; auto.
      * exists (g :: N). rewrite A. rewrite <- app_assoc in *. cbn [app rev] in *. rewrite <- app_assoc. repeat (split; auto).
        -- intros x [<-|Ix]; auto. exists oo, rr. split; auto. now apply (DB oo rr CI).
        -- intros e0 o0 g0 [<-|I0] O Ig0 Io0 Bg; [|eauto]. assert (o0 = o) by congruence. subst o0. rewrite (UQ g0 Ig0 Io0). apply in_or_app. right. now left.
    + apply SKIP. intros o' g' [= <-] Ig' Io' Bg'. exfalso. rewrite (UQ g' Ig' Io') in Bg'. pose proof (bad_all h fs g xy oo rr TM Ig Bg' CI) as Z. apply (DB oo rr CI) in Z. lra.
Qed.
Lemma flood_bad h fs xy : tmesh h fs -> forall fuel K stack, NoDup K -> incl K fs -> incl stack K ->
  length fs - length K + length stack <= fuel ->
  (forall f, In f K -> In f stack \/ forall g, nb h fs f g -> bad h g xy -> In g K) ->
  (forall f, In f K -> bad h f xy) ->
  exists K', flood fuel h xy K stack = Ok K' /\ NoDup K' /\ incl K' fs /\ incl K K' /\
    (forall f, In f K' -> bad h f xy) /\ (forall f g, In f K' -> nb h fs f g -> bad h g xy -> In g K').
Proof.
  intros TM. pose proof TM as (H & HT). induction fuel as [|k IH]; intros K stack ND IK IS HF CL BD;
    (destruct stack as [|f stack]; cbn [flood]; [exists K; repeat (split; auto using incl_refl); intros f g If; destruct (CL f If) as [[]|X]; auto|]).
  - cbn in HF. lia.
  - assert (If : In f fs) by (apply IK, IS; now left). destruct (HT f If) as (e1 & e2 & e3 & Q & _). pose proof (Lf_of _ _ _ H If) as L. rewrite Q in L.
    rewrite (getTriangleEdges_ok _ _ _ _ _ L). cbn [bind].
    destruct (visit_bad h fs xy TM [e2; e1; e3] K stack) as (N & A & B & D & E1 & E2); auto.
    { intros e I. exists f. split; auto. rewrite Q. cbn in *. tauto. } { intros x Ix. apply IS. now right. }
    rewrite A. cbn [bind]. destruct (IH (K ++ N) (rev N ++ stack)) as (K' & X1 & X2 & X3 & X4 & X5 & X6); auto.
    { intros x Ix. apply in_or_app. apply in_app_or in Ix as [Ix|Ix]; [right; now apply in_rev|left; apply IS; now right]. }
    { assert (length (K ++ N) <= length fs) by (now apply NoDup_incl_length). rewrite !app_length, rev_length in *. cbn in HF. lia. }
    { intros x Ix. apply in_app_or in Ix as [Ix|Ix]; [|left; apply in_or_app; left; now apply -> in_rev].
      destruct (CL x Ix) as [[<-|Jx]|Jx].
      - right. intros g (e & o & Ie & O & Ig & Io) Bg. apply (E2 e o g); auto. rewrite Q in Ie. cbn in *. tauto.
      - left. apply in_or_app. auto.
      - right. intros g Ng Bg. apply in_or_app. left. auto. }
    { intros x Ix. apply in_app_or in Ix as [Ix|Ix]; auto. }
    exists K'. repeat (split; auto). intros x Ix. apply X4. apply in_or_app. auto.
Qed.
End AtR.

(** ** Sets of faces *)
(** the boundary of a set of faces *)
Definition bdry h S := filter (fun e => negb (inK h S e)) (alle h S).
Lemma bdry_sum g h fs S : (forall a b, g b a = (- g a b)%R) -> minv h fs -> incl S fs -> NoDup S -> G g h (alle h S) = G g h (bdry h S).
Proof.
  intros AN H IS NS. unfold G. rewrite (sumR_perm _ _ _ (filter_perm (inK h S) (alle h S))), sumR_app.
  pose proof (interior_zero g AN h fs S H IS NS) as Z. unfold G in Z. rewrite Z. unfold bdry. lra.
Qed.
Lemma balanced_sum h b : balanced h b -> forall ph : ptr -> R, sumR (fun e => ph (en h e)) b = sumR (fun e => ph (st h e)) b.
Proof.
  intros B ph. rewrite <- (sumR_map ph (en h)), <- (sumR_map ph (st h)). apply sumR_perm.
  apply (Permutation_count_occ ptr_dec). intros p. apply B.
Qed.
Lemma closed_balanced h l : closed h l -> balanced h l.
Proof.
  intros (T & N & E) p. destruct l as [|e l]; [congruence|]. pose proof (trail_count h l e T p) as X. rewrite E in X. cbn [hd] in X. lia.
Qed.
Lemma cross_sum h fs : tmesh h fs -> forall S, incl S fs -> S <> [] -> (0 < G cross h (alle h S))%R.
Proof.
  intros TM. pose proof TM as (_ & HT).
  assert (P : forall S, incl S fs -> (0 <= G cross h (alle h S))%R /\ (S <> [] -> (0 < G cross h (alle h S))%R)).
  { induction S as [|f S IH]; intros I.
    - unfold G, alle. cbn. split; [lra|congruence].
    - assert (If : In f fs) by (apply I; now left). destruct IH as (P & _); [intros x Ix; apply I; now right|].
      destruct (HT f If) as (e1 & e2 & e3 & Q & W). unfold alle. cbn [flat_map]. fold (alle h S).
      rewrite G_app, (face_cross _ _ _ _ _ (tm_L _ _ _ TM If) Q). unfold ccw in W. split; [lra|]. intros _. lra. }
  intros S I. apply P. exact I.
Qed.
Lemma bdry_nonempty h fs S : tmesh h fs -> incl S fs -> NoDup S -> S <> [] -> bdry h S <> [].
Proof.
  intros TM I ND NE Z. pose proof (cross_sum h fs TM S I NE) as P. rewrite (bdry_sum cross h fs S cross_anti) in P; auto; [|apply TM].
  rewrite Z in P. unfold G in P. cbn in P. lra.
Qed.
Lemma strict_near h p : forall es, (forall e, In e es -> (0 < orr (sc h e) (ec h e) p)%R) ->
  exists d, (0 < d)%R /\ forall q, near d p q -> forall e, In e es -> (0 < orr (sc h e) (ec h e) q)%R.
Proof.
  induction es as [|e es IH]; intros L.
  - exists 1%R. split; [lra|]. intros q _ e [].
  - destruct IH as (d & D & E); [intros; apply L; now right|]. destruct (orr_near _ _ _ (L e (or_introl eq_refl))) as (d' & D' & E').
    exists (Rmin d d'). split; [now apply Rmin_glb_lt|]. intros q N x [<-|Ix].
    + apply E'. eapply near_mono; [exact N|apply Rmin_r].
    + apply (E q); auto. eapply near_mono; [exact N|apply Rmin_l].
Qed.
(** a point near p in general position in a face that contains p *)
Lemma near_face h fs f p d : tmesh h fs -> In f fs -> inc h f p -> (0 < d)%R -> exists q, near d p q /\ offe h fs q /\ inf h f q.
Proof.
  intros TM If I D. destruct (toward h fs f p (d / 2) TM If I) as (q1 & N1 & I1); [lra|].
  destruct (inf_near _ _ _ _ TM If I1) as (d2 & D2 & E2).
  destruct (gen_off h fs h fs q1 (Rmin (d / 2) d2) TM TM) as (q2 & N2 & O & _); [apply Rmin_glb_lt; lra|].
  exists q2. split; [|split; auto].
  - assert (N3 : near (d / 2) q1 q2) by (eapply near_mono; [exact N2|apply Rmin_l]). destruct N1 as (A1 & A2), N3 as (B1 & B2).
    split; [replace (fst q2 - fst p)%R with ((fst q2 - fst q1) + (fst q1 - fst p))%R by ring|replace (snd q2 - snd p)%R with ((snd q2 - snd q1) + (snd q1 - snd p))%R by ring];
      (eapply Rle_lt_trans; [apply Rabs_triang|]); lra.
  - apply E2. eapply near_mono; [exact N2|apply Rmin_r].
Qed.
(** a set of faces whose boundary sees p on its left contains the faces p is in *)
Lemma star_set h fs S f p : tmesh h fs -> no_over h fs -> incl S fs -> NoDup S -> S <> [] -> In f fs -> inc h f p ->
  (forall e, In e (bdry h S) -> (0 < orr (sc h e) (ec h e) p)%R) -> In f S.
Proof.
  intros TM NO IS NS NE If I L. destruct (strict_near h p _ L) as (d & D & E). destruct (near_face h fs f p d TM If I D) as (q & N & O & IQ).
  destruct (cover_sum h q S fs TM O IS NS) as (m & M1 & M2 & M3).
  unfold cov in M3. rewrite (bdry_sum (wr q) h fs S (wr_anti q)) in M3; auto; [|apply TM].
  assert (1 <= G (wr q) h (bdry h S))%R.
  { apply loop_around; [now apply (bdry_nonempty h fs)| |now apply E]. apply balanced_sum. apply (boundary_balanced h fs); auto. apply TM. }
  destruct m as [|g m]; [cbn in M3; lra|]. assert (Hg : In g (g :: m)) by now left. apply M2 in Hg as (Ig & Hg).
  assert (f = g) by (apply (NO f g q); auto). now subst.
Qed.
(** and that boundary is a single closed chain *)
Lemma star_single h fs S f p : tmesh h fs -> no_over h fs -> incl S fs -> NoDup S -> S <> [] -> In f fs -> inc h f p ->
  (forall e, In e (bdry h S) -> (0 < orr (sc h e) (ec h e) p)%R) -> exists es, getOrientedFacesBoundaries h S = Ok [es] /\ es <> [].
Proof.
  intros TM NO IS NS NE If I L. destruct (strict_near h p _ L) as (d & D & E). destruct (near_face h fs f p d TM If I D) as (q & N & O & IQ).
  destruct (cover_sum h q S fs TM O IS NS) as (m & M1 & M2 & M3).
  unfold cov in M3. rewrite (bdry_sum (wr q) h fs S (wr_anti q)) in M3; auto; [|apply TM].
  assert (ML : length m <= 1).
  { destruct m as [|a [|b m]]; cbn; try lia. exfalso. assert (Ha : In a (a :: b :: m)) by now left. assert (Hb : In b (a :: b :: m)) by (right; now left).
    apply M2 in Ha as (Ia & Ha), Hb as (Ib & Hb). assert (a = b) by (apply (NO a b q); auto). subst. inversion M1; subst. cbn in *. tauto. }
  destruct (oriented_ok h fs S (proj1 TM) IS NS) as (ls & A & P & CL).
  assert (GE : forall l : list (list nat), incl l ls -> (INR (length l) <= G (wr q) h (concat l))%R).
  { induction l as [|es l IH]; intros IL; [unfold G; cbn; lra|]. cbn [concat length]. rewrite G_app, S_INR.
    assert (Ie : In es ls) by (apply IL; now left). destruct (CL es Ie) as (T1 & T2 & T3).
    assert (1 <= G (wr q) h es)%R.
    { apply loop_around; auto. - apply balanced_sum, closed_balanced. now split.
      - intros e Je. apply (E q N). apply (Permutation_in _ P). apply in_concat. eauto. }
    assert (INR (length l) <= G (wr q) h (concat l))%R by (apply IH; intros x Ix; apply IL; now right). lra. }
  specialize (GE ls (incl_refl _)). assert (GP : G (wr q) h (concat ls) = G (wr q) h (bdry h S)) by (unfold G; now apply sumR_perm).
  rewrite GP, <- M3 in GE. apply INR_le in GE.
  destruct ls as [|es [|es2 ls]]; cbn in GE; [|exists es; split; auto; apply (CL es); now left|lia].
  exfalso. cbn in P. apply Permutation_nil in P. now apply (bdry_nonempty h fs S).
Qed.
