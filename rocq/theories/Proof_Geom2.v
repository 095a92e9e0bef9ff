(** The test of a point against the boundary of a set of triangles. *)
From Coq Require Import List Arith Lia Bool Reals Lra ZArith Permutation.
From Verif Require Import Model_Base Model_Mesh Model_Geom Model_Tess Spec_Mesh Spec_MeshEdit Spec_Geom Spec_Tess Proof_Base Proof_Mesh Proof_Mesh2
  Proof_Mesh3 Proof_Mesh4 Proof_Mesh9 Proof_PropMesh Proof_PropMesh2 Proof_PropMesh3 Proof_Plane Proof_Tess Proof_Tess2 Proof_Tess3 Proof_Tess4 Proof_Tess5 Proof_Geom.
Import ListNotations.
Local Open Scope nat_scope.

Notation C := (R * R)%type.
Implicit Types (h : heap C) (fs K l es : list nat) (f e : nat) (xy q : C).

(** a quarter turn: the ray of the test becomes the ray of [wc] *)
Definition ro (a : C) : C := (snd a, - fst a)%R.
Definition wh q a b : Z := wc (ro q) (ro a) (ro b).
Lemma orr_ro a b c : orr (ro a) (ro b) (ro c) = orr a b c.
Proof. unfold orr, ro. cbn. ring. Qed.
Lemma on_seg_ro a b q : on_seg (ro a) (ro b) (ro q) -> on_seg a b q.
Proof.
  intros (t & Ht & E). exists t. split; auto. unfold ro, along in *. cbn in E. injection E as E1 E2. destruct q as [x y]. cbn in *. f_equal; lra.
Qed.
Lemma in_open_ro a b c q : ccw a b c -> (in_open (ro a) (ro b) (ro c) (ro q) <-> in_open a b c q).
Proof.
  intros W. assert (W' : ccw (ro a) (ro b) (ro c)) by (unfold ccw in *; rewrite <- orr_area in *; now rewrite orr_ro).
  rewrite (in_open_iff _ _ _ _ W), (in_open_iff _ _ _ _ W'), !orr_ro. reflexivity.
Qed.
Definition whr q a b : R := IZR (wh q a b).
Lemma whr_anti q a b : whr q b a = (- whr q a b)%R.
Proof. unfold whr, wh. now rewrite wc_anti, opp_IZR. Qed.

Lemma face_wh h fs f q : tmesh h fs -> In f fs -> (forall e, In e (Lf h f) -> ~ on_seg (sc h e) (ec h e) q) ->
  (G (whr q) h (Lf h f) = 1%R /\ inf h f q) \/ (G (whr q) h (Lf h f) = 0%R /\ ~ inf h f q).
Proof.
  intros (H & HT) If OF. destruct (HT f If) as (e1 & e2 & e3 & Q & W). pose proof (Lf_of _ _ _ H If) as L. rewrite Q in L.
  destruct (tri_st _ _ _ _ _ L) as (T1 & T2 & T3).
  assert (N1 : ~ on_seg (ec h e3) (ec h e1) q) by (rewrite <- T1; apply OF; rewrite ?Q; cbn; auto).
  assert (N2 : ~ on_seg (ec h e1) (ec h e2) q) by (rewrite <- T2; apply OF; rewrite ?Q; cbn; auto).
  assert (N3 : ~ on_seg (ec h e2) (ec h e3) q) by (rewrite <- T3; apply OF; rewrite ?Q; cbn; auto).
  assert (GS : G (whr q) h (Lf h f) = IZR (wh q (ec h e1) (ec h e2) + wh q (ec h e2) (ec h e3) + wh q (ec h e3) (ec h e1))).
  { rewrite Q. unfold G, whr. cbn [sumR]. rewrite T1, T2, T3, !plus_IZR. lra. }
  rewrite GS. unfold wh. assert (W' : ccw (ro (ec h e1)) (ro (ec h e2)) (ro (ec h e3))) by (unfold ccw in *; rewrite <- orr_area in *; now rewrite orr_ro).
  destruct (tri_wc _ _ _ (ro q) W') as [(-> & I)|(-> & I)]; try (intros O; apply on_seg_ro in O; contradiction).
  - left. split; auto. exists e1, e2, e3. split; auto. now apply in_open_ro.
  - right. split; auto. intros (a & b & c & Q' & I'). rewrite Q in Q'. injection Q' as <- <- <-. apply I. now apply in_open_ro.
Qed.
Lemma wh_sum h q fs : tmesh h fs -> forall l, incl l fs -> NoDup l -> (forall f e, In f l -> In e (Lf h f) -> ~ on_seg (sc h e) (ec h e) q) ->
  exists m, NoDup m /\ (forall f, In f m <-> In f l /\ inf h f q) /\ INR (length m) = G (whr q) h (alle h l).
Proof.
  intros TM. induction l as [|f l IH]; intros I ND OF.
  - exists []. split; [constructor|]. split; [|reflexivity]. intros f. cbn. tauto.
  - inversion ND; subst. destruct IH as (m & A & B & D); auto. { intros x Ix. apply I. now right. } { intros g e Ig. apply OF. now right. }
    assert (CV : G (whr q) h (alle h (f :: l)) = (G (whr q) h (Lf h f) + G (whr q) h (alle h l))%R) by (unfold G, alle; cbn [flat_map]; apply sumR_app).
    rewrite CV. destruct (face_wh h fs f q TM (I f (or_introl eq_refl)) (fun e => OF f e (or_introl eq_refl))) as [(-> & X)|(-> & X)].
    + exists (f :: m). split; [constructor; auto; rewrite B; tauto|]. split.
      * intros g. cbn. rewrite B. split; [intros [<-|]; tauto|tauto].
      * cbn [length]. rewrite S_INR, D. lra.
    + exists m. split; auto. split; [|lra]. intros g. cbn. rewrite B. split; [tauto|]. intros ([<-|] & Y); tauto.
Qed.

Section Inside.
Variable eps : R.
Local Hint Extern 0 (Num R) => exact (NumR eps) : typeclass_instances.

Fixpoint whs h q es : Z := match es with [] => 0%Z | e :: t => (wh q (sc h e) (ec h e) + whs h q t)%Z end.
Lemma whs_G h q es : IZR (whs h q es) = G (whr q) h es.
Proof. unfold G, whr. induction es as [|e es IH]; cbn [whs sumR]; [reflexivity|]. now rewrite plus_IZR, IH. Qed.

Lemma cross_step (q a b : C) inside :
  (if xorb (Rltb (snd q) (snd a)) (Rltb (snd q) (snd b)) then
     (if Rltb (fst q) (fst a + (snd q - snd a) * (fst b - fst a) / (snd b - snd a)) then negb inside else inside) else inside)
  = xorb inside (Z.odd (wh q a b)).
Proof.
  unfold wh, wc, lefto, pos. rewrite orr_ro. cbn [ro fst snd].
  assert (X : (snd b - snd a <> 0 -> fst a + (snd q - snd a) * (fst b - fst a) / (snd b - snd a) - fst q = orr a b q / (snd b - snd a))%R).
  { intros N. unfold orr. field. exact N. }
  destruct (Rltb_spec (snd q) (snd a)) as [La|La], (Rle_dec (snd a) (snd q)) as [Ka|Ka]; try lra;
  destruct (Rltb_spec (snd q) (snd b)) as [Lb|Lb], (Rle_dec (snd b) (snd q)) as [Kb|Kb]; try lra; cbn [xorb].
  - now rewrite xorb_false_r.
  - assert (N : (snd b - snd a < 0)%R) by lra. specialize (X ltac:(lra)).
    assert (Y : (0 < orr a b q / (snd b - snd a) <-> orr a b q < 0)%R).
    { unfold Rdiv. assert (I : (/ (snd b - snd a) < 0)%R) by now apply Rinv_lt_0_compat. set (v := (/ (snd b - snd a))%R) in *. split; intros Z.
      - apply Rnot_le_lt. intros W. assert (0 <= orr a b q * - v)%R by (apply Rmult_le_pos; lra). lra.
      - assert (0 < - orr a b q * - v)%R by (apply Rmult_lt_0_compat; lra). lra. }
    destruct (Rltb_spec (fst q) (fst a + (snd q - snd a) * (fst b - fst a) / (snd b - snd a))) as [D|D], (Rlt_dec 0 (- orr a b q)) as [E|E];
      cbn; try (now rewrite xorb_true_r); try (now rewrite xorb_false_r); exfalso.
    + assert (0 < orr a b q / (snd b - snd a))%R by lra. apply Y in H. lra.
    + assert (Z : (orr a b q < 0)%R) by lra. apply Y in Z. lra.
  - assert (N : (0 < snd b - snd a)%R) by lra. specialize (X ltac:(lra)).
    assert (Y : (0 < orr a b q / (snd b - snd a) <-> 0 < orr a b q)%R).
    { unfold Rdiv. assert (I : (0 < / (snd b - snd a))%R) by now apply Rinv_0_lt_compat. set (v := (/ (snd b - snd a))%R) in *. split; intros Z.
      - apply Rnot_le_lt. intros W. assert (0 <= - orr a b q * v)%R by (apply Rmult_le_pos; lra). lra.
      - now apply Rmult_lt_0_compat. }
    destruct (Rltb_spec (fst q) (fst a + (snd q - snd a) * (fst b - fst a) / (snd b - snd a))) as [D|D], (Rlt_dec 0 (orr a b q)) as [E|E];
      cbn; try (now rewrite xorb_true_r); try (now rewrite xorb_false_r); exfalso.
    + assert (0 < orr a b q / (snd b - snd a))%R by lra. apply Y in H. lra.
    + apply Y in E. lra.
  - now rewrite xorb_false_r.
Qed.
Lemma ray_cast_off h q tol : forall es inside, (forall e, In e es -> start_coords h e = Ok (sc h e) /\ end_coords h e = Ok (ec h e)) ->
  (forall e, In e es -> on_segment (sc h e) (ec h e) q tol = false) -> ray_cast h q es tol inside = Ok (xorb inside (Z.odd (whs h q es))).
Proof.
  induction es as [|e es IH]; intros inside HC HO; cbn [ray_cast whs].
  - cbn. now rewrite xorb_false_r.
  - destruct (HC e (or_introl eq_refl)) as (-> & ->). cbn [bind]. rewrite (HO e (or_introl eq_refl)). pose proof (cross_step q (sc h e) (ec h e) inside) as CS. nsimp.
    rewrite Z.odd_add, <- xorb_assoc, <- CS. destruct (xorb _ _); apply IH; firstorder.
Qed.
Lemma ray_cast_on h q tol : forall es inside, (forall e, In e es -> start_coords h e = Ok (sc h e) /\ end_coords h e = Ok (ec h e)) ->
  (exists e, In e es /\ on_segment (sc h e) (ec h e) q tol = true) -> ray_cast h q es tol inside = Ok true.
Proof.
  induction es as [|e es IH]; intros inside HC (x & Ix & Hx); cbn [ray_cast]; [destruct Ix|].
  destruct (HC e (or_introl eq_refl)) as (-> & ->). cbn [bind]. destruct (on_segment (sc h e) (ec h e) q tol) eqn:Q; auto.
  assert (Y : exists e, In e es /\ on_segment (sc h e) (ec h e) q tol = true) by (destruct Ix as [<-|Ix]; [congruence|eauto]).
  destruct (xorb _ _); apply IH; auto; firstorder.
Qed.
Lemma is_inside_ok h fs K es q tol : tmesh h fs -> no_over h fs -> incl K fs -> NoDup K -> NoDup es -> (forall e, In e es <-> on_boundary_of h K e) ->
  (0 <= tol)%R ->
  ((exists e, In e es /\ on_seg (sc h e) (ec h e) q) -> is_inside h q es tol = Ok true) /\
  ((forall f e, In f K -> In e (Lf h f) -> ~ on_seg (sc h e) (ec h e) q) -> (forall e, In e es -> ~ near_seg (sc h e) (ec h e) tol q) ->
     exists r, is_inside h q es tol = Ok r /\ (r = true <-> exists f, In f K /\ inf h f q)).
Proof.
  intros TM NO IK NK NE HE T0. pose proof TM as (H & HT).
  assert (HE' : forall e, In e es <-> In e (filter (fun e => negb (inK h K e)) (alle h K))) by (intros e; rewrite HE; apply (on_boundary_iff h fs); auto; now apply mesh_ok_iff).
  assert (P : Permutation es (filter (fun e => negb (inK h K e)) (alle h K))) by (apply NoDup_Permutation; auto; apply NoDup_filter; now apply (NoDup_alle h fs)).
  assert (LV : forall e, In e es -> exists f, In f K /\ In e (Lf h f)) by (intros e Ie; apply HE', filter_In in Ie as (Ie & _); now apply in_alle in Ie).
  assert (HC : forall e, In e es -> start_coords h e = Ok (sc h e) /\ end_coords h e = Ok (ec h e)).
  { intros e Ie. destruct (LV e Ie) as (f & If & Ie'). pose proof (Lf_of _ _ _ H (IK _ If)). split; [now apply (floop_sc h f (Lf h f))|now apply (floop_ec h f (Lf h f))]. }
  unfold is_inside. split.
  - intros (e & Ie & O). apply ray_cast_on; auto. exists e. split; auto. destruct (LV e Ie) as (f & If & Ie'). apply on_segment_complete; auto.
    apply (edge_ne h fs f); auto.
  - intros OF FAR. eexists. split; [apply ray_cast_off; auto|].
    { intros e Ie. destruct (on_segment (sc h e) (ec h e) q tol) eqn:OS; auto. apply on_segment_sound in OS. exfalso. now apply (FAR e Ie). }
    cbn [xorb]. destruct (wh_sum h q fs TM K IK NK OF) as (m & NM & HM & SM).
    assert (SE : IZR (whs h q es) = INR (length m)).
    { rewrite whs_G, SM. rewrite (sumR_perm _ _ _ P : G (whr q) h es = _). unfold G. 
      rewrite (sumR_perm _ _ _ (filter_perm (inK h K) (alle h K))), sumR_app. fold (G (whr q) h (filter (inK h K) (alle h K))).
      rewrite (interior_zero (whr q) (whr_anti q) h fs K H IK NK). lra. }
    rewrite INR_IZR_INZ in SE. apply eq_IZR in SE. rewrite SE.
    assert (L1 : length m <= 1).
    { destruct m as [|x [|y m]]; cbn; auto with arith. exfalso. inversion NM as [|? ? X _]; subst. apply X. left.
      apply (NO y x q); [| | apply HM; cbn; auto | apply HM; cbn; auto]; apply IK, HM; cbn; auto. }
    destruct m as [|x [|y m]]; [| |cbn in L1; lia].
    + split; [discriminate|]. intros (f & X). apply HM in X. destruct X.
    + split; [|reflexivity]. intros _. exists x. apply HM. now left.
Qed.
End Inside.
Lemma from_to_live h fs f e : tmesh h fs -> In f fs -> In e (Lf h f) -> from_to h e (sc h e) (ec h e).
Proof.
  intros TM If Ie. pose proof (tm_L _ _ _ TM If) as L.
  destruct (floop_in _ _ _ _ L Ie) as (B1 & _ & (b & B2 & B3) & _). destruct (floop_st _ _ _ _ L Ie) as (v & p & A1 & A2 & A3 & A4 & A5 & A6).
  assert (Ed : ends h e b) by now apply ends_iff. assert (S : starts h e v) by (apply starts_iff; repeat split; eauto).
  exists v, b. split; auto. split; auto. split; [now apply (coords_starts h f)|auto using coords_ends].
Qed.
Lemma from_to_eq h fs f e A B : tmesh h fs -> In f fs -> In e (Lf h f) -> from_to h e A B -> A = sc h e /\ B = ec h e.
Proof.
  intros TM If Ie (a & b & S & Ed & CA & CB). split.
  - eapply coords_inj; [exact CA|apply (coords_starts h f); auto; now apply (tm_L _ fs)].
  - eapply coords_inj; [exact CB|now apply coords_ends].
Qed.
Lemma is_inside_prop eps h fs K es q tol : tri_mesh h fs -> no_overlap h fs -> incl K fs -> NoDup K -> NoDup es -> (forall e, In e es <-> on_boundary_of h K e) ->
  (0 <= tol)%R ->
  ((exists e A B, In e es /\ from_to h e A B /\ on_seg A B q) -> @is_inside R (NumR eps) h q es tol = Ok true) /\
  ((forall f A B D, In f K -> corners h f A B D -> ~ on_seg A B q /\ ~ on_seg B D q /\ ~ on_seg D A q) ->
   (forall e A B, In e es -> from_to h e A B -> ~ near_seg A B tol q) ->
     exists r, @is_inside R (NumR eps) h q es tol = Ok r /\ (r = true <-> exists f A B D, In f K /\ corners h f A B D /\ in_open A B D q)).
Proof.
  intros TM NO IK NK NE HE T0. apply tri_mesh_iff in TM. apply (no_overlap_iff _ _ TM) in NO. pose proof TM as (H & HT).
  destruct (is_inside_ok eps h fs K es q tol TM NO IK NK NE HE T0) as (X & Y).
  assert (LV : forall e, In e es -> exists f, In f fs /\ In e (Lf h f)).
  { intros e Ie. apply HE, (on_boundary_iff h fs) in Ie; auto; [|now apply mesh_ok_iff]. apply filter_In in Ie as (Ie & _). apply in_alle in Ie as (f & If & Ie). exists f. auto. }
  split.
  - intros (e & A & B & Ie & FT & O). apply X. exists e. split; auto. destruct (LV e Ie) as (f & If & Ie').
    destruct (from_to_eq h fs f e A B TM If Ie' FT) as (-> & ->). exact O.
  - intros OF FAR. destruct Y as (r & Q & I).
    + intros f e If Ie. destruct (HT f (IK _ If)) as (e1 & e2 & e3 & Q & W). pose proof (Lf_of _ _ _ H (IK _ If)) as L.
      destruct (OF f (ec h e1) (ec h e2) (ec h e3) If) as (N1 & N2 & N3); [now apply corners_of|]. rewrite Q in *.
      destruct (tri_st _ _ _ _ _ L) as (T1 & T2 & T3). destruct Ie as [<-|[<-|[<-|[]]]]; rewrite ?T1, ?T2, ?T3; auto.
    + intros e Ie. destruct (LV e Ie) as (f & If & Ie'). apply (FAR e); auto. now apply (from_to_live h fs f).
    + exists r. split; auto. rewrite I. split.
      * intros (f & If & e1 & e2 & e3 & Q' & IO). exists f, (ec h e1), (ec h e2), (ec h e3). split; auto. split; auto. apply corners_of; auto. apply (Lf_of _ _ _ H); auto.
      * intros (f & A & B & D & If & CO & IO). apply corners_inv in CO as (e1 & e2 & e3 & L & Q' & -> & -> & ->). exists f. split; auto. exists e1, e2, e3. auto.
Qed.
