(** Coverage: the insertion of a point keeps the triangles from overlapping and keeps the region they cover. *)
From Coq Require Import List Arith Lia Bool Reals Lra Permutation ZArith.
From Verif Require Import Model_Base Model_Mesh Model_Geom Model_Tess Spec_Mesh Spec_MeshEdit Spec_Geom Proof_Base
  Proof_Mesh Proof_Mesh2 Proof_Mesh3 Proof_Mesh4 Proof_Mesh9 Proof_PropMesh Proof_PropMesh2 Proof_PropMesh3 Proof_Plane Proof_Tess Proof_Tess2.
Import ListNotations.
Local Open Scope nat_scope.

Notation C := (R * R)%type.
Implicit Types (h : heap C) (fs K l es : list nat) (f e : nat) (xy q : C).

(** the point is strictly inside, inside a face; on no half-edge of the mesh *)
Definition inf h f q : Prop := exists e1 e2 e3, Lf h f = [e1; e2; e3] /\ in_open (ec h e1) (ec h e2) (ec h e3) q.
Definition inc h f q : Prop := exists e1 e2 e3, Lf h f = [e1; e2; e3] /\ in_closed (ec h e1) (ec h e2) (ec h e3) q.
Definition offe h fs q : Prop := forall f e, In f fs -> In e (Lf h f) -> ~ on_seg (sc h e) (ec h e) q.
Definition wr q (a b : C) : R := IZR (wc q a b).
Lemma wr_anti q a b : wr q b a = (- wr q a b)%R.
Proof. unfold wr. now rewrite wc_anti, opp_IZR. Qed.
Definition cov q h fs : R := G (wr q) h (alle h fs).

Lemma face_cov h fs f q : tmesh h fs -> In f fs -> offe h fs q ->
  (G (wr q) h (Lf h f) = 1%R /\ inf h f q) \/ (G (wr q) h (Lf h f) = 0%R /\ ~ inf h f q).
Proof.
  intros (H & HT) If OF. destruct (HT f If) as (e1 & e2 & e3 & Q & W). pose proof (Lf_of _ _ _ H If) as L. rewrite Q in L.
  destruct (tri_st _ _ _ _ _ L) as (T1 & T2 & T3).
  assert (N1 : ~ on_seg (ec h e3) (ec h e1) q) by (rewrite <- T1; apply (OF f); rewrite ?Q; cbn; auto).
  assert (N2 : ~ on_seg (ec h e1) (ec h e2) q) by (rewrite <- T2; apply (OF f); rewrite ?Q; cbn; auto).
  assert (N3 : ~ on_seg (ec h e2) (ec h e3) q) by (rewrite <- T3; apply (OF f); rewrite ?Q; cbn; auto).
  assert (GS : G (wr q) h (Lf h f) = IZR (wc q (ec h e1) (ec h e2) + wc q (ec h e2) (ec h e3) + wc q (ec h e3) (ec h e1))).
  { rewrite Q. unfold G, wr. cbn [sumR]. rewrite T1, T2, T3, !plus_IZR. lra. }
  rewrite GS. destruct (tri_wc _ _ _ q W N2 N3 N1) as [(-> & I)|(-> & I)].
  - left. split; auto. exists e1, e2, e3. auto.
  - right. split; auto. intros (a & b & c & Q' & I'). rewrite Q in Q'. injection Q' as <- <- <-. auto.
Qed.
Lemma cover_sum h q : forall l fs, tmesh h fs -> offe h fs q -> incl l fs -> NoDup l ->
  exists m, NoDup m /\ (forall f, In f m <-> In f l /\ inf h f q) /\ INR (length m) = cov q h l.
Proof.
  induction l as [|f l IH]; intros fs TM OF I ND.
  - exists []. split; [constructor|]. split; [|reflexivity]. intros f. cbn. tauto.
  - inversion ND; subst. destruct (IH fs TM OF) as (m & A & B & D); auto. { intros x Ix. apply I. now right. }
    assert (CV : cov q h (f :: l) = (G (wr q) h (Lf h f) + cov q h l)%R) by (unfold cov, G, alle; cbn [flat_map]; apply sumR_app).
    rewrite CV. destruct (face_cov h fs f q TM (I f (or_introl eq_refl)) OF) as [(-> & X)|(-> & X)].
    + exists (f :: m). split; [constructor; auto; rewrite B; tauto|]. split.
      * intros g. cbn. rewrite B. split; [intros [<-|]; tauto|tauto].
      * cbn [length]. rewrite S_INR, D. lra.
    + exists m. split; auto. split; [|lra]. intros g. cbn. rewrite B. split; [tauto|]. intros ([<-|] & Y); tauto.
Qed.

(** ** General position *)
Lemma edge_ne h fs f e : tmesh h fs -> In f fs -> In e (Lf h f) -> sc h e <> ec h e.
Proof.
  intros (H & HT) If Ie Q. destruct (HT f If) as (e1 & e2 & e3 & L3 & W). pose proof (Lf_of _ _ _ H If) as L. rewrite L3 in *.
  destruct (tri_st _ _ _ _ _ L) as (T1 & T2 & T3). unfold ccw in W. rewrite <- orr_area in W.
  cbn in Ie. destruct Ie as [<-|[<-|[<-|[]]]]; rewrite ?T1, ?T2, ?T3 in Q; rewrite Q in W; unfold orr in W; lra.
Qed.
Definition segs h fs : list (C * C) := map (fun e => (sc h e, ec h e)) (alle h fs).
Lemma gen_off h fs h' fs' q d : tmesh h fs -> tmesh h' fs' -> (0 < d)%R ->
  exists q', near d q q' /\ offe h fs q' /\ offe h' fs' q'.
Proof.
  intros TM TM' Hd. destruct (generic_point (segs h fs ++ segs h' fs') q d Hd) as (q' & A & B).
  { intros s I. apply in_app_or in I as [I|I]; apply in_map_iff in I as (e & <- & I); apply in_alle in I as (f & If & Ie); cbn.
    - now apply (edge_ne h fs f). - now apply (edge_ne h' fs' f). }
  exists q'. split; auto. split; intros f e If Ie O; apply on_seg_orr in O; revert O; apply B; apply in_or_app; [left|right]; apply in_map_iff;
    exists e; (split; [auto|]); apply in_alle; exists f; auto.
Qed.
Lemma inf_near h fs f q : tmesh h fs -> In f fs -> inf h f q -> exists d, (0 < d)%R /\ forall q', near d q q' -> inf h f q'.
Proof.
  intros (H & HT) If (e1 & e2 & e3 & Q & I). destruct (HT f If) as (a1 & a2 & a3 & Q' & W). rewrite Q in Q'. injection Q' as <- <- <-.
  apply (in_open_iff _ _ _ q W) in I as (I1 & I2 & I3).
  destruct (orr_near _ _ _ I1) as (d1 & D1 & E1). destruct (orr_near _ _ _ I2) as (d2 & D2 & E2). destruct (orr_near _ _ _ I3) as (d3 & D3 & E3).
  set (d := Rmin d1 (Rmin d2 d3)). assert (X1 : (d <= d1)%R) by apply Rmin_l.
  assert (X2 : (d <= d2)%R) by (eapply Rle_trans; [apply Rmin_r|apply Rmin_l]). assert (X3 : (d <= d3)%R) by (eapply Rle_trans; [apply Rmin_r|apply Rmin_r]).
  exists d. split; [unfold d; repeat apply Rmin_glb_lt; auto|]. intros q' N. exists e1, e2, e3. split; auto. apply (in_open_iff _ _ _ q' W).
  split; [apply E1, (near_mono d); auto|]. split; [apply E2, (near_mono d); auto|apply E3, (near_mono d); auto].
Qed.
Lemma inc_dec h fs f q : tmesh h fs -> In f fs -> inc h f q \/ ~ inc h f q.
Proof.
  intros (H & HT) If. destruct (HT f If) as (e1 & e2 & e3 & Q & W). pose proof (in_closed_iff _ _ _ q W) as I.
  assert (X : inc h f q <-> in_closed (ec h e1) (ec h e2) (ec h e3) q).
  { split; [intros (a & b & c & Q' & J); rewrite Q in Q'; injection Q' as <- <- <-; auto|]. intros J. exists e1, e2, e3. auto. }
  rewrite X, I. destruct (Rle_dec 0 (orr (ec h e1) (ec h e2) q)), (Rle_dec 0 (orr (ec h e2) (ec h e3) q)), (Rle_dec 0 (orr (ec h e3) (ec h e1) q)); tauto.
Qed.
Lemma out_near h fs f q : tmesh h fs -> In f fs -> ~ inc h f q -> exists d, (0 < d)%R /\ forall q', near d q q' -> ~ inc h f q'.
Proof.
  intros (H & HT) If N. destruct (HT f If) as (e1 & e2 & e3 & Q & W).
  assert (X : forall q, inc h f q <-> (0 <= orr (ec h e1) (ec h e2) q /\ 0 <= orr (ec h e2) (ec h e3) q /\ 0 <= orr (ec h e3) (ec h e1) q)%R).
  { intros q0. rewrite <- (in_closed_iff _ _ _ q0 W). split; [intros (a & b & c & Q' & J); rewrite Q in Q'; injection Q' as <- <- <-; auto|]. intros J. exists e1, e2, e3. auto. }
  rewrite X in N.
  assert (Y : forall a b : C, (orr a b q < 0)%R -> exists d, (0 < d)%R /\ forall q', near d q q' -> (orr a b q' < 0)%R).
  { intros a b L. destruct (orr_near b a q) as (d & D & E); [rewrite orr_swap; lra|]. exists d. split; auto. intros q' Nq. specialize (E q' Nq). rewrite orr_swap in E. lra. }
  destruct (Rle_dec 0 (orr (ec h e1) (ec h e2) q)) as [A1|A1];
    [destruct (Rle_dec 0 (orr (ec h e2) (ec h e3) q)) as [A2|A2]; [destruct (Rle_dec 0 (orr (ec h e3) (ec h e1) q)) as [A3|A3]; [tauto|]|]|].
  all: match goal with Z : ~ (0 <= orr ?a ?b _)%R |- _ => destruct (Y a b ltac:(lra)) as (d & D & E) end; exists d; split; auto;
    intros q' Nq; specialize (E q' Nq); rewrite X; intros (? & ? & ?); lra.
Qed.
Lemma inf_inc h f q : inf h f q -> inc h f q.
Proof. intros (e1 & e2 & e3 & Q & (r & s & t & H)). exists e1, e2, e3. split; auto. exists r, s, t. intuition lra. Qed.

(** ** Two meshes with the same coverage *)
Definition same_cov h fs h' fs' := forall q, cov q h fs = cov q h' fs'.
Definition no_over h fs := forall f g q, In f fs -> In g fs -> inf h f q -> inf h g q -> f = g.

Lemma no_over_same h fs h' fs' : tmesh h fs -> tmesh h' fs' -> same_cov h fs h' fs' -> no_over h fs -> no_over h' fs'.
Proof.
  intros TM TM' SC NO f g q If Ig Hf Hg. destruct (Nat.eq_dec f g) as [|NE]; auto. exfalso.
  destruct (inf_near _ _ _ _ TM' If Hf) as (d1 & D1 & E1). destruct (inf_near _ _ _ _ TM' Ig Hg) as (d2 & D2 & E2).
  destruct (gen_off h fs h' fs' q (Rmin d1 d2) TM TM') as (q' & N & O & O'); [apply Rmin_glb_lt; auto|].
  destruct (cover_sum h q' fs fs TM O (incl_refl _)) as (m & M1 & M2 & M3); [apply TM|].
  destruct (cover_sum h' q' fs' fs' TM' O' (incl_refl _)) as (m' & M1' & M2' & M3'); [apply TM'|].
  rewrite <- (SC q'), <- M3 in M3'. apply INR_eq in M3'.
  assert (L2 : 2 <= length m').
  { change 2 with (length [f; g]). apply NoDup_incl_length; [repeat constructor; cbn; intuition|].
    intros x [<-|[<-|[]]]; apply M2'; (split; [auto|]); [apply E1|apply E2]; (eapply near_mono; [exact N|]); [apply Rmin_l|apply Rmin_r]. }
  destruct m as [|x [|y m]]; cbn in M3'; try lia. inversion M1; subst.
  assert (Hx : In x (x :: y :: m)) by now left. assert (Hy : In y (x :: y :: m)) by (right; now left).
  apply M2 in Hx as (Ix & Hx). apply M2 in Hy as (Iy & Hy). assert (x = y) by (apply (NO x y q'); auto). subst. cbn in *. tauto.
Qed.
Lemma toward h fs f q d : tmesh h fs -> In f fs -> inc h f q -> (0 < d)%R -> exists q', near d q q' /\ inf h f q'.
Proof.
  intros (H & HT) If (e1 & e2 & e3 & Q & I) Hd. destruct (HT f If) as (a1 & a2 & a3 & Q' & W). rewrite Q in Q'. injection Q' as <- <- <-.
  set (a := ec h e1) in *. set (b := ec h e2) in *. set (c := ec h e3) in *.
  set (g := mix a b c (1/3) (1/3) (1/3)).
  set (M := (Rabs (fst g - fst q) + Rabs (snd g - snd q) + 1)%R).
  assert (HM : (0 < M)%R) by (unfold M; pose proof (Rabs_pos (fst g - fst q)); pose proof (Rabs_pos (snd g - snd q)); lra).
  set (t := Rmin (1/2) (d / (2 * M))). assert (Ht : (0 < t)%R) by (apply Rmin_glb_lt; [lra|apply Rdiv_lt_0_compat; lra]).
  assert (Ht1 : (t <= 1/2)%R) by apply Rmin_l. assert (Ht2 : (t <= d / (2 * M))%R) by apply Rmin_r.
  assert (Ht3 : (t * M < d)%R).
  { apply Rle_lt_trans with (d / (2 * M) * M)%R; [apply Rmult_le_compat_r; lra|]. replace (d / (2 * M) * M)%R with (d / 2)%R by (field; lra). lra. }
  exists (along q g t). split.
  - unfold near, along. cbn [fst snd]. replace (fst q + t * (fst g - fst q) - fst q)%R with (t * (fst g - fst q))%R by ring.
    replace (snd q + t * (snd g - snd q) - snd q)%R with (t * (snd g - snd q))%R by ring. rewrite !Rabs_mult, (Rabs_right t) by lra.
    pose proof (Rabs_pos (fst g - fst q)). pose proof (Rabs_pos (snd g - snd q)).
    split; eapply Rle_lt_trans; try exact Ht3; apply Rmult_le_compat_l; unfold M; lra.
  - exists e1, e2, e3. split; auto. destruct I as (r & s & u & R1 & R2 & R3 & R4 & ->).
    exists (r + t * (1/3 - r))%R, (s + t * (1/3 - s))%R, (u + t * (1/3 - u))%R.
    assert (forall x, (0 <= x)%R -> (0 < x + t * (1/3 - x))%R).
    { intros x Hx. replace (x + t * (1/3 - x))%R with ((1 - t) * x + t * (1/3))%R by ring.
      assert (0 <= (1 - t) * x)%R by (apply Rmult_le_pos; lra). assert (0 < t * (1/3))%R by lra. lra. }
    split; auto. split; auto. split; auto. split; [replace u with (1 - r - s)%R by lra; field|].
    unfold along, g, mix, a, b, c. cbn [fst snd]. f_equal; field.
Qed.
Definition region h fs q := exists f, In f fs /\ inc h f q.
Lemma region_dec h fs q : tmesh h fs -> region h fs q \/ exists d, (0 < d)%R /\ forall q', near d q q' -> ~ region h fs q'.
Proof.
  intros TM. unfold region. assert (X : forall l, incl l fs -> (exists f, In f l /\ inc h f q) \/ exists d, (0 < d)%R /\ forall q', near d q q' -> ~ exists f, In f l /\ inc h f q').
  { induction l as [|f l IH]; intros I.
    - right. exists 1%R. split; [lra|]. intros q' _ (f & [] & _).
    - assert (If : In f fs) by (apply I; now left). destruct (inc_dec h fs f q TM If) as [Y|Y]; [left; exists f; split; [now left|auto]|].
      destruct IH as [(g & Ig & Hg)|(d & D & Hd)]; [intros x Ix; apply I; now right|left; exists g; split; [now right|auto]|].
      destruct (out_near h fs f q TM If Y) as (d' & D' & Hd'). right. exists (Rmin d d'). split; [apply Rmin_glb_lt; auto|].
      intros q' N (g & [<-|Ig] & Hg).
      + apply (Hd' q'); auto. eapply near_mono; [exact N|apply Rmin_r].
      + apply (Hd q'); [|eauto]. eapply near_mono; [exact N|apply Rmin_l]. }
  apply X, incl_refl.
Qed.
Lemma region_same h fs h' fs' q : tmesh h fs -> tmesh h' fs' -> same_cov h fs h' fs' -> region h fs q -> region h' fs' q.
Proof.
  intros TM TM' SC (f & If & I). destruct (region_dec h' fs' q TM') as [|(d & D & Hd)]; auto. exfalso.
  destruct (toward h fs f q (d / 2) TM If I) as (q1 & N1 & I1); [lra|].
  destruct (inf_near _ _ _ _ TM If I1) as (d2 & D2 & E2).
  destruct (gen_off h fs h' fs' q1 (Rmin (d / 2) d2) TM TM') as (q2 & N2 & O & O'); [apply Rmin_glb_lt; lra|].
  destruct (cover_sum h q2 fs fs TM O (incl_refl _)) as (m & M1 & M2 & M3); [apply TM|].
  destruct (cover_sum h' q2 fs' fs' TM' O' (incl_refl _)) as (m' & M1' & M2' & M3'); [apply TM'|].
  rewrite <- (SC q2), <- M3 in M3'. apply INR_eq in M3'.
  assert (In f m) by (apply M2; split; auto; apply E2; eapply near_mono; [exact N2|apply Rmin_r]).
  destruct m as [|x m]; [contradiction|]. destruct m' as [|y m']; [discriminate|].
  assert (Hy : In y (y :: m')) by now left. apply M2' in Hy as (Iy & Hy).
  apply (Hd q2); [|exists y; split; auto; now apply inf_inc].
  assert (N3 : near (d / 2) q1 q2) by (eapply near_mono; [exact N2|apply Rmin_l]). destruct N1 as (A1 & A2), N3 as (B1 & B2).
  split; [replace (fst q2 - fst q)%R with ((fst q2 - fst q1) + (fst q1 - fst q))%R by ring|replace (snd q2 - snd q)%R with ((snd q2 - snd q1) + (snd q1 - snd q))%R by ring];
    (eapply Rle_lt_trans; [apply Rabs_triang|]); lra.
Qed.

Lemma last_nth_len (l : list nat) : last l 0 = nth (length l - 1) l 0.
Proof.
  induction l as [|a l IH]; auto. destruct l as [|b l]; auto. change (last (a :: b :: l) 0) with (last (b :: l) 0). rewrite IH.
  cbn [length]. replace (S (S (length l)) - 1) with (S (S (length l) - 1)) by lia. reflexivity.
Qed.
Lemma NoDup_map_inj {A B} (f : A -> B) (l : list A) : NoDup (map f l) -> forall x y, In x l -> In y l -> f x = f y -> x = y.
Proof.
  induction l as [|a l IH]; cbn; intros ND x y Ix Iy Q; [easy|]. destruct Ix as [<-|Ix], Iy as [<-|Iy]; auto; inversion ND; subst.
  - exfalso. apply H1. rewrite Q. now apply in_map. - exfalso. apply H1. rewrite <- Q. now apply in_map. - apply IH; auto.
Qed.
Lemma inserted_cov h fs xy h' fs' r : tmesh h fs -> inserted h fs xy h' fs' r -> same_cov h fs h' fs'.
Proof. intros TM I q. destruct I; auto. unfold cov. symmetry. apply (fw_sum _ _ _ _ _ _ H6). apply wr_anti. Qed.

(** ** When the insertion takes place *)
(** closed trails that partition a list of half-edges which is a single cycle *)
Lemma one_loop h b ls : Permutation (concat ls) b -> NoDup b -> b <> [] -> (forall l, In l ls -> closed h l) -> NoDup (map (st h) b) ->
  (forall P : nat -> Prop, (exists x, In x b /\ P x) -> (forall x y, In x b -> In y b -> P x -> en h x = st h y -> P y) -> forall y, In y b -> P y) ->
  exists l, ls = [l].
Proof.
  intros PM ND NE CL NS CON. destruct ls as [|l ls].
  { cbn in PM. apply Permutation_nil in PM. congruence. }
  exists l. assert (IB : forall x, In x l -> In x b) by (intros x Ix; apply (Permutation_in _ PM); cbn; apply in_or_app; auto).
  assert (ALL : forall y, In y b -> In y l).
  { apply CON.
    - destruct (CL l (or_introl eq_refl)) as (_ & N0 & _). destruct l as [|x l]; [congruence|]. exists x. split; [apply IB|]; now left.
    - intros x y Ix Iy Lx Q. destruct (CL l (or_introl eq_refl)) as (TR & N0 & LS).
      assert (Z : exists z, In z l /\ st h z = en h x).
      { apply (In_nth _ _ 0) in Lx as (i & Hi & <-). destruct (Nat.lt_ge_cases (S i) (length l)) as [J|J].
        - exists (nth (S i) l 0). split; [now apply nth_In|]. symmetry. now apply TR.
        - exists (hd 0 l). split; [destruct l; [congruence|now left]|]. rewrite <- LS. f_equal. rewrite last_nth_len. f_equal. lia. }
      destruct Z as (z & Iz & Qz). assert (z = y); [|congruence].
      apply (NoDup_map_inj (st h) b); auto. congruence. }
  destruct ls as [|l2 ls]; auto. exfalso. destruct (CL l2 (or_intror (or_introl eq_refl))) as (_ & N2 & _).
  destruct l2 as [|y l2]; [congruence|]. assert (NC : NoDup (concat (l :: (y :: l2) :: ls))) by (apply (Permutation_NoDup (Permutation_sym PM)); auto).
  cbn [concat app] in NC. apply NoDup_remove_2 in NC. apply NC. apply in_or_app. left. apply ALL. apply (Permutation_in _ PM). cbn. apply in_or_app. right. now left.
Qed.
