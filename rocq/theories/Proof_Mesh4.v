(** The mesh invariant is kept: links, add_face, removal of faces. *)
From Coq Require Import List Arith Lia Bool Permutation.
From Verif Require Import Model_Base Proof_Base Model_Mesh Spec_Mesh Proof_Mesh Proof_Mesh2 Proof_Mesh3.
Import ListNotations.
Local Open Scope nat_scope.

Section Mesh.
Context {C : Type}.
Implicit Types (h : heap C) (fs l es K N : list nat) (f e o v x y : nat) (p : ptr).

Lemma minv_perm h fs fs' : minv h fs -> Permutation fs fs' -> minv h fs'.
Proof.
  intros (A & B & D) P.
  assert (Q : forall f, In f fs' -> In f fs) by (intros f; apply Permutation_in, Permutation_sym, P).
  split; [now apply (Permutation_NoDup P)|]. split; [auto|].
  intros e o (f & If & Ie) Ho. destruct (D e o) as ((g & Ig & Io) & R); auto.
  { exists f; auto. }
  split; [|exact R]. exists g. split; auto. now apply (Permutation_in _ P).
Qed.

(** the reversed pair condition *)
Definition rev_pair h e o := en h o = st h e /\ st h o = en h e.

Lemma minv_build h h' fs K N (L : nat -> list nat) :
  minv h fs -> incl K fs -> NoDup (K ++ N) -> ne h <= ne h' -> nv h <= nv h' -> nf h <= nf h' ->
  (forall f, In f K -> F h' f = F h f) ->
  (forall e, Live h K e -> en h' e = en h e /\ fc h' e = fc h e /\ nx h' e = nx h e /\ pv h' e = pv h e) ->
  (forall f, In f N -> floop h' f (L f)) ->
  (forall e o, Live h K e -> op h' e = Some o ->
     (Live h K o \/ exists g, In g N /\ In o (L g)) /\ o <> e /\ op h' o = Some e /\ rev_pair h' e o) ->
  (forall g e o, In g N -> In e (L g) -> op h' e = Some o ->
     (Live h K o \/ exists g, In g N /\ In o (L g)) /\ o <> e /\ op h' o = Some e /\ rev_pair h' e o) ->
  minv h' (K ++ N) /\ (forall e, Live h K e -> st h' e = st h e).
Proof.
  intros H IK ND N1 N2 N3 HF HE HL H1 H2.
  assert (DJ : forall f, In f K -> ~ In f N).
  { intros f I J. apply in_split in I as (k1 & k2 & ->). rewrite <- app_assoc in ND. cbn in ND.
    apply NoDup_remove_2 in ND. apply ND. rewrite !in_app_iff. auto. }
  set (L' := fun f => if in_dec Nat.eq_dec f K then Lf h f else L f).
  assert (LK : forall f, In f K -> L' f = Lf h f) by (intros f If; unfold L'; destruct (in_dec _ f K); tauto).
  assert (LN : forall f, In f N -> L' f = L f).
  { intros f If; unfold L'; destruct (in_dec _ f K) as [i|]; auto. destruct (DJ _ i If). }
  split.
  - apply (minv_intro h' _ L'); auto.
    + intros f If. apply in_app_or in If as [If|If].
      * rewrite LK by auto. apply (floop_frame h); auto; [now apply Lf_of with fs; auto|].
        intros e Ie. apply HE. exists f; auto.
      * rewrite LN by auto. auto.
    + assert (Q : forall e o, ((Live h K o \/ exists g, In g N /\ In o (L g)) /\ o <> e /\ op h' o = Some e /\ rev_pair h' e o) ->
        (exists g, In g (K ++ N) /\ In o (L' g)) /\ o <> e /\ op h' o = Some e /\ en h' o = st h' e /\ st h' o = en h' e).
      { intros e o (A & B & D & G1 & G2). split; [|auto].
        destruct A as [(g & Ig & Io)|(g & Ig & Io)]; exists g; (split; [apply in_or_app; auto|]).
        - now rewrite LK. - now rewrite LN. }
      intros f e o If Ie Ho. apply Q. apply in_app_or in If as [If|If].
      * rewrite LK in Ie by auto. apply H1; auto. exists f; auto.
      * rewrite LN in Ie by auto. now apply (H2 f).
  - intros e (f & If & Ie). apply (floop_st_frame h h' f (Lf h f)); auto.
    { apply Lf_of with fs; auto. }
    intros x Ix. destruct (HE x) as (A & _ & _ & B); [exists f|]; auto.
Qed.

(** In the kept part, an opposite that is itself in the kept part. *)
Lemma minv_pair h fs e o : minv h fs -> Live h fs e -> op h e = Some o ->
  Live h fs o /\ o <> e /\ op h o = Some e /\ rev_pair h e o.
Proof. intros (_ & _ & H) A B. destruct (H e o A B) as (D & E1 & E2 & E3 & E4). unfold rev_pair. auto. Qed.
Lemma Live_incl h fs fs' e : incl fs fs' -> Live h fs e -> Live h fs' e.
Proof. intros I (f & A & B). exists f; auto. Qed.
Lemma Live_lt h fs e : minv h fs -> Live h fs e -> e < ne h.
Proof. intros (_ & H & _) L. now apply (Live_e _ _ _ H) in L as (A & _). Qed.
Lemma Live_face h fs e f : minv h fs -> Live h fs e -> In f fs -> In e (Lf h f) -> fc h e = Some f.
Proof. intros (_ & H & _) L I Ie. now apply (floop_in _ _ _ _ (H f I)) in Ie as (_ & B & _). Qed.

(** ** link_edges *)
Lemma link_minv h fs a b : minv h fs -> Live h fs a -> Live h fs b -> a <> b -> op h a = None -> op h b = None ->
  rev_pair h a b -> link_edges h a b = Ok (lk h a b) /\ minv (lk h a b) fs.
Proof.
  intros H La Lb N Oa Ob [R1 R2]. pose proof (Live_lt _ _ _ H La) as Ba. pose proof (Live_lt _ _ _ H Lb) as Bb.
  split; [now apply link_ok|].
  assert (ES : forall x, en (lk h a b) x = en h x /\ fc (lk h a b) x = fc h x /\ nx (lk h a b) x = nx h x /\ pv (lk h a b) x = pv h x).
  { intros x. unfold en, fc, nx, pv. rewrite !E_lk by auto. destruct (Nat.eqb_spec x a) as [->|]; [auto|]. destruct (Nat.eqb_spec x b) as [->|]; auto. }
  assert (SS : forall x, st (lk h a b) x = st h x).
  { intros x. unfold st. destruct (ES x) as (_ & _ & _ & ->). destruct (pv h x); auto. apply ES. }
  rewrite <- (app_nil_r fs).
  apply (minv_build h _ fs fs [] (fun _ => [])); auto.
  - intros f; auto.
  - rewrite app_nil_r. apply H.
  - rewrite ne_lk; lia.
  - intros f [].
  - intros e o Le Ho. unfold op in Ho. rewrite E_lk in Ho by auto. unfold rev_pair.
    rewrite !SS. rewrite !(proj1 (ES _)).
    unfold op. rewrite E_lk by auto.
    destruct (Nat.eqb_spec e a) as [->|Na].
    { cbn in Ho. injection Ho as <-. destruct (Nat.eqb_spec b a); [congruence|]. rewrite Nat.eqb_refl. cbn. auto 7. }
    destruct (Nat.eqb_spec e b) as [->|Nb].
    { cbn in Ho. injection Ho as <-. rewrite Nat.eqb_refl. cbn. auto 7. }
    destruct (minv_pair _ _ _ _ H Le Ho) as (A & B & D & G1 & G2).
    destruct (Nat.eqb_spec o a) as [->|]; [unfold op in *; congruence|].
    destruct (Nat.eqb_spec o b) as [->|]; [unfold op in *; congruence|]. auto 7.
  - intros g e o [].
Qed.

(** ** Removal of a face *)
Lemma cut_ok : forall es h, (forall e, In e es -> e < ne h /\ forall o, op h e = Some o -> o < ne h) ->
  exists h', cut_opposites h es = Ok h' /\ h_v h' = h_v h /\ h_f h' = h_f h /\ ne h' = ne h /\
    (forall x, en h' x = en h x /\ fc h' x = fc h x /\ nx h' x = nx h x /\ pv h' x = pv h x) /\
    (forall x, op h' x = op h x \/ (op h' x = None /\ exists e, In e es /\ op h e = Some x)) /\
    (forall e o, In e es -> op h e = Some o -> op h' o = None \/ exists e', In e' es /\ op h e' = Some e).
Proof.
  induction es as [|e es IH]; intros h HB.
  - exists h. cbn. repeat split; auto. intros e o [].
  - cbn [cut_opposites]. destruct (HB e) as [Le Lo]; [now left|].
    rewrite get_e_ok by auto. cbn [bind]. change (he_opp (E h e)) with (op h e).
    destruct (op h e) as [o|] eqn:Eo.
    + specialize (Lo o eq_refl). rewrite set_opp_ok by auto. cbn [bind].
      set (h1 := ue h o (wopp (E h o) None)).
      assert (O1 : forall x, op h1 x = if x =? o then None else op h x).
      { intros x. unfold op, h1. rewrite E_ue by auto. destruct (Nat.eqb_spec x o); reflexivity. }
      assert (S1 : forall x, en h1 x = en h x /\ fc h1 x = fc h x /\ nx h1 x = nx h x /\ pv h1 x = pv h x).
      { intros x. unfold en, fc, nx, pv, h1. rewrite E_ue by auto. destruct (Nat.eqb_spec x o) as [->|]; auto. }
      destruct (IH h1) as (h' & A0 & A1 & A2 & A3 & A4 & A5 & A6).
      { intros x Hx. destruct (HB x) as [Q1 Q2]; [now right|]. unfold h1 at 1. rewrite ne_ue. split; auto.
        intros y. rewrite O1. unfold h1. rewrite ne_ue. destruct (x =? o); [discriminate|auto]. }
      exists h'. rewrite A0. split; [auto|]. split; [auto|]. split; [auto|].
      split; [rewrite A3; apply ne_ue|]. split.
      { intros x. destruct (A4 x) as (-> & -> & -> & ->). apply S1. }
      split.
      { intros x. destruct (A5 x) as [B|[B (y & Y1 & Y2)]].
        - rewrite B, O1. destruct (Nat.eqb_spec x o) as [->|]; auto. right. split; auto. exists e. split; [now left|auto].
        - right. split; auto. rewrite O1 in Y2. exists y. split; [now right|]. destruct (y =? o); [discriminate|auto]. }
      { intros y z Hy Hz.
        assert (KN : forall x, op h1 x = None -> op h' x = None).
        { intros x Hx. destruct (A5 x) as [B|[B _]]; congruence. }
        destruct Hy as [<-|Hy].
        - left. rewrite Eo in Hz. injection Hz as <-. apply KN. rewrite O1, Nat.eqb_refl. auto.
        - destruct (Nat.eq_dec y o) as [->|Ny].
          + right. exists e. split; [now left|auto].
          + destruct (A6 y z Hy) as [B|(e' & B1 & B2)].
            * rewrite O1. destruct (Nat.eqb_spec y o); [congruence|auto].
            * auto.
            * right. exists e'. split; [now right|]. rewrite O1 in B2. destruct (e' =? o); [discriminate|auto]. }
    + cbn [bind]. destruct (IH h) as (h' & A0 & A1 & A2 & A3 & A4 & A5 & A6).
      { intros x Hx. apply HB. now right. }
      exists h'. rewrite A0. split; [auto|]. split; [auto|]. split; [auto|]. split; [auto|]. split; [auto|]. split.
      { intros x. destruct (A5 x) as [B|[B (y & Y1 & Y2)]]; auto. right. split; auto. exists y. split; [now right|auto]. }
      { intros y z [<-|Hy] Hz; [congruence|]. destruct (A6 y z Hy Hz) as [B|(e' & B1 & B2)]; auto.
        right. exists e'. split; [now right|auto]. }
Qed.

(** remove [f] from the mesh [k1 ++ f :: k2] *)
Lemma cut_minv h k1 f k2 : minv h (k1 ++ f :: k2) -> exists h', cut_opposites h (Lf h f) = Ok h' /\
  h_v h' = h_v h /\ h_f h' = h_f h /\ ne h' = ne h /\
  (forall x, en h' x = en h x /\ fc h' x = fc h x /\ nx h' x = nx h x /\ pv h' x = pv h x) /\
  (forall e, Live h (k1 ++ k2) e -> op h' e = match op h e with Some o => if ptr_eqb (fc h o) (Some f) then None else Some o | None => None end) /\
  minv h' (k1 ++ k2).
Proof.
  intros H. set (fs := k1 ++ f :: k2) in *. set (K := k1 ++ k2).
  assert (If : In f fs) by (apply in_elt).
  assert (IK : incl K fs).
  { intros g. unfold K, fs. rewrite !in_app_iff. cbn. tauto. }
  assert (NK : ~ In f K) by (apply NoDup_remove_2, H).
  assert (DK : forall g, In g fs -> g = f \/ In g K).
  { intros g. unfold fs, K. rewrite !in_app_iff. cbn. intuition. }
  assert (Lfe : forall e, In e (Lf h f) -> Live h fs e) by (intros e Ie; exists f; auto).
  assert (NL : forall e, Live h K e -> ~ In e (Lf h f)).
  { intros e (g & Ig & Ie) Ie'. apply NK. replace f with g; auto.
    apply (floop_face h g f (Lf h g) (Lf h f) e); auto; apply (Lf_of _ _ _ H); auto. }
  destruct (cut_ok (Lf h f) h) as (h' & A0 & A1 & A2 & A3 & A4 & A5 & A6).
  { intros e Ie. split; [apply (Live_lt _ _ _ H); auto|]. intros o Ho.
    destruct (minv_pair _ _ _ _ H (Lfe _ Ie) Ho) as (A & _). now apply (Live_lt _ _ _ H) in A. }
  exists h'. split; [auto|]. split; [auto|]. split; [auto|]. split; [auto|]. split; [auto|].
  assert (OP : forall e, Live h K e -> op h' e = match op h e with Some o => if ptr_eqb (fc h o) (Some f) then None else Some o | None => None end).
  { intros e Le. destruct (op h e) as [o|] eqn:Eo.
    - destruct (minv_pair _ _ _ _ H (Live_incl _ _ _ _ IK Le) Eo) as (B1 & B2 & B3 & _).
      destruct (ptr_eqb_spec (fc h o) (Some f)) as [D|D].
      + assert (Io : In o (Lf h f)).
        { destruct B1 as (g & Ig & Io). assert (fc h o = Some g) by (apply (floop_in _ _ _ _ (Lf_of _ _ _ H Ig) Io)).
          congruence. }
        destruct (A6 o e Io B3) as [G|(e' & G1 & G2)]; auto.
        destruct (minv_pair _ _ _ _ H (Lfe _ G1) G2) as (_ & _ & G3 & _).
        rewrite B3 in G3. injection G3 as <-. destruct (NL _ Le G1).
      + destruct (A5 e) as [G|(G & x & G1 & G2)]; [congruence|].
        destruct (minv_pair _ _ _ _ H (Lfe _ G1) G2) as (_ & _ & G3 & _).
        rewrite Eo in G3. injection G3 as <-. exfalso. apply D.
        apply (floop_in _ _ _ _ (Lf_of _ _ _ H If) G1).
    - destruct (A5 e) as [G|(G & _)]; congruence. }
  split; [exact OP|].
  assert (SS : forall x, st h' x = st h x).
  { intros x. unfold st. destruct (A4 x) as (_ & _ & _ & ->). destruct (pv h x); auto. apply A4. }
  rewrite <- (app_nil_r K).
  apply (minv_build h h' fs K [] (fun _ => [])); auto.
  - rewrite app_nil_r. apply NoDup_remove_1 with f. apply H.
  - lia.
  - unfold nv. now rewrite A1.
  - unfold nf. now rewrite A2.
  - intros g _. unfold F. now rewrite A2.
  - intros g [].
  - intros e o Le Ho. rewrite OP in Ho by auto. destruct (op h e) as [o'|] eqn:Eo; [|discriminate].
    destruct (ptr_eqb_spec (fc h o') (Some f)) as [D|D]; [discriminate|]. injection Ho as ->.
    destruct (minv_pair _ _ _ _ H (Live_incl _ _ _ _ IK Le) Eo) as (B1 & B2 & B3 & B4).
    assert (Lo : Live h K o).
    { destruct B1 as (g & Ig & Io). exists g. split; auto. destruct (DK g Ig) as [->|]; auto.
      exfalso. apply D. apply (floop_in _ _ _ _ (Lf_of _ _ _ H If) Io). }
    split; [auto|]. split; [auto|]. split.
    + rewrite OP, B3 by auto. destruct (ptr_eqb_spec (fc h e) (Some f)) as [G|G]; auto.
      exfalso. destruct Le as (g & Ig & Ie). apply NK.
      destruct (floop_in _ _ _ _ (Lf_of _ _ _ H (IK _ Ig)) Ie) as (_ & Q & _). congruence.
    + unfold rev_pair. rewrite !SS, !(proj1 (A4 _)). exact B4.
  - intros g e o [].
Qed.

Lemma Lf_frame h h' f l : floop h f l -> ne h <= ne h' -> nv h <= nv h' -> nf h <= nf h' -> F h' f = F h f ->
  (forall e, In e l -> en h' e = en h e /\ fc h' e = fc h e /\ nx h' e = nx h e /\ pv h' e = pv h e) ->
  Lf h' f = Lf h f.
Proof.
  intros. rewrite (Lf_ok h f l) by auto. apply Lf_ok. apply (floop_frame h); auto.
Qed.

Lemma eraseFace_minv h fs i : minv h fs -> i < length fs -> exists h', eraseFace h fs i = Ok (h', firstn i fs ++ skipn (S i) fs) /\
  minv h' (firstn i fs ++ skipn (S i) fs).
Proof.
  intros H Hi. unfold eraseFace. rewrite (get_nth fs i 0) by auto. cbn [bind].
  assert (Q : fs = firstn i fs ++ nth i fs 0 :: skipn (S i) fs).
  { rewrite <- (firstn_skipn i fs) at 1. f_equal. now apply skipn_S_nth. }
  assert (If : In (nth i fs 0) fs) by now apply nth_In.
  rewrite (getFaceEdges_ok h (nth i fs 0) (Lf h (nth i fs 0))) by (apply (Lf_of _ fs); auto). cbn [bind].
  rewrite Q in H at 1. destruct (cut_minv _ _ _ _ H) as (h' & A0 & _ & _ & _ & _ & _ & A).
  rewrite A0. cbn [bind]. eauto.
Qed.

(** remove_faces: the faces kept are those that do not have the vertex *)
Definition has_v h v f := existsb (ptr_eqb (Some v)) (map (en h) (Lf h f)).
Lemma remove_faces_minv v : forall fs k h, minv h (k ++ fs) ->
  exists h', remove_faces h fs v = Ok (h', filter (fun f => negb (has_v h v f)) fs, length (filter (has_v h v) fs)) /\
   minv h' (k ++ filter (fun f => negb (has_v h v f)) fs) /\
   h_v h' = h_v h /\ h_f h' = h_f h /\ ne h' = ne h /\
   (forall x, en h' x = en h x /\ fc h' x = fc h x /\ nx h' x = nx h x /\ pv h' x = pv h x) /\
   (forall e, Live h (k ++ filter (fun f => negb (has_v h v f)) fs) e ->
      op h' e = match op h e with
                | Some o => if existsb (fun f => ptr_eqb (fc h o) (Some f)) (filter (has_v h v) fs) then None else Some o
                | None => None end).
Proof.
  induction fs as [|f fs IH]; intros k h H.
  - exists h. cbn. split; [reflexivity|]. split; [exact H|]. split; [auto|]. split; [auto|]. split; [auto|].
    split; [auto|]. intros e _. now destruct (op h e).
  - cbn [remove_faces]. assert (If : In f (k ++ f :: fs)) by apply in_elt.
    pose proof (Lf_of _ _ _ H If) as FL.
    rewrite (getFaceEdges_ok _ _ _ FL). cbn [bind].
    rewrite (mapM_ok _ (en h)).
    2:{ intros e Ie. rewrite get_e_ok; [reflexivity|]. apply (floop_in _ _ _ _ FL Ie). }
    cbn [bind]. change (existsb (ptr_eqb (Some v)) (map (en h) (Lf h f))) with (has_v h v f).
    cbn [filter]. destruct (has_v h v f) eqn:Hv; cbn [negb].
    + destruct (cut_minv _ _ _ _ H) as (h1 & A0 & A1 & A2 & A3 & A4 & A5 & A6).
      rewrite A0. cbn [bind].
      assert (LL : forall g, In g (k ++ fs) -> Lf h1 g = Lf h g).
      { intros g Ig. apply (Lf_frame h h1 g (Lf h g)); auto.
        - apply (Lf_of _ _ _ H). rewrite in_app_iff in *. cbn. tauto.
        - lia. - unfold nv; now rewrite A1. - unfold nf; now rewrite A2. - unfold F; now rewrite A2. }
      assert (HV : forall g, In g fs -> has_v h1 v g = has_v h v g).
      { intros g Ig. unfold has_v. rewrite LL by (rewrite in_app_iff; auto). f_equal. apply map_ext. intros x. apply A4. }
      destruct (IH k h1 A6) as (h' & B0 & B1 & B2 & B3 & B4 & B5 & B6).
      assert (F1 : filter (fun f => negb (has_v h1 v f)) fs = filter (fun f => negb (has_v h v f)) fs).
      { apply filter_ext_in. intros g Ig. now rewrite HV. }
      assert (F2 : filter (has_v h1 v) fs = filter (has_v h v) fs).
      { apply filter_ext_in. intros g Ig. now rewrite HV. }
      rewrite F1, F2 in B0. rewrite F1 in B1. rewrite F1, F2 in B6. rewrite B0. cbn [bind]. exists h'. split; [reflexivity|].
      split; [auto|]. split; [congruence|]. split; [congruence|]. split; [congruence|]. split.
      { intros x. destruct (B5 x) as (-> & -> & -> & ->). apply A4. }
      intros e Le. rewrite B6.
      * rewrite A5.
        2:{ apply Live_incl with (2 := Le). intros g. rewrite !in_app_iff, filter_In. tauto. }
        destruct (op h e) as [o|]; auto. cbn [existsb].
        destruct (ptr_eqb (fc h o) (Some f)); cbn [orb]; auto.
        destruct (A4 o) as (_ & -> & _). reflexivity.
      * destruct Le as (g & Ig & Ie). exists g. split; [auto|]. rewrite LL; auto.
        revert Ig. rewrite !in_app_iff, filter_In. tauto.
    + replace (k ++ f :: fs) with ((k ++ [f]) ++ fs) in H by (now rewrite <- app_assoc).
      destruct (IH (k ++ [f]) h H) as (h' & B0 & B1 & B2 & B3 & B4 & B5 & B6). rewrite B0. cbn [bind].
      rewrite <- app_assoc in B1, B6. cbn [app] in B1, B6. exists h'. split; [reflexivity|]. auto 10.
Qed.
End Mesh.
