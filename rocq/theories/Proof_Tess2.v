(** The insertion of a point (boyerWatson) on a mesh of counter-clockwise triangles. *)
From Coq Require Import List Arith Lia Bool Reals Lra Permutation ZArith.
From Verif Require Import Model_Base Model_Mesh Model_Geom Model_Tess Spec_Mesh Spec_MeshEdit Spec_Geom Proof_Base
  Proof_Mesh Proof_Mesh2 Proof_Mesh3 Proof_Mesh4 Proof_Mesh9 Proof_PropMesh Proof_PropMesh2 Proof_PropMesh3 Proof_Plane Proof_Tess.
Import ListNotations.
Local Open Scope nat_scope.

Section AtR.
Variable eps : R.
Local Hint Extern 0 (Num R) => exact (NumR eps) : typeclass_instances.
Notation C := (R * R)%type.
Implicit Types (h : heap C) (fs K l es : list nat) (f e : nat) (xy q : C).

Lemma orient2d_R (a b c : C) : orient2d (T := R) a b c = orr a b c.
Proof. unfold orient2d, orr. nsimp. ring. Qed.
Lemma p2_eqb_R (a b : C) : p2_eqb (T := R) a b = true <-> a = b.
Proof.
  unfold p2_eqb, neqb. nsimp. rewrite !andb_true_iff. destruct a as [ax ay], b as [bx by_]. cbn [fst snd].
  destruct (Rleb_spec ax bx), (Rleb_spec bx ax), (Rleb_spec ay by_), (Rleb_spec by_ ay); split; intros Q; try (intuition congruence);
    try (injection Q as Q1 Q2; lra); f_equal; lra.
Qed.
Lemma p2_eqb_F (a b : C) : p2_eqb (T := R) a b = false <-> a <> b.
Proof. rewrite <- not_true_iff_false, p2_eqb_R. tauto. Qed.

(** a mesh of counter-clockwise triangles *)
Definition tmesh h fs := minv h fs /\
  forall f, In f fs -> exists e1 e2 e3, Lf h f = [e1; e2; e3] /\ ccw (ec h e1) (ec h e2) (ec h e3).

Lemma tri_facts h f e1 e2 e3 : floop h f [e1; e2; e3] ->
  f < nf h /\ F h f = Some e1 /\ e1 < ne h /\ e2 < ne h /\ e3 < ne h /\
  nx h e1 = Some e2 /\ nx h e2 = Some e3 /\ nx h e3 = Some e1 /\ pv h e1 = Some e3 /\ pv h e2 = Some e1 /\ pv h e3 = Some e2 /\
  st h e1 = en h e3 /\ st h e2 = en h e1 /\ st h e3 = en h e2 /\ NoDup [e1; e2; e3].
Proof.
  intros (_ & ND & A & B & H). cbn in B. pose proof (H 0 ltac:(cbn; lia)) as (A0 & _ & N0 & P0 & _). pose proof (H 1 ltac:(cbn; lia)) as (A1 & _ & N1 & P1 & _).
  pose proof (H 2 ltac:(cbn; lia)) as (A2 & _ & N2 & P2 & _). cbn in A0, A1, A2, N0, N1, N2, P0, P1, P2.
  repeat (split; [assumption|]). unfold st. rewrite P0, P1, P2. auto.
Qed.
Lemma tri_st h f e1 e2 e3 : floop h f [e1; e2; e3] -> sc h e1 = ec h e3 /\ sc h e2 = ec h e1 /\ sc h e3 = ec h e2.
Proof. intros L. apply tri_facts in L. unfold sc, ec. destruct L as (_ & _ & _ & _ & _ & _ & _ & _ & _ & _ & _ & A & B & D & _). now rewrite A, B, D. Qed.

Lemma end_coords_ok h e v : e < ne h -> en h e = Some v -> v < nv h -> end_coords h e = Ok (ec h e).
Proof.
  intros B H V. unfold end_coords. rewrite (end_of_ok _ _ _ B H). cbn [bind]. destruct (get_v_ok h v V) as (r & G1 & _ & G2). rewrite G1. cbn [bind].
  unfold ec, co. now rewrite H, G2.
Qed.
Lemma floop_ec h f l e : floop h f l -> In e l -> end_coords h e = Ok (ec h e).
Proof. intros L I. destruct (floop_in _ _ _ _ L I) as (A & _ & (v & B & D) & _). now apply (end_coords_ok h e v). Qed.
Lemma floop_sc h f l e : floop h f l -> In e l -> start_coords h e = Ok (sc h e).
Proof.
  intros L I. destruct (floop_in _ _ _ _ L I) as (A & _). destruct (floop_st _ _ _ _ L I) as (v & p & A1 & A2 & A3 & A4 & A5 & A6).
  unfold start_coords. rewrite (prev_of_ok _ _ _ A A3). cbn [bind]. rewrite (floop_ec _ _ _ _ L A4). unfold ec, sc. now rewrite A1, A6.
Qed.
Lemma triangle_coords_ok h f e1 e2 e3 : floop h f [e1; e2; e3] -> triangle_coords h f = Ok (ec h e1, ec h e2, ec h e3).
Proof.
  intros L. destruct (tri_facts _ _ _ _ _ L) as (A & B & B1 & B2 & B3 & N1 & N2 & N3 & _). unfold triangle_coords.
  rewrite get_f_ok by auto. cbn [bind]. rewrite B. cbn [deref bind]. rewrite (floop_ec _ _ _ _ L) by (cbn; auto). cbn [bind].
  rewrite (next_of_ok _ _ _ B1 N1). cbn [bind]. rewrite (floop_ec _ _ _ _ L) by (cbn; auto). cbn [bind].
  rewrite (next_of_ok _ _ _ B2 N2). cbn [bind]. rewrite (floop_ec _ _ _ _ L) by (cbn; auto). reflexivity.
Qed.
Lemma getTriangleEdges_ok h f e1 e2 e3 : floop h f [e1; e2; e3] -> getTriangleEdges h f = Ok [e2; e1; e3].
Proof.
  intros L. destruct (tri_facts _ _ _ _ _ L) as (A & B & B1 & B2 & B3 & N1 & N2 & N3 & P1 & _). unfold getTriangleEdges.
  rewrite get_f_ok by auto. cbn [bind]. rewrite B. cbn [deref bind]. rewrite (next_of_ok _ _ _ B1 N1). cbn [bind].
  now rewrite (prev_of_ok _ _ _ B1 P1).
Qed.

Lemma all_left_ok h fs xy : minv h fs -> forall es, (forall e, In e es -> Live h fs e) ->
  exists b, all_left h es xy = Ok b /\ (b = true <-> forall e, In e es -> (0 < orr (sc h e) (ec h e) xy)%R).
Proof.
  intros H. induction es as [|e es IH]; intros HL; cbn [all_left].
  - exists true. split; auto. split; auto. intros _ e [].
  - destruct (HL e (or_introl eq_refl)) as (f & If & Ie). pose proof (Lf_of _ _ _ H If) as L.
    rewrite (floop_sc _ _ _ _ L Ie), (floop_ec _ _ _ _ L Ie). cbn [bind]. rewrite orient2d_R. nsimp.
    destruct (Rleb_spec (orr (sc h e) (ec h e) xy) 0) as [Q|Q].
    + exists false. split; auto. split; [discriminate|]. intros Z. specialize (Z e (or_introl eq_refl)). lra.
    + destruct IH as (b & -> & B); [intros; apply HL; now right|]. exists b. split; auto. rewrite B. split.
      * intros Z x [<-|I]; auto.
      * intros Z x I. apply Z. now right.
Qed.

(** ** locate *)
Inductive located h fs xy : option (list nat) -> Prop :=
| loc_dup f e : In f fs -> In e (Lf h f) -> ec h e = xy -> located h fs xy None
| loc_out : (forall f e1 e2 e3, In f fs -> Lf h f = [e1; e2; e3] -> ~ in_closed (ec h e1) (ec h e2) (ec h e3) xy) -> located h fs xy (Some [])
| loc_in f e1 e2 e3 : In f fs -> Lf h f = [e1; e2; e3] -> in_open (ec h e1) (ec h e2) (ec h e3) xy -> located h fs xy (Some [f])
| loc_rim f e1 e2 e3 e : In f fs -> Lf h f = [e1; e2; e3] -> in_closed (ec h e1) (ec h e2) (ec h e3) xy ->
    In e (Lf h f) -> orr (sc h e) (ec h e) xy = 0%R -> op h e = None -> located h fs xy (Some [f])
| loc_edge f e1 e2 e3 e o g : In f fs -> Lf h f = [e1; e2; e3] -> in_closed (ec h e1) (ec h e2) (ec h e3) xy ->
    xy <> ec h e1 -> xy <> ec h e2 -> xy <> ec h e3 ->
    In e (Lf h f) -> orr (sc h e) (ec h e) xy = 0%R -> op h e = Some o -> In g fs -> In o (Lf h g) -> f <> g -> located h fs xy (Some [f; g]).

(** a triangle is not glued to itself *)
Lemma not_self h fs f e o : tmesh h fs -> In f fs -> In e (Lf h f) -> op h e = Some o -> ~ In o (Lf h f).
Proof.
  intros (H & HT) If Ie Ho Io. destruct (HT f If) as (e1 & e2 & e3 & Q & W). pose proof (Lf_of _ _ _ H If) as L. rewrite Q in *.
  destruct (tri_facts _ _ _ _ _ L) as (_ & _ & _ & _ & _ & _ & _ & _ & _ & _ & _ & S1 & S2 & S3 & _).
  assert (Le : Live h fs e) by (exists f; rewrite Q; auto).
  destruct (minv_pair _ _ _ _ H Le Ho) as (_ & NE & _ & R1 & R2).
  unfold ccw, area2, ec in W.
  assert (X : forall a b c : C, a = b \/ b = c \/ a = c -> ~ (0 < area2 a b c)%R).
  { intros a b c D. assert (area2 a b c = 0)%R; [|lra]. unfold area2. destruct D as [-> |[-> | ->]]; ring. }
  cbn in Ie, Io. destruct Ie as [<-|[<-|[<-|[]]]], Io as [<-|[<-|[<-|[]]]]; try congruence; rewrite ?S1, ?S2, ?S3 in *;
    apply (X (co h (en h e1)) (co h (en h e2)) (co h (en h e3))) in W; auto; try (rewrite R1; auto); try (rewrite R2; auto); rewrite ?R1, ?R2 in *; auto.
Qed.

Lemma locate_ok h xy : forall l fs, tmesh h fs -> incl l fs ->
  (forall f e1 e2 e3, In f fs -> ~ In f l -> Lf h f = [e1; e2; e3] -> ~ in_closed (ec h e1) (ec h e2) (ec h e3) xy) ->
  exists r, locate h l xy = Ok r /\ located h fs xy r.
Proof.
  induction l as [|f l IH]; intros fs TM I HO; pose proof TM as (H & HT).
  - exists (Some []). split; auto. constructor. intros f e1 e2 e3 If. apply (HO f); auto.
  - cbn [locate]. assert (If : In f fs) by (apply I; now left). destruct (HT f If) as (e1 & e2 & e3 & Q & W).
    pose proof (Lf_of _ _ _ H If) as L. rewrite Q in L. rewrite (triangle_coords_ok _ _ _ _ _ L). cbn [bind].
    destruct (tri_facts _ _ _ _ _ L) as (Bf & HF & B1 & B2 & B3 & N1 & N2 & N3 & _ & _ & _ & S1 & S2 & S3 & _).
    destruct (tri_st _ _ _ _ _ L) as (T1 & T2 & T3).
    destruct (p2_eqb xy (ec h e1)) eqn:X1.
    { apply p2_eqb_R in X1. exists None. split; auto. apply (loc_dup _ _ _ f e1); auto. rewrite Q. cbn; auto. }
    destruct (p2_eqb xy (ec h e2)) eqn:X2.
    { apply p2_eqb_R in X2. exists None. split; auto. apply (loc_dup _ _ _ f e2); auto. rewrite Q. cbn; auto. }
    destruct (p2_eqb xy (ec h e3)) eqn:X3.
    { apply p2_eqb_R in X3. exists None. split; auto. apply (loc_dup _ _ _ f e3); auto. rewrite Q. cbn; auto. }
    apply p2_eqb_F in X1, X2, X3. cbn [orb]. rewrite (orient2d_R (ec h e1) (ec h e2)), (orient2d_R (ec h e2) (ec h e3)), (orient2d_R (ec h e3) (ec h e1)). nsimp.
    pose proof (in_closed_iff _ _ _ xy W) as CI. pose proof (in_open_iff _ _ _ xy W) as OI.
    set (o0 := orr (ec h e1) (ec h e2) xy) in *. set (o1 := orr (ec h e2) (ec h e3) xy) in *. set (o2 := orr (ec h e3) (ec h e1) xy) in *.
    assert (OUT : ~ in_closed (ec h e1) (ec h e2) (ec h e3) xy -> exists r, locate h l xy = Ok r /\ located h fs xy r).
    { intros NC. apply IH; auto; [intros x Ix; apply I; now right|]. intros g a b c Ig NI Lg. destruct (Nat.eq_dec g f) as [->|NE].
      - rewrite Q in Lg. injection Lg as <- <- <-. exact NC.
      - apply (HO g); auto. intros [->|J]; auto. }
    destruct (Rltb_spec o0 0) as [P0|P0]; [cbn [orb]; apply OUT; rewrite CI; intros (? & ? & ?); lra|].
    destruct (Rltb_spec o1 0) as [P1|P1]; [cbn [orb]; apply OUT; rewrite CI; intros (? & ? & ?); lra|].
    destruct (Rltb_spec o2 0) as [P2|P2]; [cbn [orb]; apply OUT; rewrite CI; intros (? & ? & ?); lra|].
    cbn [orb]. assert (IC : in_closed (ec h e1) (ec h e2) (ec h e3) xy) by (apply CI; repeat split; lra).
    destruct (neqb o0 0%R || neqb o1 0%R || neqb o2 0%R) eqn:Z.
    + rewrite get_f_ok by auto. cbn [bind]. rewrite HF. cbn [deref bind]. rewrite (next_of_ok _ _ _ B1 N1). cbn [bind].
      rewrite (next_of_ok _ _ _ B2 N2). cbn [bind].
      set (on := if neqb o0 0%R then e2 else if neqb o1 0%R then e3 else e1).
      assert (ON : In on (Lf h f) /\ orr (sc h on) (ec h on) xy = 0%R /\ on < ne h).
      { assert (E0 : forall x : R, neqb x 0%R = true -> x = 0%R).
        { intros x. unfold neqb. nsimp. destruct (Rleb_spec x 0), (Rleb_spec 0 x); cbn; try discriminate. intros _. lra. }
        rewrite Q. unfold on. destruct (neqb o0 0%R) eqn:Z0; [|destruct (neqb o1 0%R) eqn:Z1].
        - split; [cbn; auto|]. rewrite T2. split; auto.
        - split; [cbn; auto|]. rewrite T3. split; auto.
        - split; [cbn; auto|]. rewrite T1. split; auto. }
      destruct ON as (ON1 & ON2 & ON3). rewrite get_e_ok by auto. cbn [bind]. fold (op h on).
      destruct (op h on) as [o|] eqn:OP.
      * assert (Le : Live h fs on) by (exists f; auto). destruct (minv_pair _ _ _ _ H Le OP) as ((g & Ig & Io) & _).
        destruct (floop_in _ _ _ _ (Lf_of _ _ _ H Ig) Io) as (Bo & Fo & _).
        rewrite get_e_ok by auto. cbn [bind]. fold (fc h o). rewrite Fo. eexists. split; [reflexivity|].
        apply (loc_edge _ _ _ f e1 e2 e3 on o g); auto. intros ->. apply (not_self h fs g on o); auto.
      * eexists. split; [reflexivity|]. apply (loc_rim _ _ _ f e1 e2 e3 on); auto.
    + eexists. split; [reflexivity|]. apply (loc_in _ _ _ f e1 e2 e3); auto. apply OI.
      apply orb_false_iff in Z as (Z & Z2). apply orb_false_iff in Z as (Z0 & Z1).
      apply (neqb_R_false eps) in Z0, Z1, Z2. cbn [n0 NumR] in *. repeat split; lra.
Qed.

(** ** the cavity *)
Lemma mem_iff f l : mem f l = true <-> In f l.
Proof.
  unfold mem. rewrite existsb_exists. split.
  - intros (x & Ix & Q). apply Nat.eqb_eq in Q. now subst.
  - intros I. exists f. split; auto. apply Nat.eqb_refl.
Qed.
Lemma distinct_ok : forall l, NoDup l -> distinct l = l.
Proof.
  intros l. unfold distinct. assert (X : forall l acc, NoDup (acc ++ l) -> fold_left (fun acc f => if mem f acc then acc else acc ++ [f]) l acc = acc ++ l).
  { clear l. induction l as [|a l IH]; intros acc ND; cbn; [now rewrite app_nil_r|].
    destruct (mem a acc) eqn:M.
    - apply mem_iff in M. apply NoDup_remove_2 in ND. exfalso. apply ND. apply in_or_app. auto.
    - rewrite IH; rewrite <- app_assoc; auto. }
  intros ND. now rewrite X.
Qed.
Lemma in_circle_face_ok h fs xy f : tmesh h fs -> In f fs -> exists d, in_circle_face h xy f = Ok d.
Proof.
  intros (H & HT) If. destruct (HT f If) as (e1 & e2 & e3 & Q & _). pose proof (Lf_of _ _ _ H If) as L. rewrite Q in L.
  unfold in_circle_face. rewrite (triangle_coords_ok _ _ _ _ _ L). cbn [bind]. eauto.
Qed.
Lemma visit_ok h fs xy : tmesh h fs -> forall es K stack, (forall e, In e es -> Live h fs e) -> NoDup K -> incl K fs -> incl stack K ->
  exists N, visit h xy es K stack = Ok (K ++ N, rev N ++ stack) /\ NoDup (K ++ N) /\ incl (K ++ N) fs.
Proof.
  intros TM. pose proof TM as (H & HT). induction es as [|e es IH]; intros K stack HL ND IK IS; cbn [visit].
  - exists []. rewrite app_nil_r. auto.
  - assert (Le : Live h fs e) by (apply HL; now left). assert (HL' : forall x, In x es -> Live h fs x) by (intros; apply HL; now right).
    rewrite get_e_ok by (now apply (Live_lt _ fs)). cbn [bind]. fold (op h e).
    destruct (op h e) as [o|] eqn:OP; [|now apply IH].
    destruct (minv_pair _ _ _ _ H Le OP) as ((g & Ig & Io) & _). destruct (floop_in _ _ _ _ (Lf_of _ _ _ H Ig) Io) as (Bo & Fo & _).
    rewrite get_e_ok by auto. cbn [bind]. fold (fc h o). rewrite Fo. destruct (mem g K) eqn:M; [now apply IH|].
    destruct (in_circle_face_ok h fs xy g TM Ig) as (d & ->). cbn [bind]. destruct (nltb n0 d); [|now apply IH].
    assert (NM : ~ In g K) by (intros J; apply mem_iff in J; congruence).
    destruct (IH (K ++ [g]) (g :: stack)) as (N & A & B & D); auto.
    + apply NoDup_app_intro; auto; [repeat constructor; auto|]. intros x Ix [<-|[]]; auto.
    + intros x Ix. apply in_app_or in Ix as [Ix|[<-|[]]]; auto.
    + intros x [<-|Ix]; apply in_or_app; cbn; auto.
    + exists (g :: N). rewrite A. rewrite <- app_assoc in *. cbn [app rev] in *. rewrite <- app_assoc. auto.
Qed.
Lemma flood_ok h fs xy : tmesh h fs -> forall fuel K stack, NoDup K -> incl K fs -> incl stack K ->
  length fs - length K + length stack <= fuel -> exists K', flood fuel h xy K stack = Ok K' /\ NoDup K' /\ incl K' fs /\ incl K K'.
Proof.
  intros TM. pose proof TM as (H & HT). induction fuel as [|k IH]; intros K stack ND IK IS HF; (destruct stack as [|f stack]; cbn [flood]; [exists K; split; [reflexivity|split; auto using incl_refl]|]).
  - cbn in HF. lia.
  - assert (If : In f fs) by (apply IK, IS; now left). destruct (HT f If) as (e1 & e2 & e3 & Q & _). pose proof (Lf_of _ _ _ H If) as L. rewrite Q in L.
    rewrite (getTriangleEdges_ok _ _ _ _ _ L). cbn [bind].
    destruct (visit_ok h fs xy TM [e2; e1; e3] K stack) as (N & A & B & D); auto.
    { intros e I. exists f. split; auto. rewrite Q. cbn in *. tauto. } { intros x Ix. apply IS. now right. }
    rewrite A. cbn [bind]. destruct (IH (K ++ N) (rev N ++ stack)) as (K' & X1 & X2 & X3 & X4); auto.
    { intros x Ix. apply in_or_app. apply in_app_or in Ix as [Ix|Ix]; [right; now apply in_rev|left; apply IS; now right]. }
    { assert (length (K ++ N) <= length fs) by (now apply NoDup_incl_length). rewrite !app_length, rev_length in *. cbn in HF. lia. }
    exists K'. split; auto. split; auto. split; auto. intros x Ix. apply X4. apply in_or_app. auto.
Qed.

Lemma boundary_live h fs K es : minv h fs -> incl K fs -> NoDup K -> getOrientedFacesBoundaries h K = Ok [es] ->
  forall e, In e es <-> Live h K e /\ inK h K e = false.
Proof.
  intros H IK NK HB e. destruct (oriented_ok h fs K H IK NK) as (ls & A & P & _). rewrite HB in A. injection A as <-.
  cbn [concat] in P. rewrite app_nil_r in P.
  assert (X : In e es <-> In e (filter (fun e => negb (inK h K e)) (alle h K))).
  { split; apply Permutation_in; auto. now apply Permutation_sym. }
  rewrite X, filter_In, in_alle, negb_true_iff. tauto.
Qed.
Lemma single_star_ok h fs xy K : tmesh h fs -> incl K fs -> NoDup K ->
  exists r, single_star h xy K = Ok r /\
    match r with
    | Some es => getOrientedFacesBoundaries h K = Ok [es] /\ es <> [] /\ (forall e, In e es -> (0 < orr (sc h e) (ec h e) xy)%R)
    | None => forall es, getOrientedFacesBoundaries h K = Ok [es] -> es <> [] -> ~ (forall e, In e es -> (0 < orr (sc h e) (ec h e) xy)%R)
    end.
Proof.
  intros (H & HT) IK NK. unfold single_star. destruct (oriented_ok h fs K H IK NK) as (ls & A & P & _). rewrite A. cbn [bind].
  destruct ls as [|es [|]]; try (exists None; split; [reflexivity|]; intros; congruence).
  destruct es as [|e0 es0] eqn:E0; [exists None; split; [reflexivity|]; congruence|]. rewrite <- E0 in *.
  destruct (all_left_ok h fs xy H es) as (b & B1 & B2).
  { intros e Ie. rewrite (boundary_live h fs K es H IK NK A) in Ie. apply (Live_incl h K fs); tauto. }
  assert (S : is_star_shaped h es xy = Ok b) by (rewrite E0 in *; exact B1). rewrite S. cbn [bind].
  destruct b.
  - exists (Some es). split; auto. split; auto. split; [rewrite E0; discriminate|]. now apply B2.
  - exists None. split; auto. intros es' X _ Z. injection X as <-. apply B2 in Z. discriminate.
Qed.

(** what find_cavity returns; [seed] has no repetitions *)
Lemma find_cavity_ok h fs xy seed : tmesh h fs -> NoDup seed -> incl seed fs ->
  exists r, find_cavity h xy seed = Ok r /\
    match r with
    | Some (K, es) => incl K fs /\ NoDup K /\ incl seed K /\ getOrientedFacesBoundaries h K = Ok [es] /\ es <> [] /\ (forall e, In e es -> (0 < orr (sc h e) (ec h e) xy)%R)
    | None => forall es, getOrientedFacesBoundaries h seed = Ok [es] -> es <> [] -> ~ (forall e, In e es -> (0 < orr (sc h e) (ec h e) xy)%R)
    end.
Proof.
  intros TM ND IS. pose proof TM as (H & HT). unfold find_cavity. rewrite (distinct_ok _ ND).
  destruct (flood_ok h fs xy TM (length (h_f h)) seed (rev seed)) as (K & A & B & D & G); auto.
  { intros x Ix. now apply in_rev. }
  { rewrite rev_length. assert (length seed <= length fs) by (now apply NoDup_incl_length).
    assert (length fs <= length (h_f h)); [|lia]. apply NoDup_bound; [apply H|]. intros f If. apply (Lf_of _ _ _ H If). }
  rewrite A. cbn [bind]. destruct (single_star_ok h fs xy K TM D B) as ([es|] & -> & S); cbn [bind].
  - exists (Some (K, es)). split; auto.
  - destruct (single_star_ok h fs xy seed TM IS ND) as ([es|] & -> & S'); cbn [bind].
    + exists (Some (seed, es)). split; auto. split; auto. split; auto. split; [apply incl_refl|]. tauto.
    + exists None. split; auto.
Qed.

(** ** The insertion *)
Lemma without_mem K fs : filter (fun f => negb (mem f K)) fs = without K fs.
Proof. reflexivity. Qed.

Record filled_with h fs xy K es h' : Prop := {
  fw_minv : minv h' (without K fs ++ seq (nf h) (length es));
  fw_kept : forall f, In f (without K fs) -> Lf h' f = Lf h f;
  fw_new : forall i, i < length es -> Lf h' (nf h + i) = [nth i es 0; ne h + 2 * i; ne h + 2 * i + 1];
  fw_keptc : forall f e, In f (without K fs) -> In e (Lf h f) -> sc h' e = sc h e /\ ec h' e = ec h e;
  fw_newc : forall i, i < length es -> let e := nth i es 0 in
     ec h' e = ec h e /\ ec h' (ne h + 2 * i) = xy /\ ec h' (ne h + 2 * i + 1) = sc h e /\
     sc h' e = sc h e /\ sc h' (ne h + 2 * i) = ec h e /\ sc h' (ne h + 2 * i + 1) = xy;
  fw_sum : forall g, (forall a b, g b a = (- g a b)%R) -> G g h' (alle h' (without K fs ++ seq (nf h) (length es))) = G g h (alle h fs);
  fw_vco : forall x, vco h' x = if x =? nv h then Some xy else vco h x;
  fw_nv : nv h' = S (nv h);
  fw_en : forall i, i < length es -> en h' (ne h + 2 * i) = Some (nv h) /\ op h' (nth i es 0) = op h (nth i es 0);
  fw_E : forall x, x < ne h -> ~ In x es -> E h' x = E h x;
  fw_op : forall i, i < length es -> op h' (ne h + 2 * i) = Some (ne h + 2 * ((i + 1) mod length es) + 1);
  fw_ne : ne h <= ne h'
}.
Lemma fill_ok h fs xy K es : minv h fs -> incl K fs -> NoDup K -> getOrientedFacesBoundaries h K = Ok [es] ->
  exists h', add_vertex (av h xy) es (nv h) = Ok (h', seq (nf h) (length es)) /\ filled_with h fs xy K es h'.
Proof.
  intros H IK NK HB. destruct (cavity_minv h fs K es xy H IK NK HB) as (h' & A & M & L1 & L2 & HE & HX & HV & HN & HO & HNE).
  exists h'. split; auto.
  assert (FS := fun g an => fill_sum g an h fs K es xy h' H IK NK HB M L1 L2 HE HX HV).
  destruct (FS (fun _ _ => 0%R) ltac:(intros; lra)) as (_ & KC & NC).
  constructor; auto.
  - intros g an. apply (FS g an).
  - intros i Hi. destruct (HE i Hi) as (_ & X & _ & Y). auto.
Qed.
Lemma filled_tmesh h fs xy K es h' : tmesh h fs -> incl K fs -> NoDup K -> getOrientedFacesBoundaries h K = Ok [es] ->
  (forall e, In e es -> (0 < orr (sc h e) (ec h e) xy)%R) -> filled_with h fs xy K es h' -> tmesh h' (without K fs ++ seq (nf h) (length es)).
Proof.
  intros (H & HT) IK NK HB ST FW. split; [apply FW|]. intros f If. apply in_app_or in If as [If|If].
  - pose proof If as If0. apply in_without in If0 as (If0 & _). destruct (HT f If0) as (e1 & e2 & e3 & Q & W). exists e1, e2, e3.
    rewrite (fw_kept _ _ _ _ _ _ FW) by auto. split; auto.
    assert (X : forall e, In e [e1; e2; e3] -> ec h' e = ec h e) by (intros e I; rewrite <- Q in I; apply (fw_keptc _ _ _ _ _ _ FW f e If I)).
    rewrite !X by (cbn; auto). exact W.
  - apply in_seq in If. replace f with (nf h + (f - nf h)) by lia. set (i := f - nf h). assert (Hi : i < length es) by (unfold i; lia).
    rewrite (fw_new _ _ _ _ _ _ FW) by auto. eexists _, _, _. split; [reflexivity|].
    destruct (fw_newc _ _ _ _ _ _ FW i Hi) as (E1 & E2 & E3 & _). rewrite E1, E2, E3.
    unfold ccw. rewrite <- orr_area, <- orr_rot, <- orr_rot. apply ST. now apply nth_In.
Qed.

Inductive inserted h fs xy : heap C -> list nat -> option (nat * list nat * list nat) -> Prop :=
| ins_none r : located h fs xy r -> (forall seed, r = Some seed -> seed <> [] ->
      forall es, getOrientedFacesBoundaries h seed = Ok [es] -> es <> [] -> ~ (forall e, In e es -> (0 < orr (sc h e) (ec h e) xy)%R)) ->
    inserted h fs xy h fs None
| ins_some seed K es h' : located h fs xy (Some seed) -> incl seed K -> incl K fs -> NoDup K -> getOrientedFacesBoundaries h K = Ok [es] -> es <> [] ->
    (forall e, In e es -> (0 < orr (sc h e) (ec h e) xy)%R) -> filled_with h fs xy K es h' ->
    inserted h fs xy h' (without K fs ++ seq (nf h) (length es)) (Some (nv h, filter (fun f => mem f K) fs, seq (nf h) (length es))).

Lemma located_seed h fs xy seed : tmesh h fs -> located h fs xy (Some seed) -> NoDup seed /\ incl seed fs.
Proof.
  intros _ L. inversion L; subst; (split; [repeat constructor; cbn; intuition|]).
  all: intros x Ix; cbn in Ix; intuition (subst; auto).
Qed.
Lemma boyerWatson_ok h fs xy : tmesh h fs -> exists h' fs' r, boyerWatson h fs xy = Ok (h', fs', r) /\ inserted h fs xy h' fs' r.
Proof.
  intros TM. pose proof TM as (H & HT). unfold boyerWatson.
  destruct (locate_ok h xy fs fs TM (incl_refl _)) as (r & -> & LR); [intros; contradiction|]. cbn [bind].
  destruct r as [[|s0 seed]|]; try (do 3 eexists; split; [reflexivity|]; eapply ins_none; [exact LR|]; intros; congruence).
  set (sd := s0 :: seed) in *. destruct (located_seed h fs xy sd TM LR) as (ND & IS).
  destruct (find_cavity_ok h fs xy sd TM ND IS) as ([[K es]|] & -> & FC); cbn [bind].
  - destruct FC as (IK & NK & SK & HB & NE & ST). destruct (fill_ok h fs xy K es H IK NK HB) as (h' & A & FW).
    unfold make_vertex. change (mkh (h_e h) (h_v h ++ [mkhv xy None]) (h_f h)) with (av h xy). change (length (h_v h)) with (nv h).
    rewrite A. cbn [bind]. do 3 eexists. split; [reflexivity|]. rewrite without_mem. now apply (ins_some h fs xy sd K es).
  - do 3 eexists. split; [reflexivity|]. eapply ins_none; [exact LR|]. intros ? [= <-] _. auto.
Qed.
Lemma inserted_tmesh h fs xy h' fs' r : tmesh h fs -> inserted h fs xy h' fs' r -> tmesh h' fs'.
Proof. intros TM I. destruct I; auto. eapply filled_tmesh; eauto. Qed.
End AtR.
