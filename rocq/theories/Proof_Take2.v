(** Proofs about the removal of the faces on one side of a boundary: the sides. *)
From Coq Require Import Reals List Arith Bool Lia Lra Psatz.
From Verif Require Import Model_Base Model_Knots Model_Mesh Model_Geom Model_Tess Model_Refine Model_Quality Model_Take
  Spec_Base Spec_Mesh Spec_MeshEdit Spec_Geom Spec_Tess Spec_Refine Spec_Quality Spec_Take
  Proof_Base Proof_Plane Proof_Mesh Proof_Mesh2 Proof_Mesh3 Proof_Mesh4 Proof_Mesh9 Proof_PropMesh Proof_PropMesh2 Proof_Tess Proof_Tess2 Proof_Tess5 Proof_Tess6 Proof_PropTess2 Proof_Geom2 Proof_Geom3 Proof_Geom4 Proof_Ellip Proof_Take.
Import ListNotations.
Local Open Scope nat_scope.

(** ** A point inside one triangle and in another closed one is inside the two, after a small move *)
Local Open Scope R_scope.
Definition move (q c : R * R) (t : R) : R * R := ((1 - t) * fst q + t * fst c, (1 - t) * snd q + t * snd c).
Lemma orr_move X Y q c t : orr X Y (move q c t) = (1 - t) * orr X Y q + t * orr X Y c.
Proof. rewrite !orr_area. unfold area2, move. cbn. ring. Qed.
Lemma small_t a c : 0 < a -> exists t0, 0 < t0 < 1 /\ forall t, 0 < t <= t0 -> 0 < (1 - t) * a + t * c.
Proof.
  intros Ha. pose proof (Rabs_pos c) as Pc. exists (a / (2 * (a + Rabs c))). assert (Q : 0 < 2 * (a + Rabs c)) by lra.
  assert (E : a / (2 * (a + Rabs c)) * (2 * (a + Rabs c)) = a) by (field; lra).
  split. { split; [apply Rdiv_lt_0_compat; lra|]. apply (Rmult_lt_reg_r (2 * (a + Rabs c))); lra. }
  intros t (H1 & H2). assert (t * (2 * (a + Rabs c)) <= a) by (rewrite <- E at 2; apply Rmult_le_compat_r; lra).
  pose proof (Rle_abs (- c)) as L. rewrite Rabs_Ropp in L. assert (t * - c <= t * Rabs c) by (apply Rmult_le_compat_l; lra). nra.
Qed.
Lemma open_meets A B D A' B' D' q : ccw A B D -> ccw A' B' D' -> in_open A B D q -> in_closed A' B' D' q ->
  exists q', in_open A B D q' /\ in_open A' B' D' q'.
Proof.
  intros W W' O C'. apply (in_open_iff A B D q W) in O. apply (in_closed_iff A' B' D' q W') in C'.
  set (c := centre A' B' D').
  assert (Oc : in_open A' B' D' c). { exists (1/3), (1/3), (1/3). repeat split; try lra. unfold c, centre, mix. cbn. f_equal; field. }
  apply (in_open_iff A' B' D' c W') in Oc. destruct O as (O1 & O2 & O3). destruct C' as (C1 & C2 & C3). destruct Oc as (K1 & K2 & K3).
  destruct (small_t _ (orr A B c) O1) as (t1 & T1 & H1). destruct (small_t _ (orr B D c) O2) as (t2 & T2 & H2). destruct (small_t _ (orr D A c) O3) as (t3 & T3 & H3).
  set (t := Rmin t1 (Rmin t2 t3)). assert (Ht : 0 < t < 1 /\ t <= t1 /\ t <= t2 /\ t <= t3). { unfold t, Rmin. destruct (Rle_dec t2 t3); destruct (Rle_dec t1 _); lra. }
  exists (move q c t). rewrite (in_open_iff A B D _ W), (in_open_iff A' B' D' _ W'), !orr_move.
  repeat split; [apply H1|apply H2|apply H3| | |]; try lra; nra.
Qed.
Lemma centre_in A B D : in_open A B D (centre A B D).
Proof. exists (1/3), (1/3), (1/3). repeat split; try lra. unfold centre, mix. cbn. f_equal; field. Qed.

(** ** The mesh *)
Lemma ec_same h h' e : same4 h h' -> ec h' e = ec h e.
Proof. intros (V & _ & _ & N). unfold ec, co. destruct (N e) as (-> & _). unfold vco; now rewrite V. Qed.
Lemma same4_sym h h' : same4 h h' -> same4 h' h.
Proof. intros (A & B & D & N). repeat split; auto; symmetry; apply N. Qed.
Lemma corners_same1 h h' f A B D : same4 h h' -> corners h f A B D -> corners h' f A B D.
Proof.
  intros S C. apply corners_inv in C as (e1 & e2 & e3 & L & Q & -> & -> & ->). rewrite <- !(ec_same h h' _ S).
  pose proof (floop_same _ _ _ _ S L) as L'. pose proof (Lf_ok _ _ _ L') as Q'. apply corners_of; rewrite Q'; auto. 
Qed.
Lemma corners_same h h' f A B D : same4 h h' -> corners h f A B D <-> corners h' f A B D.
Proof. intros S. split; apply corners_same1; auto. now apply same4_sym. Qed.
Lemma corners_fun h f A B D A' B' D' : corners h f A B D -> corners h f A' B' D' -> A = A' /\ B = B' /\ D = D'.
Proof.
  intros C C'. apply corners_inv in C as (e1 & e2 & e3 & _ & Q & -> & -> & ->). apply corners_inv in C' as (e1' & e2' & e3' & _ & Q' & -> & -> & ->).
  rewrite Q in Q'. injection Q' as <- <- <-. auto.
Qed.

Section AtR.
Variable eps : R.
Local Hint Extern 0 (Num R) => exact (NumR eps) : typeclass_instances.

Lemma face_coords_ok (h : plane) f A B D : corners h f A B D -> getFaceCoords h f = Ok [A; B; D].
Proof.
  intros C. apply corners_inv in C as (e1 & e2 & e3 & L & Q & -> & -> & ->). unfold getFaceCoords. rewrite (getFaceEdges_ok _ _ _ L). cbn [bind].
  rewrite Q in *. cbn [mapM]. rewrite !(floop_ec _ _ _ _ L) by (cbn; auto). reflexivity.
Qed.
Lemma centroid_inside_view (h : plane) f A B D es tol : corners h f A B D ->
  is_centroid_inside_boundary h f es tol = is_inside h (centre A B D) es tol.
Proof.
  intros C. unfold is_centroid_inside_boundary. rewrite (face_coords_ok _ _ _ _ _ C). cbn [bind].
  rewrite (divc_good eps) by (cbn; lra). cbn [bind]. f_equal. unfold times2, plus2, centre. cbn. f_equal; field.
Qed.

Section Side.
Variables (h : plane) (fs K es : list nat) (tol : R).
Hypotheses (TM : tri_mesh h fs) (NO : no_overlap h fs) (IK : incl K fs) (NK : NoDup K) (NE : NoDup es)
  (HB : forall e, In e es <-> on_boundary_of h K e) (HT : 0 <= tol) (HC : centres_clear h fs es tol).
Definition inK (f : nat) : bool := if in_dec Nat.eq_dec f K then true else false.
Lemma inK_iff f : inK f = true <-> In f K.
Proof. unfold inK. destruct (in_dec _ _ _); intuition discriminate. Qed.
Lemma test_ok f : In f fs -> is_centroid_inside_boundary h f es tol = Ok (inK f).
Proof.
  intros If. destruct TM as (_ & TR). destruct (TR f If) as (A & B & D & C & W). rewrite (centroid_inside_view _ _ _ _ _ _ _ C).
  destruct (is_inside_full eps h fs K es (centre A B D) tol TM NO IK NK NE HB HT) as (_ & X).
  destruct X as (r & -> & Hr). { intros e P Q Ie FT. apply (HC f A B D e P Q); auto. }
  f_equal. apply eq_true_iff_eq. rewrite Hr, inK_iff. split.
  - intros (g & A' & B' & D' & Ig & C' & IC). destruct (TR g (IK _ Ig)) as (A2 & B2 & D2 & C2 & W2). destruct (corners_fun _ _ _ _ _ _ _ _ C' C2) as (-> & -> & ->).
    destruct (open_meets A B D A2 B2 D2 (centre A B D) W W2 (centre_in A B D) IC) as (q & O1 & O2).
    rewrite (NO f g A B D A2 B2 D2 q); auto.
  - intros Ik. exists f, A, B, D. repeat split; auto. destruct (centre_in A B D) as (r1 & r2 & r3 & H1 & H2 & H3 & E & Q). exists r1, r2, r3. repeat split; auto; lra.
Qed.
Lemma out_ok (test : plane -> nat -> result bool) (P : nat -> bool) (Q : nat -> Prop) :
  (forall h h' f l, same4 h h' -> floop h f l -> test h' f = test h f) -> (forall f, In f fs -> test h f = Ok (P f)) -> (forall f, P f = true <-> Q f) ->
  exists h' kept taken, take_faces test h fs = Ok (h', kept, taken) /\ taken_out h fs Q h' kept taken.
Proof.
  intros TS T1 PQ. destruct TM as (M & TR). destruct (take_prop test P h fs TS M T1) as (h' & A & S & M' & _ & L & V & F' & O).
  set (kept := filter (fun f => negb (P f)) fs) in *. exists h', kept, (filter P fs). split; [exact A|].
  assert (KI : forall f, In f kept <-> In f fs /\ ~ Q f).
  { intros f. unfold kept. rewrite filter_In, negb_true_iff, <- PQ. destruct (P f); intuition congruence. }
  split; [exact KI|]. split. { intros f. rewrite filter_In, PQ. tauto. }
  split. { apply NoDup_filter. apply M. }
  split. { split; [exact M'|]. intros f If. apply KI in If as (If & _). destruct (TR f If) as (X & Y & Z & C & W). exists X, Y, Z. split; [now apply (corners_same h h')|exact W]. }
  split. { intros f g X Y Z X' Y' Z' q If Ig C C'. apply KI in If as (If & _). apply KI in Ig as (Ig & _). rewrite <- (corners_same h h') in C, C' by exact S. now apply (NO f g X Y Z X' Y' Z' q). }
  split. { intros. now apply corners_same. } split; [exact L|]. split; [exact V|]. split; [exact F'|]. intros e o Le. now apply O.
Qed.
Lemma internal_ok : exists h' kept taken, takeInternalFaces h fs es tol = Ok (h', kept, taken) /\ taken_out h fs (fun f => In f K) h' kept taken.
Proof.
  apply (out_ok _ inK). { intros h1 h2 f l S L. now apply (centroid_same eps h1 h2 f l). } { apply test_ok. } { apply inK_iff. }
Qed.
Lemma external_ok : exists h' kept taken, takeExternalFaces h fs es tol = Ok (h', kept, taken) /\ taken_out h fs (fun f => ~ In f K) h' kept taken.
Proof.
  apply (out_ok _ (fun f => negb (inK f))).
  - intros h1 h2 f l S L. now rewrite (centroid_same eps h1 h2 f l).
  - intros f If. now rewrite test_ok.
  - intros f. rewrite negb_true_iff, <- inK_iff. destruct (inK f); intuition congruence.
Qed.
End Side.

(** ** Orientation *)
Lemma from_to_coords (h : plane) e A B : from_to h e A B -> start_coords h e = Ok A /\ end_coords h e = Ok B.
Proof.
  intros (a & b & (r & p & E1 & E2 & (r' & E3 & E4 & E5)) & (r2 & E6 & E7 & E8) & (va & Va & <-) & (vb & Vb & <-)). unfold is_edge in *.
  unfold start_coords, end_coords, prev_of, end_of, get_e, get_v, get. rewrite E1. cbn [bind]. rewrite E2. cbn [deref bind]. rewrite E3. cbn [bind]. rewrite E4. cbn [deref bind]. rewrite Va. cbn [bind].
  split; [reflexivity|]. rewrite E1 in E6. injection E6 as <-. rewrite E7. cbn [deref bind]. rewrite Vb. reflexivity.
Qed.
Definition trap (s : (R * R) * (R * R)) : R := (fst (snd s) - fst (fst s)) * (snd (snd s) + snd (fst s)).
Lemma edges_sum_ok (h : plane) es ss : Forall2 (fun e s => from_to h e (fst s) (snd s)) es ss ->
  edges_sum h es = Ok (fold_right (fun s r => trap s + r) 0 ss).
Proof.
  intros F2. unfold edges_sum. cut (forall t, foldM (fun t e => let* q := end_coords h e in let* p := start_coords h e in Ok (nadd t (nmul (nsub (fst q) (fst p)) (nadd (snd q) (snd p))))) t es = Ok (t + fold_right (fun s r => trap s + r) 0 ss)).
  { intros X. rewrite X. f_equal. cbn. lra. }
  induction F2 as [|e s es ss FT _ IH]; intros t. { cbn. f_equal. lra. }
  cbn [foldM]. destruct (from_to_coords _ _ _ _ FT) as (-> & ->). cbn [bind]. rewrite IH. f_equal. cbn [fold_right]. unfold trap at 2. cbn. lra.
Qed.
Lemma fold_combine (ps : list (R * R)) : forall qs, length qs = length ps ->
  fold_right (fun s r => trap s + r) 0 (combine ps qs) = - fold_right (fun s r => fst (fst s) * snd (snd s) - fst (snd s) * snd (fst s) + r) 0 (combine ps qs)
   + fold_right (fun q r => fst q * snd q + r) 0 qs - fold_right (fun q r => fst q * snd q + r) 0 ps.
Proof.
  induction ps as [|p ps IH]; intros [|q qs] Q; try discriminate; cbn [combine fold_right]; [lra|]. rewrite IH by (cbn in Q; lia). unfold trap. cbn. lra.
Qed.
Lemma edges_ccw_ok (h : plane) es ps : go_along h es ps -> exists b, are_edges_2d_ccw h es = Ok b /\ (b = true <-> 0 < enclosed2 ps).
Proof.
  intros GA. unfold are_edges_2d_ccw. rewrite (edges_sum_ok _ _ _ GA). cbn [bind]. eexists. split; [reflexivity|].
  assert (E : fold_right (fun s r => trap s + r) 0 (sides_of ps) = - enclosed2 ps).
  { unfold enclosed2, sides_of. destruct ps as [|p t]; [cbn; lra|]. rewrite fold_combine by (rewrite app_length; cbn; lia).
    assert (X : fold_right (fun q r => fst q * snd q + r) 0 (t ++ [p]) = fold_right (fun q r => fst q * snd q + r) 0 (p :: t)).
    { clear GA. cbn [fold_right]. induction t as [|q t IH]; cbn [app fold_right]; [lra|]. rewrite IH. lra. }
    rewrite X. lra. }
  rewrite E. cbn. destruct (Rltb_spec (- enclosed2 ps) 0); split; intros; try lra; try discriminate; auto.
Qed.
Lemma face_ccw_ok (h : plane) fs : (forall f, In f fs -> exists A B D, corners h f A B D) ->
  exists b, are_face_ccw h fs = Ok b /\ (b = true <-> forall f A B D, In f fs -> corners h f A B D -> ccw A B D \/ flat A B D).
Proof.
  induction fs as [|f fs IH]; intros H. { exists true. split; [reflexivity|]. split; [intros _ ? ? ? ? []|auto]. }
  destruct IH as (b & Eb & Hb). { intros; apply H; cbn; auto. } destruct (H f (or_introl eq_refl)) as (A & B & D & C).
  cbn [are_face_ccw]. unfold is_ccw. rewrite (face_coords_ok _ _ _ _ _ C). cbn [bind].
  assert (W : are_ccw A B D = true <-> ccw A B D \/ flat A B D).
  { unfold are_ccw, ccw, flat. cbn [nleb NumR n0]. replace (orient2d A B D) with (area2 A B D) by (unfold orient2d, area2; cbn; ring). destruct (Rleb_spec 0 (area2 A B D)); split; intros; try lra; try discriminate; auto. }
  destruct (are_ccw A B D) eqn:Q.
  - exists b. split; [exact Eb|]. rewrite Hb. split; intros X g A' B' D' Ig C'; [|apply (X g); cbn; auto].
    destruct Ig as [<-|Ig]; [|now apply (X g)]. destruct (corners_fun _ _ _ _ _ _ _ _ C C') as (<- & <- & <-). now apply W.
  - exists false. split; [reflexivity|]. split; [discriminate|]. intros X. apply W. apply (X f); cbn; auto.
Qed.
End AtR.

(** ** Cases *)
Definition flat_box : plane := box (0, 0) (1, 0) (2, 0) (3, 0).
Lemma flat_face : exists (h : plane) f A B D, corners h f A B D /\ ~ ccw A B D /\ forall eps, @are_face_ccw R (NumR eps) h [f] = Ok true.
Proof.
  assert (C : corners flat_box 0 (0, 0) (1, 0) (2, 0)).
  { apply (corners_of flat_box 0 0 1 2); [|reflexivity]. apply (floop_frame square flat_box 0 [0; 1; 2]%nat); try (cbn; lia); try reflexivity.
    - apply (tm_L square [0; 1]%nat 0%nat square_tmesh). now left.
    - intros e [<-|[<-|[<-|[]]]]; repeat split. }
  exists flat_box, 0%nat, (0, 0), (1, 0), (2, 0). split; [exact C|]. split. { unfold ccw, area2. cbn. lra. }
  intros eps. destruct (face_ccw_ok eps flat_box [0%nat]) as (b & E & Hb). { intros f [<-|[]]. eauto. }
  rewrite E. f_equal. apply Hb. intros f A B D [<-|[]] C'. destruct (corners_fun _ _ _ _ _ _ _ _ C C') as (<- & <- & <-). right. unfold flat, area2. cbn. ring.
Qed.
Lemma take_case : exists (h : plane) fs K es tol, tri_mesh h fs /\ no_overlap h fs /\ incl K fs /\ NoDup K /\ NoDup es /\
  (forall e, In e es <-> on_boundary_of h K e) /\ 0 <= tol /\ centres_clear h fs es tol /\ length fs = 2%nat /\ length K = 1%nat /\
  exists e o, opp_is h e (Some o) /\ live h K e /\ ~ live h K o.
Proof.
  destruct square_tri as (TM & NO). pose proof square_tmesh as TM'. pose proof TM' as (H & HT). destruct square_corners as (C0 & C1).
  assert (I0 : incl [0%nat] [0; 1]%nat) by (intros x [<-|[]]; now left).
  exists square, [0; 1]%nat, [0%nat]. destruct (boundary_prop square [0; 1]%nat [0%nat]) as (es & EB & NE & HE); [apply TM|exact I0|repeat constructor; cbn; intuition discriminate|].
  exists es, (1/100). split; auto. split; auto. split; [exact I0|]. split; [repeat constructor; cbn; intuition discriminate|]. split; auto. split; auto. split; [lra|].
  split; [|split; [auto|split; [auto|]]].
  - intros f A B D e P Q If C Ie FT. apply HE, (on_boundary_iff square [0; 1]%nat) in Ie; [|apply TM|exact I0]. apply filter_In in Ie as (Ie & NI).
    apply in_alle in Ie as (g & Ig & Ie). destruct (from_to_eq square [0; 1]%nat g e P Q TM' (I0 _ Ig) Ie FT) as (-> & ->).
    assert (X : (e = 0 \/ e = 1 \/ e = 2)%nat). { destruct Ig as [<-|[]]; cbn in Ie; destruct Ie as [<-|[<-|[<-|[]]]]; auto. }
    assert (Y : (A, B, D) = ((1, 0), (0, 1), (0, 0)) \/ (A, B, D) = ((0, 1), (1, 0), (1, 1))).
    { destruct If as [<-|[<-|[]]]; [left; destruct (corners_fun _ _ _ _ _ _ _ _ C C0) as (-> & -> & ->)|right; destruct (corners_fun _ _ _ _ _ _ _ _ C C1) as (-> & -> & ->)]; reflexivity. }
    destruct Y as [Y|Y]; injection Y as -> -> ->; destruct X as [-> |[-> | ->]]; intros (t & Ht & N); unfold along in N; cbn in N; revert N.
    all: match goal with |- Rmax (Rabs ?x) (Rabs ?y) * (Rabs ?u + Rabs ?v) <= _ -> False =>
      assert (1 <= Rmax (Rabs x) (Rabs y)) by (first [eapply Rle_trans; [|apply Rmax_l]; first [rewrite Rabs_pos_eq; lra|rewrite Rabs_left; lra]
         |eapply Rle_trans; [|apply Rmax_r]; first [rewrite Rabs_pos_eq; lra|rewrite Rabs_left; lra]]);
      assert (1/8 <= Rabs u + Rabs v) by (pose proof (Rle_abs u); pose proof (Rle_abs v); pose proof (Rle_abs (- u)); pose proof (Rle_abs (- v)); rewrite !Rabs_Ropp in *; lra);
      intros N; assert (1 * (Rabs u + Rabs v) <= Rmax (Rabs x) (Rabs y) * (Rabs u + Rabs v)) by (apply Rmult_le_compat_r; lra); lra end.
  - exists 1%nat, 3%nat. split. { apply opp_iff. split; [cbn; lia|reflexivity]. } split.
    + exists 0%nat, [0; 1; 2]%nat. split; [now left|]. split; [|cbn; auto]. apply face_loop_iff. apply (tm_L square [0; 1]%nat 0%nat TM'). now left.
    + intros (f & l & [<-|[]] & L & I3). apply face_loop_iff in L. apply Lf_ok in L. cbn in L. rewrite <- L in I3. cbn in I3. intuition discriminate.
Qed.
Lemma ccw_case : exists (h : plane) es ps, go_along h es ps /\ 0 < enclosed2 ps /\ length es = 3%nat.
Proof.
  pose proof (tm_L _ [0; 1]%nat 0%nat square_tmesh (or_introl eq_refl)) as L.
  exists square, [1; 2; 0]%nat, [(1, 0); (0, 1); (0, 0)]. split; [|split; [unfold enclosed2; cbn; lra|reflexivity]].
  unfold go_along. cbn [sides_of combine app]. assert (X : forall e, In e [0; 1; 2]%nat -> from_to square e (sc square e) (ec square e)). { intros e Ie. apply (from_to_live square [0; 1]%nat 0); auto using square_tmesh. now left. }
  repeat constructor; cbn [fst snd]; [apply (X 1%nat)|apply (X 2%nat)|apply (X 0%nat)]; cbn; auto.
Qed.
