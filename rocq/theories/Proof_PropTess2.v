(** Triangulating a set of points: the statements of the property file. *)
From Coq Require Import List Arith Lia Bool Reals Lra Permutation ZArith.
From Verif Require Import Model_Base Model_Mesh Model_Geom Model_Tess Spec_Mesh Spec_MeshEdit Spec_Geom Spec_Tess Proof_Base
  Proof_Mesh Proof_Mesh2 Proof_Mesh4 Proof_PropMesh Proof_PropMesh2 Proof_PropMesh3 Proof_PropMesh4 Proof_Plane Proof_Tess Proof_Tess2 Proof_Tess3 Proof_Tess4 Proof_Tess5 Proof_Tess6 Proof_Tess7.
Import ListNotations.
Local Open Scope nat_scope.

Section AtR.
Variable eps : R.
Local Hint Extern 0 (Num R) => exact (NumR eps) : typeclass_instances.

(** the kept triangles of a mesh whose vertices from the fourth on are input points *)
Lemma kept_corners (h h' : plane) fs kept l (vs : list nat) : tri_mesh h fs -> from_input h l ->
  (forall v, v < 4 -> In v vs) -> h_v h' = h_v h ->
  (forall f, In f kept <-> In f fs /\ forall v, In v vs -> ~ touches h f v) ->
  (forall f e1 e2 e3 a b d, In f kept -> (triangle h' f e1 e2 e3 a b d <-> triangle h f e1 e2 e3 a b d)) ->
  (forall f A B D, In f kept -> (corners h' f A B D <-> corners h f A B D)) /\
  forall q, corner_of h' kept q -> In q l.
Proof.
  intros TM FI V4 HV KE TR.
  assert (CO : forall f A B D, In f kept -> (corners h' f A B D <-> corners h f A B D)).
  { intros f A B D If. unfold corners, coords_are. rewrite HV. split; intros (e1 & e2 & e3 & a & b & d & T & X); exists e1, e2, e3, a, b, d; (split; [now apply TR|exact X]). }
  split; auto. intros q (f & A & B & D & If & Y & I). apply CO in Y; auto. destruct Y as (e1 & e2 & e3 & a & b & d & (L & Ea & Eb & Ed) & Ca & Cb & Cd).
  apply KE in If as (If & NT).
  assert (X : forall e v c, In e [e1; e2; e3] -> ends h e v -> coords_are h v c -> In c l).
  { intros e v c Ie Ee Cc. apply (FI v c); [|now apply coords_iff]. destruct (le_lt_dec 4 v); auto. exfalso. apply (NT v); auto. exists [e1; e2; e3], e. auto. }
  cbn in I. destruct I as [<-|[<-|[<-|[]]]]; [apply (X e1 a)|apply (X e2 b)|apply (X e3 d)]; auto; cbn; auto.
Qed.
Lemma delaunay_basic (by_address : list nat -> list nat) (coords : list (R * R)) :
  (forall l, Permutation l (by_address l)) ->
  (exists p q, In p coords /\ In q coords /\ (fst p < fst q)%R) -> (exists p q, In p coords /\ In q coords /\ (snd p < snd q)%R) ->
  exists h fs, delaunay2DBoyerWatson by_address coords = Ok (h, fs) /\ tri_mesh h fs /\ no_overlap h fs /\
    forall q, corner_of h fs q -> In q coords.
Proof.
  intros PM (p1 & p2 & I1 & I2 & LX) (q1 & q2 & J1 & J2 & LY).
  destruct (minmax_ok eps coords) as (mn & mx & A & (B & _)); [intros ->; destruct I1|].
  assert (EX : (fst mn < fst mx)%R) by (destruct (B p1 I1), (B p2 I2); lra).
  assert (EY : (snd mn < snd mx)%R) by (destruct (B q1 J1), (B q2 J2); lra).
  unfold delaunay2DBoyerWatson. pose proof (encompassing_ok eps coords mn mx A) as Q. cbn zeta in Q. rewrite Q. cbn [bind]. clear Q.
  match goal with |- context [box (?a, ?b) (?c, ?d) _ _] =>
    pose (x1 := a); pose (y0 := b); pose (x0 := c); pose (y1 := d); change (box (a, b) (c, d) (c, b) (a, d)) with (box (x1, y0) (x0, y1) (x0, y0) (x1, y1)) end.
  assert (Hx : (x0 < x1)%R) by (unfold x0, x1; lra). assert (Hy : (y0 < y1)%R) by (unfold y0, y1; lra).
  rewrite box_vertices. cbn [bind].
  destruct (insert_basic eps coords coords _ _ (box_tmesh x0 x1 y0 y1 Hx Hy)) as (h & fs & -> & TM & N4 & FI & NO); auto.
  { intros v c V. unfold vco. destruct v as [|[|[|[|v]]]]; try lia. cbn. destruct v; discriminate. }
  { apply box_no_over; auto. }
  cbn [bind]. set (vs := by_address [0; 1; 2; 3]). pose proof (PM [0; 1; 2; 3]) as PV. fold vs in PV.
  assert (V4 : forall v, v < 4 <-> In v vs).
  { intros v. split; intros X.
    - apply (Permutation_in _ PV). cbn. lia. - apply (Permutation_in _ (Permutation_sym PV)) in X. cbn in X. lia. }
  apply tri_mesh_iff in TM as TM'. destruct (remove_all_ok vs h fs) as (h' & kept & -> & TK & IK & HV & KE & TR); auto.
  { intros v Iv. apply V4 in Iv. unfold nv in N4. lia. }
  destruct (kept_corners h h' fs kept coords vs) as (CO & KC); auto. { intros v Hv. now apply V4. }
  exists h', kept. split; auto. split; auto. split; auto.
  apply no_overlap_iff in NO; auto. intros f g P1 P2 P3 Q1 Q2 Q3 q If Ig C1 C2. apply (NO f g P1 P2 P3 Q1 Q2 Q3 q); auto; now apply CO.
Qed.
End AtR.

(** ** A square with a diagonal *)
Definition square : plane := box (1, 0)%R (0, 1)%R (0, 0)%R (1, 1)%R.
Lemma square_tmesh : tmesh square [0; 1].
Proof. apply box_tmesh; lra. Qed.
Lemma square_tri : tri_mesh square [0; 1] /\ no_overlap square [0; 1].
Proof. split; [apply tri_mesh_iff, square_tmesh|]. apply no_overlap_iff; [apply square_tmesh|]. apply box_no_over; lra. Qed.
Lemma square_corners : corners square 0 (1, 0)%R (0, 1)%R (0, 0)%R /\ corners square 1 (0, 1)%R (1, 0)%R (1, 1)%R.
Proof.
  split; [apply (corners_of square 0 0 1 2)|apply (corners_of square 1 4 3 5)]; try reflexivity; apply (tm_L _ [0; 1] _ square_tmesh); cbn; auto.
Qed.
Lemma square_inside : covered square [0; 1] (1/2, 1/4)%R /\ ~ corner_of square [0; 1] (1/2, 1/4)%R /\ ~ on_border square [0; 1] (1/2, 1/4)%R.
Proof.
  split; [|split].
  - apply covered_iff; [apply square_tmesh|]. apply box_region; cbn; try lra. unfold in_box. cbn. lra.
  - intros Z. apply corner_of_iff in Z; [|apply square_tmesh]. destruct Z as (f & e & If & Ie & Q).
    destruct If as [<-|[<-|[]]]; destruct Ie as [<-|[<-|[<-|[]]]]; cbv -[Rdiv IZR] in Q; injection Q as Q1 Q2; lra.
  - intros Z. apply on_border_iff in Z; [|apply square_tmesh]. apply box_rim in Z. unfold on_box in Z. cbn in Z. lra.
Qed.
Lemma square_vertices : vertices_ok square [0; 1].
Proof.
  intros e v Le Ev. pose proof (proj2 (mesh_ok_iff _ _) (proj1 square_tmesh)) as M. apply (LiveI _ _ _ M) in Le as (f & If & Ie).
  apply ends_iff in Ev as (_ & Ev & _).
  destruct If as [<-|[<-|[]]]; destruct Ie as [<-|[<-|[<-|[]]]]; cbn in Ev; injection Ev as <-;
   eexists; (split; [apply vedge_iff; split; [unfold nv; cbn; lia|reflexivity]|]; split; [livetac M|]; apply ends_iff; split; [unfold ne; cbn; lia|]; split; [reflexivity|unfold nv; cbn; lia]).
Qed.
Lemma square_ends v : v < 4 -> exists e, live square [0; 1] e /\ ends square e v.
Proof.
  intros V. pose proof (proj2 (mesh_ok_iff _ _) (proj1 square_tmesh)) as M.
  destruct v as [|[|[|[|v]]]]; [exists 0|exists 1|exists 2|exists 5|lia]; (split; [livetac M|]; apply ends_iff; split; [unfold ne; cbn; lia|]; split; [reflexivity|unfold nv; cbn; lia]).
Qed.
Lemma square_no_edge e : live square [0; 1] e -> starts square e 2 -> ends square e 3 -> False.
Proof.
  intros Le S N. pose proof (proj2 (mesh_ok_iff _ _) (proj1 square_tmesh)) as M. apply (LiveI _ _ _ M) in Le as (f & If & Ie).
  apply starts_iff in S as (_ & S & _). apply ends_iff in N as (_ & N & _).
  destruct If as [<-|[<-|[]]]; destruct Ie as [<-|[<-|[<-|[]]]]; cbn in S, N; congruence.
Qed.
Lemma recover_refuted : exists (h : plane) fs p q a b c A B D D', tri_mesh h fs /\ no_overlap h fs /\ vertices_ok h fs /\
  fs = [a; b] /\ corners h a A B D /\ corners h b B A D' /\ coords_are h p D /\ coords_are h q D' /\
  (exists e, live h fs e /\ ends h e p) /\ (exists e, live h fs e /\ ends h e q) /\
  between A B c /\ between D D' c /\
  forall eps n tol h' r, (0 <= tol)%R -> @recoverEdge R (NumR eps) n h (Some p) (Some q) tol = Ok (h', r) -> h' = h /\ r = None.
Proof.
  exists square, [0; 1], 2, 3, 0, 1, (1/2, 1/2)%R, (1, 0)%R, (0, 1)%R, (0, 0)%R, (1, 1)%R.
  destruct square_tri as (T & NO). destruct square_corners as (C1 & C2). split; auto. split; auto. split; [apply square_vertices|]. split; auto. split; auto. split; auto.
  split; [apply coords_iff; reflexivity|]. split; [apply coords_iff; reflexivity|]. split; [apply square_ends; lia|]. split; [apply square_ends; lia|].
  split; [exists (1/2)%R; split; [split; lra|unfold along; cbn; f_equal; lra]|]. split; [exists (1/2)%R; split; [split; lra|unfold along; cbn; f_equal; lra]|].
  intros eps n tol h' r T0 E. destruct (recover_prop eps square [0; 1] n 2 3 tol h' r) as (-> & X); auto; try (apply square_ends; lia). { apply square_vertices. }
  split; auto. destruct r as [e|]; auto. exfalso. destruct (X e eq_refl) as (L & S & N). now apply (square_no_edge e).
Qed.
