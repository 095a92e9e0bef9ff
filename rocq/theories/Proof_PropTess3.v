(** The triangulation of a set of points: empty circles, and which triangles are there. *)
From Coq Require Import List Arith Lia Bool Reals Lra Permutation ZArith.
From Verif Require Import Model_Base Model_Mesh Model_Geom Model_Tess Spec_Mesh Spec_MeshEdit Spec_Geom Spec_Tess Proof_Base
  Proof_Mesh Proof_Mesh2 Proof_Mesh4 Proof_PropMesh Proof_PropMesh2 Proof_PropMesh3 Proof_PropMesh4 Proof_Plane Proof_Tess Proof_Tess2 Proof_Tess3 Proof_Tess4 Proof_Tess5 Proof_Tess6
  Proof_PropTess2 Proof_Del1 Proof_Del2 Proof_Del3.
Import ListNotations.
Local Open Scope nat_scope.

Lemma bounds_ext l (mn mx : R * R) : bounds_ok l mn mx -> least (map fst l) (fst mn) /\ greatest (map fst l) (fst mx) /\ least (map snd l) (snd mn) /\ greatest (map snd l) (snd mx).
Proof.
  intros (B & (p1 & I1 & E1) & (p2 & I2 & E2) & (p3 & I3 & E3) & (p4 & I4 & E4)). unfold least, greatest.
  repeat split; try (rewrite ?E1, ?E2, ?E3, ?E4; now apply in_map); intros x X; apply in_map_iff in X as (p & <- & Ip); apply (B p Ip).
Qed.
Lemma least_eq l a b : least l a -> least l b -> a = b.
Proof. intros (A & A') (B & B'). specialize (A' b B). specialize (B' a A). lra. Qed.
Lemma greatest_eq l a b : greatest l a -> greatest l b -> a = b.
Proof. intros (A & A') (B & B'). specialize (A' b B). specialize (B' a A). lra. Qed.

(** what the run leaves before and after the removal *)
Record run (coords : list (R * R)) (h0 : plane) fs0 (h : plane) fs : Prop := {
  r_box : exists x0 x1 y0 y1, dinv x0 x1 y0 y1 h0 fs0 /\ (forall q, In q coords -> sb x0 x1 y0 y1 q) /\
            (forall c, frame_corner coords c <-> In c [(x1, y0); (x0, y1); (x0, y0); (x1, y1)]) /\ (x0 < x1)%R /\ (y0 < y1)%R;
  r_in : forall q, In q coords -> is_corner h0 fs0 q;
  r_frame : forall c, frame_corner coords c -> is_corner h0 fs0 c;
  r_from : from_input h0 coords;
  r_four : forall v c, v < 4 -> coords_are h0 v c -> frame_corner coords c;
  r_tri : tri_mesh h fs; r_no : no_overlap h fs;
  r_cor : forall q, corner_of h fs q -> In q coords;
  r_kept : forall f, In f fs <-> In f fs0 /\ forall v, v < 4 -> ~ touches h0 f v;
  r_same : forall f A B D, In f fs -> (corners h f A B D <-> corners h0 f A B D) }.

Section AtR.
Variable eps : R.
Local Hint Extern 0 (Num R) => exact (NumR eps) : typeclass_instances.
Lemma delaunay_run (by_address : list nat -> list nat) (coords : list (R * R)) :
  (forall l, Permutation l (by_address l)) ->
  (exists p q, In p coords /\ In q coords /\ (fst p < fst q)%R) -> (exists p q, In p coords /\ In q coords /\ (snd p < snd q)%R) ->
  exists h0 fs0 h fs, delaunay2DBoyerWatson by_address coords = Ok (h, fs) /\ run coords h0 fs0 h fs.
Proof.
  intros PM (p1 & p2 & I1 & I2 & LX) (q1 & q2 & J1 & J2 & LY).
  destruct (minmax_ok eps coords) as (mn & mx & A & BO); [intros ->; destruct I1|]. pose proof BO as (B & _).
  assert (EX : (fst mn < fst mx)%R) by (destruct (B p1 I1), (B p2 I2); lra).
  assert (EY : (snd mn < snd mx)%R) by (destruct (B q1 J1), (B q2 J2); lra).
  unfold delaunay2DBoyerWatson. pose proof (encompassing_ok eps coords mn mx A) as Q. cbn zeta in Q. rewrite Q. cbn [bind]. clear Q.
  match goal with |- context [box (?a, ?b) (?c, ?d) _ _] =>
    pose (x1 := a); pose (y0 := b); pose (x0 := c); pose (y1 := d); change (box (a, b) (c, d) (c, b) (a, d)) with (box (x1, y0) (x0, y1) (x0, y0) (x1, y1)) end.
  assert (Hx : (x0 < x1)%R) by (unfold x0, x1; lra). assert (Hy : (y0 < y1)%R) by (unfold y0, y1; lra).
  rewrite box_vertices. cbn [bind].
  assert (FC : forall c, frame_corner coords c <-> In c [(x1, y0); (x0, y1); (x0, y0); (x1, y1)]).
  { destruct (bounds_ext _ _ _ BO) as (B1 & B2 & B3 & B4). intros c. split.
    - intros (a0 & a1 & b0 & b1 & L1 & L2 & L3 & L4 & CX & CY). rewrite (least_eq _ _ _ L1 B1), (greatest_eq _ _ _ L2 B2) in CX. rewrite (least_eq _ _ _ L3 B3), (greatest_eq _ _ _ L4 B4) in CY.
      destruct c as [u v]. cbn [fst snd] in *. assert (U : u = x1 \/ u = x0) by (unfold x0, x1; lra). assert (V : v = y1 \/ v = y0) by (unfold y0, y1; lra).
      destruct U as [-> | ->], V as [-> | ->]; cbn; auto.
    - intros I. exists (fst mn), (fst mx), (snd mn), (snd mx). repeat (split; [assumption|]). 
      cbn in I. destruct I as [<-|[<-|[<-|[<-|[]]]]]; cbn [fst snd]; unfold x0, x1, y0, y1; lra. }
  assert (SB : forall q, In q coords -> sb x0 x1 y0 y1 q).
  { intros q Iq. destruct (B q Iq). unfold sb, x0, x1, y0, y1. lra. }
  destruct (insert_all x0 x1 y0 y1 eps coords coords _ _ (box_dinv x0 x1 y0 y1 Hx Hy)) as (h & fs & -> & DI & N4 & FI & X1 & _ & X3 & X4); auto.
  { intros v c V. unfold vco. destruct v as [|[|[|[|v]]]]; try lia. cbn. destruct v; discriminate. }
  cbn [bind]. set (vs := by_address [0; 1; 2; 3]). pose proof (PM [0; 1; 2; 3]) as PV. fold vs in PV.
  assert (V4 : forall v, v < 4 <-> In v vs).
  { intros v. split; intros X.
    - apply (Permutation_in _ PV). cbn. lia. - apply (Permutation_in _ (Permutation_sym PV)) in X. cbn in X. lia. }
  pose proof (d_tm _ _ _ _ _ _ DI) as TM.
  apply tri_mesh_iff in TM as TM'. destruct (remove_all_ok vs h fs) as (h' & kept & -> & TK & IK & HV & KE & TR); auto.
  { intros v Iv. apply V4 in Iv. unfold nv in N4. lia. }
  destruct (kept_corners h h' fs kept coords vs) as (CO & KC); auto. { intros v Hv. now apply V4. }
  exists h, fs, h', kept. split; auto. constructor; auto.
  - exists x0, x1, y0, y1. auto.
  - intros c Hc. apply FC in Hc. apply (box_ends x0 x1 y0 y1) in Hc. apply X3 in Hc as (f & e & If & Ie & _ & Q). exists f, e. auto.
  - intros v c V Hc. apply coords_iff in Hc. rewrite X4 in Hc by auto. apply FC. destruct v as [|[|[|[|v]]]]; try lia; cbn in Hc; injection Hc as <-; cbn; auto.
  - pose proof (proj2 (no_overlap_iff h fs TM) (d_no _ _ _ _ _ _ DI)) as NO. intros f g P1 P2 P3 Q1 Q2 Q3 q If Ig C1 C2. apply (NO f g P1 P2 P3 Q1 Q2 Q3 q); auto; now apply CO.
  - intros f. rewrite KE. split; intros (X & Y); (split; [auto|]); intros v Hv; apply Y; now apply V4.
Qed.
Lemma corners_circ (h : plane) f A B D o r2 : corners h f A B D -> circle_through o r2 [A; B; D] -> circ h f o r2.
Proof. intros X Y. apply corners_inv in X as (e1 & e2 & e3 & _ & Q & -> & -> & ->). now apply (circ_tri h f o r2 e1 e2 e3). Qed.
Lemma run_empty coords h0 fs0 h fs f A B D o r2 q : run coords h0 fs0 h fs -> In f fs -> corners h f A B D -> circle_through o r2 [A; B; D] -> In q coords \/ frame_corner coords q ->
  (r2 <= dist2 q o)%R.
Proof.
  intros RN If Y CT Q. destruct (r_box _ _ _ _ _ RN) as (x0 & x1 & y0 & y1 & DI & _). apply (r_same _ _ _ _ _ RN) in Y; auto.
  apply (r_kept _ _ _ _ _ RN) in If as (If & _).
  assert (is_corner h0 fs0 q) by (destruct Q; [now apply (r_in _ _ _ _ _ RN)|now apply (r_frame _ _ _ _ _ RN)]).
  pose proof (d_del _ _ _ _ _ _ DI f o r2 q If (corners_circ _ _ _ _ _ _ _ Y CT)). unfold pow in *. intuition lra.
Qed.
Lemma delaunay_full (by_address : list nat -> list nat) (coords : list (R * R)) :
  (forall l, Permutation l (by_address l)) ->
  (exists p q, In p coords /\ In q coords /\ (fst p < fst q)%R) -> (exists p q, In p coords /\ In q coords /\ (snd p < snd q)%R) ->
  exists h fs, delaunay2DBoyerWatson by_address coords = Ok (h, fs) /\ tri_mesh h fs /\ no_overlap h fs /\
    (forall q, corner_of h fs q -> In q coords) /\ empty_circles h fs coords.
Proof.
  intros PM X Y. destruct (delaunay_run by_address coords PM X Y) as (h0 & fs0 & h & fs & E & RN). exists h, fs. split; auto.
  split; [apply RN|]. split; [apply RN|]. split; [apply RN|]. intros f A B D o r2 q If CO CT Iq. apply (run_empty coords h0 fs0 h fs f A B D o r2 q RN); auto.
Qed.

(** ** Which triangles are there *)
Lemma pow_affine o r2 o' r2' (a b c : R * R) r s t : (r + s + t = 1)%R ->
  (pow o r2 (mix a b c r s t) - pow o' r2' (mix a b c r s t) = r * (pow o r2 a - pow o' r2' a) + s * (pow o r2 b - pow o' r2' b) + t * (pow o r2 c - pow o' r2' c))%R.
Proof. intros E. replace r with (1 - s - t)%R by lra. unfold pow, dist2, mix. cbn [fst snd]. ring. Qed.
Lemma open_near (A B D q : R * R) : ccw A B D -> in_open A B D q -> exists d, (0 < d)%R /\ forall q', near d q q' -> in_open A B D q'.
Proof.
  intros W I. apply (in_open_iff _ _ _ q W) in I as (I1 & I2 & I3).
  destruct (orr_near _ _ _ I1) as (d1 & D1 & E1). destruct (orr_near _ _ _ I2) as (d2 & D2 & E2). destruct (orr_near _ _ _ I3) as (d3 & D3 & E3).
  exists (Rmin d1 (Rmin d2 d3)). split; [repeat apply Rmin_glb_lt; auto|]. intros q' N. apply (in_open_iff _ _ _ q' W).
  pose proof (Rmin_l d1 (Rmin d2 d3)). pose proof (Rmin_r d1 (Rmin d2 d3)). pose proof (Rmin_l d2 d3). pose proof (Rmin_r d2 d3).
  split; [apply E1, (near_mono _ d1 _ _ N); lra|]. split; [apply E2, (near_mono _ d2 _ _ N); lra|apply E3, (near_mono _ d3 _ _ N); lra].
Qed.
Lemma tri_perm (a b c A B D : R * R) : ccw a b c -> ccw A B D -> incl [a; b; c] [A; B; D] ->
  (a, b, c) = (A, B, D) \/ (a, b, c) = (B, D, A) \/ (a, b, c) = (D, A, B).
Proof.
  intros W W' I. unfold ccw, area2 in *. pose proof (I a ltac:(cbn; auto)) as Ia. pose proof (I b ltac:(cbn; auto)) as Ib. pose proof (I c ltac:(cbn; auto)) as Ic. cbn in Ia, Ib, Ic. clear I.
  destruct Ia as [<-|[<-|[<-|[]]]], Ib as [<-|[<-|[<-|[]]]], Ic as [<-|[<-|[<-|[]]]]; auto; exfalso; lra.
Qed.
Lemma from_corner coords h0 fs0 h fs q : run coords h0 fs0 h fs -> is_corner h0 fs0 q -> In q coords \/ frame_corner coords q.
Proof.
  intros RN (f & e & If & Ie & <-). destruct (r_box _ _ _ _ _ RN) as (x0 & x1 & y0 & y1 & DI & _). pose proof (d_tm _ _ _ _ _ _ DI) as TM.
  destruct (floop_in _ _ _ _ (tm_L _ _ _ TM If) Ie) as (L1 & _ & (v & L2 & L3) & _).
  assert (CV : coords_are h0 v (ec h0 e)) by (apply coords_ends, ends_iff; auto).
  destruct (le_lt_dec 4 v) as [V|V]; [left; apply (r_from _ _ _ _ _ RN v); auto; now apply coords_iff|right; now apply (r_four _ _ _ _ _ RN v)].
Qed.
Lemma run_complete coords h0 fs0 h fs A B D o r2 : run coords h0 fs0 h fs -> In A coords -> In B coords -> In D coords -> ccw A B D -> circle_through o r2 [A; B; D] ->
  (forall q, In q coords -> (dist2 q o <= r2)%R -> In q [A; B; D]) -> (forall c, frame_corner coords c -> (r2 < dist2 c o)%R) ->
  exists f, In f fs /\ (corners h f A B D \/ corners h f B D A \/ corners h f D A B).
Proof.
  intros RN IA IB ID W CT EM FR. destruct (r_box _ _ _ _ _ RN) as (x0 & x1 & y0 & y1 & DI & SB & FC & Hx & Hy). pose proof (d_tm _ _ _ _ _ _ DI) as TM. pose proof TM as (H & HT).
  set (g := mix A B D (1/3) (1/3) (1/3)).
  assert (IO : in_open A B D g) by (exists (1/3)%R, (1/3)%R, (1/3)%R; repeat split; lra).
  assert (IBX : in_box x0 x1 y0 y1 g).
  { destruct (SB A IA) as ((? & ?) & ? & ?), (SB B IB) as ((? & ?) & ? & ?), (SB D ID) as ((? & ?) & ? & ?). unfold in_box, g, mix. cbn [fst snd]. lra. }
  destruct (d_reg _ _ _ _ _ _ DI g IBX) as (f & If & IG). destruct (open_near A B D g W IO) as (d & Hd & E).
  destruct (toward h0 fs0 f g d TM If IG Hd) as (x & N & (e1 & e2 & e3 & Q & IX)). apply E in N. clear E.
  destruct (HT f If) as (a1 & a2 & a3 & Q' & Wf). rewrite Q in Q'. injection Q' as <- <- <-.
  destruct (circ_exists h0 fs0 f TM If) as (of_ & rf & CF).
  assert (CA : forall q, In q coords -> (0 <= pow of_ rf q)%R) by (intros q Iq; apply (d_del _ _ _ _ _ _ DI f); auto; now apply (r_in _ _ _ _ _ RN)).
  assert (CO : forall e, In e (Lf h0 f) -> (0 <= pow o r2 (ec h0 e))%R /\ (pow o r2 (ec h0 e) = 0%R -> In (ec h0 e) [A; B; D])).
  { intros e Ie. assert (IC : is_corner h0 fs0 (ec h0 e)) by (exists f, e; auto). destruct (from_corner _ _ _ _ _ _ RN IC) as [X|X].
    - unfold pow. destruct (Rle_dec (dist2 (ec h0 e) o) r2) as [Y|Y]; [|split; intros; lra]. specialize (EM _ X Y). rewrite (CT _ EM). split; [lra|auto].
    - unfold pow. specialize (FR _ X). split; intros; lra. }
  assert (ZA : forall q, In q [A; B; D] -> pow o r2 q = 0%R) by (intros q Iq; unfold pow; rewrite (CT q Iq); lra).
  assert (ZF : forall e, In e (Lf h0 f) -> pow of_ rf (ec h0 e) = 0%R) by (intros e Ie; unfold pow; rewrite (CF e Ie); lra).
  destruct N as (r & s & t & R1 & R2 & R3 & R4 & Ex). destruct IX as (r' & s' & t' & R1' & R2' & R3' & R4' & Ex').
  pose proof (pow_affine of_ rf o r2 A B D r s t R4) as P1. rewrite <- Ex in P1.
  pose proof (pow_affine of_ rf o r2 (ec h0 e1) (ec h0 e2) (ec h0 e3) r' s' t' R4') as P2. rewrite <- Ex' in P2.
  rewrite (ZA A), (ZA B), (ZA D) in P1 by (cbn; auto). rewrite (ZF e1), (ZF e2), (ZF e3) in P2 by (rewrite Q; cbn; auto).
  assert (M : forall a b, (0 < a)%R -> (0 <= b)%R -> (0 <= a * b)%R) by (intros; apply Rmult_le_pos; lra).
  pose proof (M _ _ R1 (CA A IA)). pose proof (M _ _ R2 (CA B IB)). pose proof (M _ _ R3 (CA D ID)).
  destruct (CO e1) as (C1 & D1); [rewrite Q; cbn; auto|]. destruct (CO e2) as (C2 & D2); [rewrite Q; cbn; auto|]. destruct (CO e3) as (C3 & D3); [rewrite Q; cbn; auto|].
  pose proof (M _ _ R1' C1). pose proof (M _ _ R2' C2). pose proof (M _ _ R3' C3).
  assert (Z : forall a b, (0 < a)%R -> (a * b = 0)%R -> b = 0%R) by (intros a b A0 Z; apply Rmult_integral in Z as [|]; lra).
  assert (INC : incl [ec h0 e1; ec h0 e2; ec h0 e3] [A; B; D]).
  { intros y [<-|[<-|[<-|[]]]]; [apply D1, (Z r' _ R1')|apply D2, (Z s' _ R2')|apply D3, (Z t' _ R3')]; lra. }
  pose proof (tm_L _ _ _ TM If) as Lfl.
  assert (KF : In f fs).
  { apply (r_kept _ _ _ _ _ RN). split; auto. intros v V (ll & e & FL & Ie & EV). apply face_loop_iff in FL. apply Lf_ok in FL. subst ll.
    pose proof (r_four _ _ _ _ _ RN v _ V (coords_ends _ _ _ EV)) as FV. specialize (FR _ FV).
    assert (In (ec h0 e) [A; B; D]) by (apply INC; rewrite Q in Ie; cbn in Ie; destruct Ie as [<-|[<-|[<-|[]]]]; cbn; auto). rewrite (CT (ec h0 e)) in FR by auto. lra. }
  exists f. split; auto. rewrite !(r_same _ _ _ _ _ RN) by auto. pose proof (corners_of h0 f e1 e2 e3 Lfl Q) as CC.
  destruct (tri_perm _ _ _ _ _ _ Wf W INC) as [X|[X|X]]; injection X as X1 X2 X3; rewrite X1, X2, X3 in CC; auto.
Qed.
Lemma delaunay_which (by_address : list nat -> list nat) (coords : list (R * R)) h fs :
  (forall l, Permutation l (by_address l)) ->
  (exists p q, In p coords /\ In q coords /\ (fst p < fst q)%R) -> (exists p q, In p coords /\ In q coords /\ (snd p < snd q)%R) ->
  delaunay2DBoyerWatson by_address coords = Ok (h, fs) ->
  (forall f A B D o r2 c, In f fs -> corners h f A B D -> circle_through o r2 [A; B; D] -> frame_corner coords c -> (r2 <= dist2 c o)%R) /\
  forall A B D o r2, In A coords -> In B coords -> In D coords -> ccw A B D -> circle_through o r2 [A; B; D] ->
    (forall q, In q coords -> (dist2 q o <= r2)%R -> In q [A; B; D]) -> (forall c, frame_corner coords c -> (r2 < dist2 c o)%R) ->
    exists f, In f fs /\ (corners h f A B D \/ corners h f B D A \/ corners h f D A B).
Proof.
  intros PM X Y E. destruct (delaunay_run by_address coords PM X Y) as (h0 & fs0 & h1 & fs1 & E1 & RN). rewrite E in E1. injection E1 as <- <-. split.
  - intros f A B D o r2 c If CO CT FC. apply (run_empty coords h0 fs0 h fs f A B D o r2 c RN); auto.
  - intros A B D o r2 IA IB ID W CT EM FR. now apply (run_complete coords h0 fs0 h fs A B D o r2).
Qed.
End AtR.

(** ** A point of the convex hull that is not covered *)
Definition dent : list (R * R) := [(0, 0); (1, 0); (1/2, 1/10); (1/2, 1)]%R.
Lemma dent_frame : frame_corner dent (11/10, -11/100)%R.
Proof.
  exists 0%R, 1%R, 0%R, 1%R. unfold least, greatest, dent. cbn [map fst snd].
  repeat split; try (cbn; auto; fail); try (intros x [<-|[<-|[<-|[<-|[]]]]]; lra); [left|right]; lra.
Qed.
Lemma dent_spread : (exists p q, In p dent /\ In q dent /\ (fst p < fst q)%R) /\ (exists p q, In p dent /\ In q dent /\ (snd p < snd q)%R).
Proof. split; [exists (0, 0)%R, (1, 0)%R|exists (0, 0)%R, (1/2, 1)%R]; (split; [cbn; auto|split; [cbn; auto|cbn; lra]]). Qed.
Lemma hull_refuted : exists coords q, (exists p q, In p coords /\ In q coords /\ (fst p < fst q)%R) /\ (exists p q, In p coords /\ In q coords /\ (snd p < snd q)%R) /\
  in_hull coords q /\
  forall eps by_address h fs, (forall l, Permutation l (by_address l)) -> @delaunay2DBoyerWatson R (NumR eps) by_address coords = Ok (h, fs) -> ~ covered h fs q.
Proof.
  exists dent, (1/2, 1/20)%R. destruct dent_spread as (S1 & S2). split; auto. split; auto. split.
  { exists (0, 0)%R, (1, 0)%R, (1/2, 1/10)%R. repeat (split; [cbn; auto; fail|]). exists (1/4)%R, (1/4)%R, (1/2)%R. unfold mix. cbn [fst snd]. repeat split; try lra. f_equal; lra. }
  intros eps by_address h fs PM E (f & A & B & D & If & CO & IC).
  destruct (delaunay_run eps by_address dent PM S1 S2) as (h0 & fs0 & h1 & fs1 & E1 & RN). rewrite E in E1. injection E1 as <- <-.
  assert (EMP := fun o r2 q => run_empty dent h0 fs0 h fs f A B D o r2 q RN If CO).
  assert (W : ccw A B D).
  { destruct (r_tri _ _ _ _ _ RN) as (_ & T). destruct (T f If) as (A' & B' & D' & CO' & W). apply corners_inv in CO, CO'.
    destruct CO as (e1 & e2 & e3 & _ & Q & -> & -> & ->), CO' as (a1 & a2 & a3 & _ & Q' & -> & -> & ->). rewrite Q in Q'. injection Q' as <- <- <-. exact W. }
  assert (IN : forall q, In q [A; B; D] -> In q dent) by (intros q Iq; apply (r_cor _ _ _ _ _ RN); exists f, A, B, D; auto).
  apply (in_closed_iff _ _ _ _ W) in IC as (O1 & O2 & O3).
  pose proof (EMP (1/2, -12/10)%R (169/100)%R (11/10, -11/100)%R) as T1. pose proof (EMP (1/2, 3/8)%R (25/64)%R (1/2, 1/10)%R) as T2. clear EMP.
  pose proof (IN A ltac:(cbn; auto)) as IA. pose proof (IN B ltac:(cbn; auto)) as IB. pose proof (IN D ltac:(cbn; auto)) as ID. clear IN E RN If CO.
  assert (N1 : ~ circle_through (1/2, -12/10)%R (169/100)%R [A; B; D]).
  { intros CT. specialize (T1 CT (or_intror dent_frame)). unfold dist2 in T1. cbn [fst snd] in T1. lra. }
  assert (N2 : ~ circle_through (1/2, 3/8)%R (25/64)%R [A; B; D]).
  { intros CT. specialize (T2 CT (or_introl (or_intror (or_intror (or_introl eq_refl))))). unfold dist2 in T2. cbn [fst snd] in T2. lra. }
  clear T1 T2. unfold ccw, area2, orr, dent in *.
  destruct IA as [<-|[<-|[<-|[<-|[]]]]], IB as [<-|[<-|[<-|[<-|[]]]]], ID as [<-|[<-|[<-|[<-|[]]]]]; cbn [fst snd] in *; try lra;
    try (apply N1; intros q [<-|[<-|[<-|[]]]]; unfold dist2; cbn [fst snd]; lra); apply N2; intros q [<-|[<-|[<-|[]]]]; unfold dist2; cbn [fst snd]; lra.
Qed.
(** a set where one triangle has to be there *)
Definition tri3 : list (R * R) := [(0, 0); (2, 0); (1, 2)]%R.
Lemma tri3_hyps : (exists p q, In p tri3 /\ In q tri3 /\ (fst p < fst q)%R) /\ (exists p q, In p tri3 /\ In q tri3 /\ (snd p < snd q)%R) /\
  ccw (0, 0)%R (2, 0)%R (1, 2)%R /\ circle_through (1, 3/4)%R (25/16)%R [(0, 0); (2, 0); (1, 2)]%R /\
  (forall q, In q tri3 -> (dist2 q (1, 3/4) <= 25/16)%R -> In q [(0, 0); (2, 0); (1, 2)]%R) /\ (forall c, frame_corner tri3 c -> (25/16 < dist2 c (1, 3/4))%R).
Proof.
  split; [exists (0, 0)%R, (2, 0)%R; cbn; intuition lra|]. split; [exists (0, 0)%R, (1, 2)%R; cbn; intuition lra|].
  split; [unfold ccw, area2; cbn; lra|]. split; [intros p [<-|[<-|[<-|[]]]]; unfold dist2; cbn; lra|]. split; [auto|].
  intros c (x0 & x1 & y0 & y1 & L1 & L2 & L3 & L4 & CX & CY).
  assert (X0 : x0 = 0%R) by (apply (least_eq (map fst tri3)); auto; split; [cbn; auto|intros x [<-|[<-|[<-|[]]]]; cbn; lra]).
  assert (X1 : x1 = 2%R) by (apply (greatest_eq (map fst tri3)); auto; split; [cbn; auto|intros x [<-|[<-|[<-|[]]]]; cbn; lra]).
  assert (Y0 : y0 = 0%R) by (apply (least_eq (map snd tri3)); auto; split; [cbn; auto|intros x [<-|[<-|[<-|[]]]]; cbn; lra]).
  assert (Y1 : y1 = 2%R) by (apply (greatest_eq (map snd tri3)); auto; split; [cbn; auto|intros x [<-|[<-|[<-|[]]]]; cbn; lra]).
  subst. unfold dist2. cbn [fst snd]. destruct CX as [-> | ->], CY as [-> | ->]; lra.
Qed.
