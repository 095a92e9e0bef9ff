(** recoverEdge never flips an edge of a mesh of counter-clockwise triangles. *)
From Coq Require Import List Arith Lia Bool Reals Lra Permutation ZArith.
From Verif Require Import Model_Base Model_Mesh Model_Geom Model_Tess Spec_Mesh Spec_MeshEdit Spec_Geom Spec_Tess Proof_Base
  Proof_Mesh Proof_Mesh2 Proof_Mesh3 Proof_Mesh4 Proof_Mesh9 Proof_PropMesh Proof_PropMesh2 Proof_PropMesh3
  Proof_Plane Proof_Tess Proof_Tess2 Proof_Tess3 Proof_Tess4 Proof_Tess5.
Import ListNotations.
Local Open Scope nat_scope.

Notation C := (R * R)%type.
Implicit Types (h : heap C) (fs K es : list nat) (f e : nat) (xy q : C).

Lemma live_view h fs f e : tmesh h fs -> In f fs -> In e (Lf h f) ->
  exists f2 f3, tview h f e f2 f3 /\ e < ne h /\ fc h e = Some f /\ next_of h e = Ok f2 /\ prev_of h e = Ok f3 /\ In f2 (Lf h f) /\ In f3 (Lf h f) /\
    start_coords h e = Ok (sc h e) /\ end_coords h e = Ok (ec h e).
Proof.
  intros TM If Ie. pose proof TM as (H & HT). destruct (HT f If) as (e1 & e2 & e3 & Q & W). pose proof (Lf_of _ _ _ H If) as L.
  pose proof (floop_sc _ _ _ _ L Ie) as SC. pose proof (floop_ec _ _ _ _ L Ie) as EC. destruct (floop_in _ _ _ _ L Ie) as (Le & Fe & _). rewrite Q in *.
  destruct (tri_facts _ _ _ _ _ L) as (_ & _ & B1 & B2 & B3 & N1 & N2 & N3 & P1 & P2 & P3 & S1 & S2 & S3 & ND).
  inversion_clear ND as [|? ? X Y]. inversion_clear Y as [|? ? X' Y']. cbn in X, X'. clear Y'.
  assert (TV : forall x y z, In (x, y, z) [(e1, e2, e3); (e2, e3, e1); (e3, e1, e2)] -> tview h f x y z).
  { intros x y z I. cbn in I. destruct I as [[= <- <- <-]|[[= <- <- <-]|[[= <- <- <-]|[]]]]; constructor; rewrite ?Q; auto; try (intros w; cbn; tauto);
    try (repeat constructor; cbn; intuition congruence); auto using ccw_rot. }
  cbn in Ie. destruct Ie as [<-|[<-|[<-|[]]]]; [exists e2, e3|exists e3, e1|exists e1, e2];
   (split; [apply TV; cbn; auto|]); (split; [auto|]); (split; [auto|]); (split; [now apply next_of_ok|]); (split; [now apply prev_of_ok|]); cbn; auto 10.
Qed.

(** the quadrilateral of two triangles is positive, so the two tested halves cannot both be *)
Lemma quad_sum a b c d : (orr c b d + orr d a c = - (orr a b c + orr b a d))%R.
Proof. unfold orr. ring. Qed.

Section AtR.
Variable eps : R.
Local Hint Extern 0 (Num R) => exact (NumR eps) : typeclass_instances.

Lemma flips_none h fs vp vq (p q : C) tol : tmesh h fs -> (0 <= tol)%R -> forall es rec any h' es' rec' any', (forall e, In e es -> Live h fs e) ->
  flips h vp vq p q tol es rec any = Ok (h', es', rec', any') -> h' = h /\ rec' = rec /\ any' = any.
Proof.
  intros TM T0. pose proof TM as (H & _). induction es as [|e es IH]; intros rec any h' es' rec' any' LV E.
  { cbn in E. injection E as <- <- <- <-. auto. }
  assert (IH' := fun rec any h' es' rec' any' => IH rec any h' es' rec' any' (fun x Ix => LV x (or_intror Ix))). clear IH.
  destruct (LV e (or_introl eq_refl)) as (f & If & Ie). destruct (live_view h fs f e TM If Ie) as (f2 & f3 & TV & Le & Fe & NX & PV & I2 & I3 & SC & EC).
  cbn [flips] in E. rewrite get_e_ok in E by auto. cbn [bind] in E. change (he_opp (Model_Mesh.he_opp (Proof_Mesh.E h e))) with (op h e) in E || idtac.
  fold (op h e) in E. destruct (op h e) as [o|] eqn:O; [|now apply IH' in E].
  assert (Lv : Live h fs e) by (exists f; auto). destruct (minv_pair _ _ _ _ H Lv O) as ((g & Ig & Io) & _ & _ & R1 & R2).
  destruct (live_view h fs g o TM Ig Io) as (g2 & g3 & TG & Lo & Fo & NX' & PV' & J2 & J3 & SC' & EC').
  fold (fc h e) in E. rewrite Fe in E. cbn [deref bind] in E. rewrite get_e_ok in E by auto. cbn [bind] in E. fold (fc h o) in E. rewrite Fo in E. cbn [deref bind] in E.
  rewrite SC, EC, NX, NX' in E. cbn [bind] in E.
  destruct (live_view h fs f f2 TM If I2) as (_ & _ & _ & _ & _ & _ & _ & _ & _ & _ & EC2). rewrite EC2 in E. cbn [bind] in E.
  destruct (live_view h fs g g2 TM Ig J2) as (_ & _ & _ & _ & _ & _ & _ & _ & _ & _ & EC2'). rewrite EC2' in E. cbn [bind] in E.
  assert (W : (0 < orr (sc h e) (ec h e) (ec h f2))%R).
  { pose proof (tv_w _ _ _ _ _ TV) as W. unfold ccw in W. rewrite <- orr_area in W. replace (sc h e) with (ec h f3) by (unfold sc, ec; now rewrite (tv_s1 _ _ _ _ _ TV)). now rewrite <- orr_rot. }
  assert (W' : (0 < orr (ec h e) (sc h e) (ec h g2))%R).
  { pose proof (tv_w _ _ _ _ _ TG) as W'. unfold ccw in W'. rewrite <- orr_area in W'. replace (ec h e) with (ec h g3).
    - replace (sc h e) with (ec h o); [now rewrite <- orr_rot|]. unfold sc, ec. now rewrite R1.
    - unfold ec. now rewrite <- (tv_s1 _ _ _ _ _ TG), R2. }
  pose proof (quad_sum (sc h e) (ec h e) (ec h f2) (ec h g2)) as QS.
  rewrite (orient2d_R eps (ec h f2) (ec h e) (ec h g2)), (orient2d_R eps (ec h g2) (sc h e) (ec h f2)) in E.
  assert (X : nleb (orr (ec h f2) (ec h e) (ec h g2)) tol || nleb (orr (ec h g2) (sc h e) (ec h f2)) tol = true).
  { apply orb_true_iff. cbn [nleb NumR]. destruct (Rleb_spec (orr (ec h f2) (ec h e) (ec h g2)) tol), (Rleb_spec (orr (ec h g2) (sc h e) (ec h f2)) tol); auto. lra. }
  rewrite X in E. apply bind_inv in E as ([[[h1 es1] rec1] any1] & E1 & E2). injection E2 as <- _ <- <-. now apply IH' in E1.
Qed.
Lemma passes_none h fs vp vq (p q : C) tol n es h' r : tmesh h fs -> (0 <= tol)%R -> (forall e, In e es -> Live h fs e) ->
  passes (S n) h vp vq p q tol es None = Ok (h', r) -> es <> [] -> h' = h /\ r = None.
Proof.
  intros TM T0 LV E NE. cbn [passes] in E. destruct es as [|e es]; [congruence|].
  apply bind_inv in E as ([[[h1 es1] rec1] any1] & E1 & E2). apply (flips_none h fs) in E1 as (-> & -> & ->); auto. injection E2 as <- <-. auto.
Qed.
Lemma chain_live h fs vq (p q : C) tol : tmesh h fs -> forall n e c, Live h fs e -> chain n h vq p q tol e = Ok (Some c) -> forall x, In x c -> Live h fs x.
Proof.
  intros TM. pose proof TM as (H & _). induction n as [|n IH]; intros e c L E x Ix; cbn [chain] in E.
  { injection E as <-. destruct Ix. }
  pose proof L as (f & If & Ie). rewrite get_e_ok in E by (now apply (Live_lt _ _ _ H)). cbn [bind] in E. fold (op h e) in E.
  destruct (op h e) as [o|] eqn:O; [|discriminate]. destruct (minv_pair _ _ _ _ H L O) as ((g & Ig & Io) & _).
  destruct (live_view h fs g o TM Ig Io) as (g2 & g3 & TG & Lo & Fo & NX' & PV' & J2 & J3 & SC' & EC').
  rewrite NX' in E. cbn [bind] in E. apply bind_inv in E as (rl & E1 & E). destruct (ptr_eqb _ _); [injection E as <-; destruct Ix|].
  rewrite PV' in E. cbn [bind] in E. apply bind_inv in E as (la & _ & E). apply bind_inv in E as (lb & _ & E). apply bind_inv in E as (ra & _ & E). apply bind_inv in E as (rb & _ & E).
  assert (L2 : Live h fs g2) by (exists g; auto). assert (L3 : Live h fs g3) by (exists g; auto).
  destruct (seg_seg_strict_intersection p q la lb tol).
  - apply bind_inv in E as (c0 & E0 & E). destruct c0 as [c0|]; [|discriminate]. injection E as <-. destruct Ix as [<-|Ix]; [exact L2|]. now apply (IH g2 c0).
  - destruct (seg_seg_strict_intersection p q ra rb tol); [|discriminate].
    apply bind_inv in E as (c0 & E0 & E). destruct c0 as [c0|]; [|discriminate]. injection E as <-. destruct Ix as [<-|Ix]; [exact L3|]. now apply (IH g3 c0).
Qed.
Definition faces_in (fs : list nat) (l : list ptr) := forall p, In p l -> exists f, p = Some f /\ In f fs.
Lemma fan_back_in h fs start : tmesh h fs -> forall n e acc l b, Live h fs e -> faces_in fs acc -> fan_back n h start e acc = Ok (l, b) -> faces_in fs l.
Proof.
  intros TM. pose proof TM as (H & _). induction n as [|n IH]; intros e acc l b L FI E; [discriminate|]. cbn [fan_back] in E.
  pose proof L as (f & If & Ie). destruct (live_view h fs f e TM If Ie) as (f2 & f3 & TV & Le & Fe & _).
  rewrite get_e_ok in E by auto. cbn [bind] in E. fold (fc h e) in E. rewrite Fe in E.
  assert (FI' : faces_in fs (Some f :: acc)) by (intros p [<-|Ip]; [eauto|auto]).
  fold (op h e) in E. destruct (op h e) as [o|] eqn:O; [|injection E as <- <-; auto].
  destruct (minv_pair _ _ _ _ H L O) as ((g & Ig & Io) & _). destruct (live_view h fs g o TM Ig Io) as (g2 & g3 & TG & Lo & Fo & _ & PV & _ & J3 & _).
  rewrite get_e_ok in E by auto. cbn [bind] in E. unfold prev_of in PV. rewrite get_e_ok in PV by auto. cbn [bind] in PV.
  destruct (he_prev (Proof_Mesh.E h o)) as [p|]; [|injection E as <- <-; auto]. cbn in PV. injection PV as ->.
  destruct (g3 =? start); [injection E as <- <-; auto|]. apply (IH g3 _ _ _ ltac:(exists g; auto) FI' E).
Qed.
Lemma fan_forth_in h fs start : tmesh h fs -> forall n e acc l, Live h fs e -> faces_in fs acc -> fan_forth n h start e acc = Ok l -> faces_in fs l.
Proof.
  intros TM. pose proof TM as (H & _). induction n as [|n IH]; intros e acc l L FI E; [discriminate|]. cbn [fan_forth] in E.
  pose proof L as (f & If & Ie). destruct (live_view h fs f e TM If Ie) as (f2 & f3 & TV & Le & Fe & NX & _ & J2 & _).
  rewrite get_e_ok in E by auto. cbn [bind] in E. fold (fc h e) in E. rewrite Fe in E.
  assert (FI' : faces_in fs (acc ++ [Some f])) by (intros p Ip; apply in_app_or in Ip as [Ip|[<-|[]]]; [auto|eauto]).
  unfold next_of in NX. rewrite get_e_ok in NX by auto. cbn [bind] in NX. rewrite NX in E. cbn [bind] in E.
  assert (L2 : Live h fs f2) by (exists f; auto). rewrite get_e_ok in E by (now apply (Live_lt _ _ _ H)). cbn [bind] in E. fold (op h f2) in E.
  destruct (op h f2) as [o|] eqn:O; [|injection E as <-; auto]. destruct (minv_pair _ _ _ _ H L2 O) as (Lo & _).
  destruct (o =? start); [injection E as <-; auto|]. apply (IH o _ _ Lo FI' E).
Qed.
Lemma attached_in h fs v l : tmesh h fs -> (forall e, ve h v = Some e -> Live h fs e) -> getFacesAttachedToVertex h v = Ok l -> faces_in fs l.
Proof.
  intros TM V E. pose proof TM as (H & _). unfold getFacesAttachedToVertex in E. apply bind_inv in E as (r & E1 & E). apply bind_inv in E as (s & E2 & E).
  assert (L : Live h fs s).
  { apply V. unfold get_v, get in E1. unfold ve. destruct (nth_error (h_v h) v) as [r'|]; [|discriminate]. injection E1 as ->.
    destruct (hv_edge r); [|discriminate]. cbn in *. congruence. }
  apply bind_inv in E as ([acc b] & E3 & E). assert (FI : faces_in fs acc) by (apply (fan_back_in h fs s TM _ _ _ _ _ L) in E3; auto; intros p []).
  destruct b; [|injection E as <-; auto]. destruct L as (f & If & Ie). destruct (live_view h fs f s TM If Ie) as (f2 & f3 & TV & Le & Fe & NX & _ & J2 & _).
  rewrite NX in E. cbn [bind] in E. assert (L2 : Live h fs f2) by (exists f; auto). rewrite get_e_ok in E by (now apply (Live_lt _ _ _ H)). cbn [bind] in E.
  fold (op h f2) in E. destruct (op h f2) as [o|] eqn:O; [|injection E as <-; auto]. destruct (minv_pair _ _ _ _ H L2 O) as (Lo & _).
  now apply (fan_forth_in h fs s TM _ _ _ _ Lo FI) in E.
Qed.
Lemma find_edge_in h f v : floop h f (Lf h f) -> forall n fe e x, In e (Lf h f) -> find_edge n h fe e v = Ok (Some x) -> In x (Lf h f) /\ en h x = Some v.
Proof.
  intros L. induction n as [|n IH]; intros fe e x Ie E; [discriminate|]. cbn [find_edge] in E.
  destruct (floop_in _ _ _ _ L Ie) as (Le & _ & _ & (z & NX & Iz) & _). rewrite get_e_ok in E by auto. cbn [bind] in E. fold (en h e) in E.
  destruct (ptr_eqb (en h e) (Some v)) eqn:PQ.
  - injection E as <-. split; auto. destruct (en h e) as [w|]; cbn in PQ; [|discriminate]. apply Nat.eqb_eq in PQ. congruence.
  - fold (nx h e) in E. rewrite NX in E. destruct (ptr_eqb (Some z) fe); [discriminate|]. cbn [deref bind] in E. apply (IH fe z x (proj1 Iz) E).
Qed.
Lemma find_half_in h fs vf vt : tmesh h fs -> forall l x, faces_in fs l -> find_half h vf vt l = Ok (Some x) -> Live h fs x /\ st h x = Some vf /\ en h x = Some vt.
Proof.
  intros TM. pose proof TM as (H & _). induction l as [|p l IH]; intros x FI E; [discriminate|]. cbn [find_half] in E.
  destruct (FI p (or_introl eq_refl)) as (f & -> & If). cbn [deref bind] in E. apply bind_inv in E as (i & E1 & E).
  assert (IH' := IH x (fun (y : ptr) Iy => FI y (or_intror Iy))). destruct i as [e|]; [|auto].
  pose proof (Lf_of _ _ _ H If) as L. assert (IE : In e (Lf h f) /\ en h e = Some vf).
  { unfold getFaceEdge in E1. apply bind_inv in E1 as (fe & F1 & E1). apply bind_inv in E1 as (e0 & F2 & E1).
    refine (find_edge_in h f vf L _ _ _ _ _ E1). pose proof L as (_ & _ & Bf & F0 & _). rewrite get_f_ok in F1 by auto. injection F1 as <-. rewrite F0 in F2.
    destruct (Lf h f); cbn in F2; [discriminate|]. injection F2 as <-. now left. }
  destruct IE as (Ie & Ve). destruct (live_view h fs f e TM If Ie) as (f2 & f3 & TV & Le & Fe & NX & _ & J2 & _).
  rewrite get_e_ok in E by auto. cbn [bind] in E. unfold next_of in NX. rewrite get_e_ok in NX by auto. cbn [bind] in NX.
  destruct (he_next (Proof_Mesh.E h e)) as [x0|]; [|auto]. cbn in NX. injection NX as ->.
  assert (L2 : Live h fs f2) by (exists f; auto). rewrite get_e_ok in E by (now apply (Live_lt _ _ _ H)). cbn [bind] in E. fold (en h f2) in E.
  destruct (ptr_eqb (en h f2) (Some vt)) eqn:PQ; [|auto]. injection E as <-. split; auto. split; [rewrite (tv_s2 _ _ _ _ _ TV); auto|].
  destruct (en h f2) as [w|]; cbn in PQ; [|discriminate]. apply Nat.eqb_eq in PQ. congruence.
Qed.
Lemma findHalf_in h fs vf vt x : tmesh h fs -> (forall e, ve h vf = Some e -> Live h fs e) ->
  findHalfEdge h (Some vf) (Some vt) = Ok (Some x) -> Live h fs x /\ st h x = Some vf /\ en h x = Some vt.
Proof.
  intros TM V E. unfold findHalfEdge in E. apply bind_inv in E as (r & E1 & E). destruct (hv_edge r); [|discriminate].
  apply bind_inv in E as (l & E2 & E). apply (find_half_in h fs vf vt TM l); auto. now apply (attached_in h fs vf).
Qed.
Lemma crossed_in h vp (p q : C) tol : forall es x, crossed h vp p q tol es = Ok (Some x) -> In x es.
Proof.
  induction es as [|e es IH]; intros x E; [discriminate|]. cbn [crossed] in E. apply bind_inv in E as (r & _ & E). apply bind_inv in E as (pe & _ & E). apply bind_inv in E as (rp & _ & E).
  destruct (ptr_eqb _ _ || ptr_eqb _ _); [right; auto|]. apply bind_inv in E as (a & _ & E). apply bind_inv in E as (b & _ & E).
  destruct (seg_seg_strict_intersection _ _ _ _ _); [injection E as <-; now left|right; auto].
Qed.
Lemma first_crossed_in h fs vp (p q : C) tol : tmesh h fs -> forall l x, faces_in fs l -> first_crossed h vp p q tol l = Ok (Some x) -> Live h fs x.
Proof.
  intros TM. pose proof TM as (H & HT). induction l as [|pf l IH]; intros x FI E; [discriminate|]. cbn [first_crossed] in E.
  destruct (FI pf (or_introl eq_refl)) as (f & -> & If). cbn [deref bind] in E. destruct (HT f If) as (e1 & e2 & e3 & Q & _).
  pose proof (Lf_of _ _ _ H If) as L. rewrite Q in L. rewrite (getTriangleEdges_ok _ _ _ _ _ L) in E. cbn [bind] in E.
  apply bind_inv in E as (c & E1 & E). destruct c as [c|].
  - injection E as <-. apply crossed_in in E1. exists f. rewrite Q. split; auto. cbn in *. tauto.
  - apply (IH x); auto. intros y Iy. apply FI. now right.
Qed.
Lemma recover_ok h fs n (p q : nat) tol h' r : tmesh h fs -> (0 <= tol)%R -> (forall e, ve h p = Some e -> Live h fs e) -> (forall e, ve h q = Some e -> Live h fs e) ->
  recoverEdge n h (Some p) (Some q) tol = Ok (h', r) -> h' = h /\ forall e, r = Some e -> Live h fs e /\ st h e = Some p /\ en h e = Some q.
Proof.
  intros TM T0 Vp Vq E. pose proof TM as (H & _). unfold recoverEdge in E. destruct (Nat.eqb_spec p q) as [|N]; [injection E as <- <-; split; auto; discriminate|].
  apply bind_inv in E as ([x|] & E1 & E).
  { injection E as <- <-. split; auto. intros e [= <-]. now apply (findHalf_in h fs). }
  apply bind_inv in E as ([x|] & E2 & E).
  { apply (findHalf_in h fs) in E2 as (L & S & N2); auto. rewrite get_e_ok in E by (now apply (Live_lt _ _ _ H)). cbn [bind] in E. injection E as <- <-. split; auto.
    intros e O. fold (op h x) in O. destruct (minv_pair _ _ _ _ H L O) as (Lo & _ & _ & R1 & R2). split; auto. split; congruence. }
  apply bind_inv in E as (rp & _ & E). apply bind_inv in E as (rq & _ & E). apply bind_inv in E as (l & E3 & E). apply bind_inv in E as (c & E4 & E).
  destruct c as [e|]; [|injection E as <- <-; split; auto; discriminate].
  assert (Le : Live h fs e) by (apply (first_crossed_in h fs p _ _ _ TM l e) in E4; auto; now apply (attached_in h fs p)).
  apply bind_inv in E as (c & E5 & E). destruct c as [c|]; [|injection E as <- <-; split; auto; discriminate].
  apply bind_inv in E as ([h1 rec] & E6 & E). rewrite Nat.add_comm in E6. cbn [Nat.add] in E6.
  apply (passes_none h fs) in E6 as (-> & ->); auto; [|intros x [<-|Ix]; [auto|now apply (chain_live h fs q _ _ _ TM n e c Le E5)]|discriminate].
  injection E as <- <-. split; auto. discriminate.
Qed.
End AtR.

Lemma recover_prop eps (h : plane) fs n (p q : nat) tol h' r : tri_mesh h fs -> vertices_ok h fs -> (0 <= tol)%R ->
  (exists e, live h fs e /\ ends h e p) -> (exists e, live h fs e /\ ends h e q) ->
  @recoverEdge R (NumR eps) n h (Some p) (Some q) tol = Ok (h', r) ->
  h' = h /\ forall e, r = Some e -> live h fs e /\ starts h e p /\ ends h e q.
Proof.
  intros TM VO T0 P Q E. apply tri_mesh_iff in TM. pose proof TM as (H & _). pose proof (proj2 (mesh_ok_iff h fs) H) as M.
  assert (V : forall v, (exists e, live h fs e /\ ends h e v) -> forall e, ve h v = Some e -> Live h fs e).
  { intros v (e0 & L0 & E0) e Ve. destruct (VO e0 v L0 E0) as (e' & V' & L' & _). apply vedge_iff in V' as (_ & V'). rewrite Ve in V'. injection V' as ->. now apply (LiveI _ _ _ M). }
  destruct (recover_ok eps h fs n p q tol h' r TM T0 (V p P) (V q Q) E) as (-> & X). split; auto.
  intros e He. destruct (X e He) as (L & S & N). pose proof L as (f & If & Ie). pose proof (Lf_of _ _ _ H If) as FL.
  destruct (floop_in _ _ _ _ FL Ie) as (B1 & _ & (b & B2 & B3) & _). destruct (floop_st _ _ _ _ FL Ie) as (v & pp & A1 & A2 & A3 & A4 & A5 & A6).
  split; [now apply (LiveI _ _ _ M)|]. split; [apply starts_iff|apply ends_iff].
  - rewrite S in A1. injection A1 as ->. repeat split; eauto.
  - rewrite N in B2. injection B2 as ->. auto.
Qed.
