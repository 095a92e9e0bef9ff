(** Vertex references after a repair; turning around a vertex. *)
From Coq Require Import List Arith Lia Bool Permutation.
From Verif Require Import Model_Base Proof_Base Model_Mesh Spec_Mesh Proof_Mesh Proof_Mesh2 Proof_Mesh3 Proof_Mesh4 Proof_Mesh5 Proof_Mesh6 Proof_Mesh7 Proof_Mesh9.
Import ListNotations.
Local Open Scope nat_scope.

Section Mesh.
Context {C : Type}.
Implicit Types (h : heap C) (fs l es K N seen vis : list nat) (f e o v x y : nat) (p : ptr).

Definition sameE h h' := h_e h' = h_e h /\ h_f h' = h_f h /\ nv h' = nv h /\ forall v, vco h' v = vco h v.
Lemma sameE_refl h : sameE h h. Proof. repeat split. Qed.
Lemma sameE_trans h1 h2 h3 : sameE h1 h2 -> sameE h2 h3 -> sameE h1 h3.
Proof. intros (A & B & D & G) (A' & B' & D' & G'). unfold sameE. rewrite A', B', D'. repeat split; auto. intros v. now rewrite G'. Qed.
Lemma sameE_E h h' e : sameE h h' -> E h' e = E h e.
Proof. intros (A & _). unfold E. now rewrite A. Qed.
Lemma sameE_en h h' e : sameE h h' -> en h' e = en h e.
Proof. intros H. unfold en. now rewrite (sameE_E _ _ _ H). Qed.
Lemma sameE_ne h h' : sameE h h' -> ne h' = ne h.
Proof. intros (A & _). unfold ne. now rewrite A. Qed.
Lemma sameE_floop h h' f l : sameE h h' -> floop h f l -> floop h' f l.
Proof.
  intros S H. pose proof S as (A & B & D & _). apply (floop_frame h h'); auto.
  - unfold ne. rewrite A. auto.
  - lia.
  - unfold nf. rewrite B. auto.
  - unfold F. now rewrite B.
  - intros e Ie. unfold en, nx, pv, fc. rewrite (sameE_E _ _ _ S). auto.
Qed.
Lemma sameE_minv h h' fs : sameE h h' -> minv h fs -> minv h' fs /\ forall f, In f fs -> Lf h' f = Lf h f.
Proof.
  intros S H.
  assert (L : forall f, In f fs -> Lf h' f = Lf h f).
  { intros f If. pose proof (Lf_of _ _ _ H If) as G. apply Lf_ok. now apply (sameE_floop h). }
  split; auto. apply mesh_ok_iff. apply mesh_ok_iff in H.
  destruct S as (A & B & D & _).
  assert (V : length (h_v h') = length (h_v h)) by (exact D).
  assert (IE : forall e r, is_edge h' e r <-> is_edge h e r) by (intros; unfold is_edge; now rewrite A).
  assert (EN : forall e v, ends h' e v <-> ends h e v) by (intros; unfold ends; setoid_rewrite IE; rewrite V; tauto).
  assert (FL : forall f l, face_loop h' f l <-> face_loop h f l).
  { intros. unfold face_loop, face_is, next_is, prev_is. rewrite B. setoid_rewrite IE. setoid_rewrite EN. tauto. }
  assert (LV : forall e, live h' fs e <-> live h fs e) by (intros; unfold live; setoid_rewrite FL; tauto).
  destruct H as (H1 & H2 & H3). split; auto. split.
  - intros f If. destruct (H2 f If) as (l & Hl). exists l. now apply FL.
  - intros e o He Ho. unfold opp_is, starts in *. setoid_rewrite IE. setoid_rewrite EN. setoid_rewrite LV.
    apply H3; [now apply LV|]. destruct Ho as (r & R & Q). exists r. split; auto. now apply IE.
Qed.

(** what has been repaired so far: every vertex seen refers to a half-edge of [P] ending at it *)
Definition seen_ok h (P : nat -> Prop) seen := forall v, In v seen -> exists e, ve h v = Some e /\ P e /\ en h e = Some v.
Lemma repair_edges_ok (P : nat -> Prop) : forall es h seen,
  (forall e, In e es -> e < ne h /\ P e /\ exists v, en h e = Some v /\ v < nv h) -> seen_ok h P seen ->
  exists h' seen', repair_edges h es seen = Ok (h', seen') /\ sameE h h' /\ seen_ok h' P seen' /\ incl seen seen' /\
    (forall e v, In e es -> en h e = Some v -> In v seen').
Proof.
  induction es as [|e es IH]; intros h seen HB HS.
  - exists h, seen. split; [reflexivity|]. split; [apply sameE_refl|]. split; auto. split; [apply incl_refl|]. intros e v [].
  - destruct (HB e (or_introl eq_refl)) as (Be & Pe & v & Ev & Bv). cbn [repair_edges].
    rewrite (end_of_ok h e v) by auto. cbn [bind]. destruct (existsb (Nat.eqb v) seen) eqn:X.
    + apply existsb_exists in X as (w & Iw & Q). apply Nat.eqb_eq in Q. subst w.
      destruct (IH h seen) as (h' & s' & A & B & D & G & K); auto. { intros; apply HB; now right. }
      exists h', s'. split; auto. split; auto. split; auto. split; auto. intros e' v' [<-|I] Q; [|eauto]. apply G. congruence.
    + rewrite set_vedge_ok by auto. cbn [bind].
      assert (S1 : sameE h (uv h v (Some e))).
      { unfold sameE. rewrite nv_uv. repeat split; try (unfold uv; destruct (nth_error (h_v h) v); reflexivity). intros w. apply vco_uv. }
      assert (EN : forall x, en (uv h v (Some e)) x = en h x) by (intros x; unfold en; now rewrite E_uv).
      destruct (IH (uv h v (Some e)) (v :: seen)) as (h' & s' & A & B & D & G & K).
      { intros e' I. rewrite ne_uv, nv_uv, EN. apply HB. now right. }
      { intros w. rewrite ve_uv by auto. destruct (Nat.eqb_spec w v) as [->|N].
        - intros _. exists e. rewrite EN. auto.
        - intros [Q|I]; [congruence|]. destruct (HS w I) as (y & Y1 & Y2 & Y3). exists y. rewrite EN. auto. }
      exists h', s'. split; auto. split; [now apply sameE_trans with (uv h v (Some e))|]. split; auto.
      split; [intros w I; apply G; now right|]. intros e' v' [<-|I] Q.
      * apply G. left. congruence.
      * apply (K e'); auto. now rewrite EN.
Qed.
Lemma repair_ok h fs : minv h fs -> exists h', repairVertexEdges h fs = Ok h' /\ sameE h h' /\
  (forall v, vco h' v = vco h v) /\
  (forall e v, Live h fs e -> en h e = Some v -> exists e', ve h' v = Some e' /\ Live h fs e' /\ en h e' = Some v).
Proof.
  intros H. unfold repairVertexEdges.
  assert (Q : forall K h1 seen, incl K fs -> sameE h h1 -> seen_ok h1 (Live h fs) seen ->
    exists h' seen', repair_faces h1 K seen = Ok h' /\ sameE h h' /\ seen_ok h' (Live h fs) seen' /\ incl seen seen' /\
      (forall e v, Live h K e -> en h e = Some v -> In v seen')).
  { induction K as [|f K IH]; intros h1 seen I S O.
    - exists h1, seen. split; [reflexivity|]. split; auto. split; auto. split; [apply incl_refl|]. intros e v (g & [] & _).
    - cbn [repair_faces]. pose proof (Lf_of _ _ f H (I f (or_introl eq_refl))) as G.
      rewrite (getFaceEdges_ok _ _ _ (sameE_floop _ _ _ _ S G)). cbn [bind].
      destruct (repair_edges_ok (Live h fs) (Lf h f) h1 seen) as (h2 & s2 & A1 & A2 & A3 & A4 & A5); auto.
      { intros e Ie. destruct (floop_in _ _ _ _ G Ie) as (B1 & B2 & (v & B3 & B4) & _). rewrite (sameE_ne _ _ S), (sameE_en _ _ _ S).
        split; auto. split; [exists f; split; auto; apply I; now left|]. exists v. split; auto. destruct S as (_ & _ & S & _). lia. }
      rewrite A1. cbn [bind]. destruct (IH h2 s2) as (h' & s' & B1 & B2 & B3 & B4 & B5); auto.
      { intros g Ig. apply I. now right. } { now apply sameE_trans with h1. }
      exists h', s'. split; auto. split; auto. split; auto. split; [now apply incl_tran with s2|].
      intros e v (g & [<-|Ig] & Ie) Q; [|apply (B5 e); auto; exists g; auto]. apply B4, (A5 e); auto. now rewrite (sameE_en _ _ _ S). }
  destruct (Q fs h []) as (h' & s' & A & B & D & _ & G); [apply incl_refl|apply sameE_refl|intros v []|].
  exists h'. split; auto. split; auto. split; [apply B|].
  intros e v L Q1. destruct (D v (G e v L Q1)) as (e' & X & Y & Z). exists e'. rewrite <- (sameE_en _ _ _ B). auto.
Qed.

(** ** Turning around a vertex *)
Definition sig h e : ptr := match op h e with Some o => pv h o | None => None end.
Lemma sig_live h fs e o : minv h fs -> Live h fs e -> op h e = Some o ->
  exists q, pv h o = Some q /\ Live h fs q /\ q < ne h /\ o < ne h /\ nx h q = Some o.
Proof.
  intros H L O. destruct (minv_pair _ _ _ _ H L O) as (Lo & _). pose proof Lo as (f & If & Io).
  destruct (floop_in _ _ _ _ (Lf_of _ _ _ H If) Io) as (Bo & _ & _ & _ & q & P & Iq & Nq).
  exists q. split; auto. assert (Live h fs q) by (exists f; auto). split; auto. split; [now apply (Live_lt _ _ _ H)|]. auto.
Qed.
Lemma sig_inj h fs x y z : minv h fs -> Live h fs x -> Live h fs y -> sig h x = Some z -> sig h y = Some z -> x = y.
Proof.
  intros H Lx Ly. unfold sig. destruct (op h x) as [o|] eqn:Ox; [|discriminate]. destruct (op h y) as [o'|] eqn:Oy; [|discriminate].
  intros P P'. destruct (sig_live h fs x o H Lx Ox) as (q & Q1 & _ & _ & _ & Q2).
  destruct (sig_live h fs y o' H Ly Oy) as (q' & Q1' & _ & _ & _ & Q2').
  assert (o = o') by congruence. subst o'.
  destruct (minv_pair _ _ _ _ H Lx Ox) as (_ & _ & R & _). destruct (minv_pair _ _ _ _ H Ly Oy) as (_ & _ & R' & _). congruence.
Qed.
Inductive rot h : nat -> nat -> Prop :=
| rot_refl e : rot h e e
| rot_step e q x : sig h e = Some q -> rot h q x -> rot h e x.
Lemma rot_snoc h e x q : rot h e x -> sig h x = Some q -> rot h e q.
Proof. induction 1; intros S; [econstructor; eauto; constructor|econstructor; eauto]. Qed.

Lemma turn_ok h fs start : minv h fs -> Live h fs start -> forall k e w,
  NoDup (e :: w) -> (forall x, In x (e :: w) -> Live h fs x) -> In start (e :: w) ->
  (forall x, In x (e :: w) -> x = start \/ exists y, In y w /\ sig h y = Some x) ->
  (forall x, In x w -> op h x <> None /\ exists z, sig h x = Some z /\ In z (e :: w)) ->
  rot h start e -> S (length w) + k = S (ne h) ->
  exists b, turn k h start e = Ok b /\ (b = false <-> exists x, rot h start x /\ op h x = None).
Proof.
  intros H LS. induction k as [|k IH]; intros e w ND LV IS PR CL RT LN.
  - exfalso. pose proof (NoDup_bound (e :: w) (ne h) ND) as B. cbn in B.
    assert (S (length w) <= ne h) by (apply B; intros x Ix; now apply (Live_lt _ _ _ H), LV). lia.
  - cbn [turn]. assert (Le : Live h fs e) by (apply LV; now left). rewrite get_e_ok by (now apply (Live_lt _ _ _ H)). cbn [bind].
    change (he_opp (E h e)) with (op h e). destruct (op h e) as [o|] eqn:Oe.
    2:{ exists false. split; auto. split; auto. intros _. exists e. auto. }
    destruct (sig_live h fs e o H Le Oe) as (q & Q1 & Lq & Bq & Bo & Q2).
    rewrite get_e_ok by auto. cbn [bind]. change (he_prev (E h o)) with (pv h o). rewrite Q1.
    assert (Se : sig h e = Some q) by (unfold sig; now rewrite Oe).
    destruct (ptr_eqb_spec (Some q) (Some start)) as [X|X].
    + injection X as ->. exists true. split; auto. split; [discriminate|]. intros (x & R & O). exfalso.
      assert (Q : forall a c, rot h a c -> In a (e :: w) -> In c (e :: w)).
      { induction 1 as [|a q c S R' IH']; intros I; auto. apply IH'. destruct I as [<-|I]; [congruence|].
        destruct (CL a I) as (_ & z & Z1 & Z2). congruence. }
      destruct (Q start x R IS) as [->|I]; [congruence|]. now apply (CL x I).
    + cbn [deref bind].
      assert (NQ : ~ In q (e :: w)).
      { intros I. destruct (PR q I) as [->|(y & Iy & Sy)]; [congruence|]. inversion ND; subst. 
        assert (y = e) by (apply (sig_inj h fs y e q); auto; apply LV; now right). subst y. contradiction. }
      apply (IH q (e :: w)).
      * now constructor.
      * intros x [<-|I]; auto.
      * now right.
      * intros x [<-|I].
        -- right. exists e. split; [now left|auto].
        -- destruct (PR x I) as [|(y & Iy & Sy)]; auto. right. exists y. split; auto. now right.
      * intros x [<-|I].
        -- split; [congruence|]. exists q. split; auto. now left.
        -- destruct (CL x I) as (A & z & Z1 & Z2). split; auto. exists z. split; auto. now right.
      * now apply rot_snoc with e.
      * cbn [length]. lia.
Qed.
Lemma is_boundary_ok h fs v e : minv h fs -> Live h fs e -> v < nv h -> ve h v = Some e ->
  exists b, is_boundary h v = Ok b /\ (b = false <-> exists x, rot h e x /\ op h x = None).
Proof.
  intros H L Bv Q. unfold is_boundary. destruct (get_v_ok h v Bv) as (r & R1 & R2 & _). rewrite R1. cbn [bind]. rewrite R2, Q. cbn [deref bind].
  apply (turn_ok h fs e H L _ e []); auto.
  - constructor; [intros []|constructor].
  - intros x [<-|[]]; auto.
  - now left.
  - intros x [<-|[]]; auto.
  - intros x [].
  - constructor.
Qed.
Lemma rot_live h fs e x : minv h fs -> rot h e x -> Live h fs e -> Live h fs x /\ en h x = en h e.
Proof.
  intros H. induction 1 as [|e q x S R IH]; intros L; [auto|]. unfold sig in S. destruct (op h e) as [o|] eqn:Oe; [|discriminate].
  destruct (sig_live h fs e o H L Oe) as (q' & Q1 & Lq & _ & _ & Q2). assert (q' = q) by congruence. subst q'.
  destruct (IH Lq) as (A & B). split; auto. rewrite B. destruct (minv_pair _ _ _ _ H L Oe) as (_ & _ & _ & _ & T).
  unfold st in T. rewrite Q1 in T. auto.
Qed.
End Mesh.
