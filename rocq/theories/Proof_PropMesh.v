(** The property theorems on half-edge meshes, in the words of Spec_Mesh and Spec_MeshEdit. *)
From Coq Require Import List Arith Lia Bool Permutation.
From Verif Require Import Model_Base Proof_Base Model_Mesh Spec_Mesh Spec_MeshEdit Proof_Mesh Proof_Mesh2 Proof_Mesh3 Proof_Mesh4 Proof_Mesh5 Proof_Mesh6 Proof_Mesh7 Proof_Mesh8 Proof_Mesh9 Proof_Mesh10.
Import ListNotations.
Local Open Scope nat_scope.

Section Mesh.
Context {C : Type}.
Implicit Types (h : heap C) (fs l es K N : list nat) (f e o v x y : nat) (p : ptr).

Lemma LiveI h fs e : mesh_ok h fs -> (live h fs e <-> Live h fs e).
Proof. intros H. apply Live_iff. apply mesh_ok_iff in H. intros f If. now apply (Lf_of _ fs). Qed.
Lemma edge_kept_E h h' e : ne h <= ne h' -> E h' e = E h e -> edge_kept h h' e.
Proof. intros N Q r. rewrite !is_edge_iff. intros (A & B). split; [lia|congruence]. Qed.
Lemma face_kept_F h h' f : f < nf h -> nf h <= nf h' -> F h' f = F h f -> face_kept h h' f.
Proof.
  unfold face_kept, F, nf. intros A N Q. destruct (nth_error (h_f h) f) eqn:X; [|apply nth_error_None in X; lia].
  destruct (nth_error (h_f h') f) eqn:Y; [|apply nth_error_None in Y; lia].
  apply nth_error_nth with (d := None) in X, Y. congruence.
Qed.
Lemma coords_iff h v (c : C) : coords_are h v c <-> vco h v = Some c.
Proof.
  unfold coords_are, vco. split.
  - intros (r & A & B). rewrite A. cbn. congruence.
  - destruct (nth_error (h_v h) v) as [r|]; [|discriminate]. cbn. intros [= Q]. exists r. auto.
Qed.
Lemma coords_kept_vco h h' : (forall v, v < nv h -> vco h' v = vco h v) -> coords_kept h h'.
Proof.
  intros Q v c. rewrite !coords_iff. intros H. rewrite Q; auto. unfold vco in H. unfold nv.
  destruct (nth_error (h_v h) v) eqn:X; [|discriminate]. apply nth_error_Some. congruence.
Qed.
Lemma vedge_iff h v p : vedge_is h v p <-> v < nv h /\ ve h v = p.
Proof.
  unfold vedge_is, ve, nv. split.
  - intros (r & A & B). rewrite A. split; auto. apply nth_error_Some. congruence.
  - intros (A & B). destruct (nth_error (h_v h) v) as [r|] eqn:X; [|apply nth_error_None in X; lia]. exists r. auto.
Qed.

(** ** C45 *)
Lemma make_face_prop h es : NoDup es -> 2 <= length es -> (forall e, In e es -> exists v, ends h e v) ->
  exists h' f, make_face h es = Ok (h', Some f) /\ nth_error (h_f h) f = None /\
    face_loop h' f es /\ getFaceEdges h' f = Ok es /\
    (forall e, In e es -> (forall v, ends h e v <-> ends h' e v) /\ (forall p, opp_is h e p <-> opp_is h' e p)) /\
    (forall e, ~ In e es -> edge_kept h h' e) /\ (forall g, g <> f -> face_kept h h' g) /\ h_v h' = h_v h.
Proof.
  intros ND L HB.
  assert (HB' : forall e, In e es -> e < ne h /\ exists v, en h e = Some v /\ v < nv h).
  { intros e Ie. destruct (HB e Ie) as (v & Hv). apply ends_iff in Hv as (A & B & D). eauto. }
  destruct (make_face_ok h es) as (h' & A0 & A1 & A2 & A3 & A4 & A5 & A6); auto. { intros e Ie. now apply HB'. }
  exists h', (nf h). split; auto. split; [apply nth_error_None; unfold nf; lia|].
  assert (FL : floop h' (nf h) es) by now apply (make_face_floop h).
  split; [now apply face_loop_iff|]. split; [now apply getFaceEdges_ok|]. split.
  { intros e Ie. apply In_nth with (d := 0) in Ie as (i & Hi & <-). assert (Q := A5 i Hi).
    split; intros.
    - rewrite !ends_iff, A2. unfold nv. rewrite A1. unfold en at 2. rewrite Q. cbn. tauto.
    - rewrite !opp_iff, A2. unfold op at 2. rewrite Q. cbn. tauto. }
  split. { intros e Ie. apply edge_kept_E; [lia|]. now apply A6. }
  split; auto. intros g Ng. destruct (Nat.lt_ge_cases g (nf h)) as [B|B].
  - apply face_kept_F; auto; [lia|]. rewrite A4. destruct (Nat.eqb_spec g (nf h)); [lia|auto].
  - unfold face_kept. rewrite !(proj2 (nth_error_None _ _)); auto; unfold nf in *; lia.
Qed.
Lemma new_face_prop h cs : 2 <= length cs ->
  exists h1 es h2 f, make_edges_at h cs = Ok (h1, es) /\ make_face h1 es = Ok (h2, Some f) /\
    face_loop h2 f es /\ length es = length cs /\
    (forall i c, nth_error cs i = Some c -> exists e v, nth_error es i = Some e /\ ends h2 e v /\ coords_are h2 v c).
Proof.
  intros L. destruct (new_face_ok h [] cs) as (h1 & h2 & A & B & _ & D & G & K & _); auto.
  { split; [constructor|]. split; [intros f []|]. intros e o (f & [] & _). }
  exists h1, (seq (ne h) (length cs)), h2, (nf h). split; auto. split; auto. split; [now apply face_loop_iff|].
  split; [apply seq_length|]. intros i c Q. assert (Hi : i < length cs) by (apply nth_error_Some; congruence).
  exists (ne h + i), (nv h + i). rewrite coords_iff, ends_iff. destruct (G i Hi) as (G1 & _).
  assert (S : nth_error (seq (ne h) (length cs)) i = Some (ne h + i)).
  { rewrite nth_error_nth' with (d := 0) by (now rewrite seq_length). now rewrite seq_nth. }
  split; auto. split; [|now apply K]. apply nth_error_In in S. destruct (floop_in _ _ _ _ D S) as (X & _ & (v & V1 & V2) & _).
  split; auto. split; auto. assert (v = nv h + i) by congruence. now subst v.
Qed.
Lemma walk_prop h f l : face_loop h f l -> getFaceEdges h f = Ok l.
Proof. intros H. apply getFaceEdges_ok. now apply face_loop_iff. Qed.

(** ** C52 and C51 *)
Lemma on_boundary_iff h fs K e : mesh_ok h fs -> incl K fs ->
  (on_boundary_of h K e <-> In e (filter (fun e => negb (inK h K e)) (alle h K))).
Proof.
  intros M IK. pose proof M as H. apply mesh_ok_iff in H.
  assert (HK : forall f, In f K -> floop h f (Lf h f)) by (intros f If; apply (Lf_of _ fs); auto).
  rewrite filter_In, in_alle. unfold on_boundary_of. rewrite (Live_iff h K e HK). split.
  - intros (L & Q). split; auto. destruct (inK h K e) eqn:X; auto. exfalso. apply inK_iff in X as (o & f & Ho & Fo & If).
    apply (Q o f); auto; [apply opp_iff|apply face_iff]; (split; [|auto]).
    + apply (Live_lt _ fs _ H). now apply (Live_incl _ K).
    + apply (Live_lt _ fs _ H). apply (minv_pair h fs e); auto. now apply (Live_incl _ K).
  - intros (L & Q). split; auto. intros o f Ho Fo If. apply opp_iff in Ho as (_ & Ho). apply face_iff in Fo as (_ & Fo).
    assert (X : inK h K e = true) by (apply inK_iff; eauto). rewrite X in Q. discriminate.
Qed.
Lemma boundary_prop h fs K : mesh_ok h fs -> incl K fs -> NoDup K ->
  exists b, getFacesBoundary h K = Ok b /\ NoDup b /\ forall e, In e b <-> on_boundary_of h K e.
Proof.
  intros M IK NK. pose proof M as H. apply mesh_ok_iff in H. exists (filter (fun e => negb (inK h K e)) (alle h K)).
  split; [now apply (boundary_ok h fs)|]. split; [now apply NoDup_filter, (NoDup_alle h fs)|].
  intros e. symmetry. now apply (on_boundary_iff h fs).
Qed.
Definition spec_based h e := exists v w, starts h e v /\ ends h e w.
Lemma spec_pbased h e : spec_based h e -> pbased h e.
Proof.
  intros (v & w & S & _). apply starts_iff in S as (A & B & D & q & Q & R). split; auto. exists q. auto.
Qed.
Lemma trail_chained h l : (forall e, In e l -> spec_based h e) -> trail h l -> chained h l.
Proof.
  intros HB T i e e' Hi Hi'.
  assert (B : S i < length l) by (apply nth_error_Some; congruence).
  specialize (T i B). rewrite (nth_error_nth _ _ _ Hi), (nth_error_nth _ _ _ Hi') in T.
  destruct (HB e) as (a & b & Sa & Eb); [now apply nth_error_In with i|].
  destruct (HB e') as (a' & b' & Sa' & Eb'); [now apply nth_error_In with (S i)|].
  exists b. split; auto. apply starts_iff in Sa' as X. apply ends_iff in Eb as Y. destruct X as (X1 & X2 & X3 & X4), Y as (Y1 & Y2 & Y3).
  assert (a' = b) by congruence. now subst a'.
Qed.
Lemma last_indep {A} (l : list A) a b : l <> [] -> last l a = last l b.
Proof. induction l as [|x [|y l] IH]; intros N; [congruence|reflexivity|]. apply IH. discriminate. Qed.
Lemma closed_spec h l : (forall e, In e l -> spec_based h e) -> closed h l -> closed_chain h l.
Proof.
  intros HB (T & NE & CL). split; [now apply trail_chained|]. destruct l as [|e l]; [congruence|].
  cbn [hd] in CL. exists e, (last (e :: l) e).
  assert (LQ : last (e :: l) 0 = last (e :: l) e).
  { now apply last_indep. }
  assert (LI : In (last (e :: l) 0) (e :: l)).
  { destruct (exists_last NE) as (m & z & Q). rewrite Q, last_last. apply in_or_app. cbn. auto. }
  destruct (HB _ LI) as (a & b & Sa & Eb). destruct (HB e (or_introl eq_refl)) as (a' & b' & Sa' & Eb').
  exists b. split; [reflexivity|]. split; [reflexivity|]. rewrite <- LQ. split; auto.
  apply starts_iff in Sa' as X. apply ends_iff in Eb as Y. destruct X as (X1 & X2 & X3 & X4), Y as (Y1 & Y2 & Y3).
  assert (a' = b) by congruence. now subst a'.
Qed.
Lemma loops_prop h b : (forall e, In e b -> exists v w, starts h e v /\ ends h e w) ->
  exists ls, takeClosedLoops h b = Ok ls /\ Permutation (concat ls) b /\
    forall l, In l ls -> l <> [] /\ chained h l.
Proof.
  intros HB. destruct (takeClosedLoops_ok h b) as (ls & A & B & D & _). { intros e Ie. apply spec_pbased, HB, Ie. }
  exists ls. split; auto. split; auto. intros l Il. destruct (D l Il) as (D1 & D2). split; auto.
  apply trail_chained; auto. intros e Ie. apply HB. apply (Permutation_in e B). apply in_concat. eauto.
Qed.
Lemma Live_based h fs e : minv h fs -> Live h fs e -> spec_based h e.
Proof.
  intros H L. destruct (Live_e _ _ _ (fun f If => Lf_of _ _ f H If) L) as (B & _ & (v & V1 & V2) & _ & (q & Q1 & Q2 & _) & (w & W1 & W2)).
  exists w, v. rewrite starts_iff, ends_iff. repeat split; auto. exists q. split; auto. now apply (Live_lt _ _ _ H).
Qed.
Lemma oriented_prop h fs K : mesh_ok h fs -> incl K fs -> NoDup K ->
  exists ls, getOrientedFacesBoundaries h K = Ok ls /\ NoDup (concat ls) /\
    (forall e, In e (concat ls) <-> on_boundary_of h K e) /\
    (forall l, In l ls -> closed_chain h l).
Proof.
  intros M IK NK. pose proof M as H. apply mesh_ok_iff in H. destruct (oriented_ok h fs K H IK NK) as (ls & A & B & D).
  exists ls. split; auto. split.
  { apply (Permutation_NoDup (Permutation_sym B)). now apply NoDup_filter, (NoDup_alle h fs). }
  assert (Q : forall e, In e (concat ls) <-> on_boundary_of h K e).
  { intros e. rewrite (on_boundary_iff h fs K e M IK). split; intros I; [now apply (Permutation_in _ B)|now apply (Permutation_in _ (Permutation_sym B))]. }
  split; auto. intros l Il. apply closed_spec; auto. intros e Ie. apply (Live_based h fs); auto.
  apply (Live_incl _ K); auto. apply (in_alle h K). apply (Permutation_in e) in B; [|apply in_concat; eauto]. apply filter_In in B. tauto.
Qed.

(** ** C48 *)
Lemma closed_cyc h es : closed_chain h es -> forall i, i < length es -> en h (nth i es 0) = st h (cyc es (i + 1)).
Proof.
  intros (CH & e0 & e1 & v & H0 & H1 & E1 & S1) i Hi. unfold cyc.
  destruct (Nat.lt_ge_cases (i + 1) (length es)) as [L|L].
  - rewrite Nat.mod_small by auto. destruct (CH i (nth i es 0) (nth (i + 1) es 0)) as (w & W1 & W2).
    + now apply nth_error_nth'.
    + replace (S i) with (i + 1) by lia. now apply nth_error_nth'.
    + apply ends_iff in W1. apply starts_iff in W2. destruct W1 as (_ & W1 & _), W2 as (_ & W2 & _). congruence.
  - replace (i + 1) with (length es) by lia. rewrite Nat.mod_same by lia.
    destruct es as [|e es]; [cbn in Hi; lia|]. injection H0 as ->.
    assert (nth i (e0 :: es) 0 = e1).
    { rewrite <- H1. assert (i = length es) by (cbn in *; lia). subst i. clear.
      revert e0. induction es as [|x es IH]; intros e0; [reflexivity|].
      change (nth (length (x :: es)) (e0 :: x :: es) 0) with (nth (length es) (x :: es) 0). rewrite IH.
      change (last (e0 :: x :: es) e0) with (last (x :: es) e0). now apply last_indep. }
    rewrite H. change (nth 0 (e0 :: es) 0) with e0. apply ends_iff in E1. apply starts_iff in S1. destruct E1 as (_ & W1 & _), S1 as (_ & W2 & _). congruence.
Qed.
Lemma add_vertex_prop h fs K es v : mesh_ok h fs -> incl K fs -> NoDup K -> NoDup es -> closed_chain h es -> v < length (h_v h) ->
  (forall e, In e es -> live h fs e /\ ~ live h K e) ->
  (forall e o, live h K e \/ In e es -> opp_is h e (Some o) -> live h K o \/ In o es) ->
  exists h' nfs, add_vertex h es v = Ok (h', nfs) /\ length nfs = length es /\
    mesh_ok h' (K ++ nfs) /\
    (forall i e f, nth_error es i = Some e -> nth_error nfs i = Some f ->
       exists x y a b, starts h e a /\ ends h e b /\ tri h' f e x y b v a /\
         (forall p, opp_is h e p -> opp_is h' e p) /\
         forall e' f', nth_error es ((i + 1) mod length es) = Some e' -> nth_error nfs ((i + 1) mod length es) = Some f' ->
           exists x' y' a' b', tri h' f' e' x' y' b' v a' /\ opp_is h' x (Some y') /\ opp_is h' y' (Some x)) /\
    (forall e r, is_edge h e r -> ~ In e es -> is_edge h' e r) /\
    (forall f, In f K -> face_kept h h' f) /\
    (forall f, In f nfs -> nth_error (h_f h) f = None) /\
    coords_kept h h'.
Proof.
  intros M IK NK ND CC Bv HE HO. pose proof M as H. apply mesh_ok_iff in H.
  assert (HK : forall f, In f K -> floop h f (Lf h f)) by (intros f If; apply (Lf_of _ fs); auto).
  assert (NE : es <> []) by (intros ->; destruct CC as (_ & e0 & e1 & w & Q & _); discriminate).
  destruct (refill h fs K es v) as (h' & A0 & A1 & A2 & A3 & A4 & A5 & A6 & A7 & A8 & A9 & A10 & A11); auto.
  { intros e Ie. destruct (HE e Ie) as (X & Y). split; [now apply (LiveI h fs)|]. intros Z. apply Y. now apply Live_iff. }
  { now apply closed_cyc. }
  { intros e o L O. assert (Live h fs e) by (destruct L as [L|I]; [now apply (Live_incl _ K)|apply (LiveI h fs); auto; now apply HE]).
    assert (Y : live h K o \/ In o es).
    { apply (HO e o).
      - destruct L as [L|]; auto. left. now apply Live_iff.
      - apply opp_iff. split; auto. now apply (Live_lt _ fs). }
    destruct Y as [X|X]; auto. left. now apply (Live_iff h K o HK). }
  exists h', (seq (nf h) (length es)). split; auto. split; [apply seq_length|]. split; [now apply mesh_ok_iff|].
  set (n := length es) in *. assert (n0 : 0 < n) by (unfold n; destruct es; [congruence|cbn; lia]).
  assert (FLn : forall i, i < n -> floop h' (nf h + i) [nth i es 0; ne h + 2 * i; ne h + 2 * i + 1]).
  { intros i Hi. rewrite <- A3 by auto. apply (Lf_of _ _ _ A1). apply in_or_app. right. apply in_seq. lia. }
  assert (TRI : forall i, i < n -> exists a b, starts h (nth i es 0) a /\ ends h (nth i es 0) b /\
     tri h' (nf h + i) (nth i es 0) (ne h + 2 * i) (ne h + 2 * i + 1) b v a).
  { intros i Hi. assert (Ie : In (nth i es 0) es) by now apply nth_In.
    destruct (Live_based h fs (nth i es 0) H) as (a & b & Sa & Eb); [apply (LiveI h fs _ M); now apply HE|].
    exists a, b. split; auto. split; auto. split; [left; apply face_loop_iff, FLn, Hi|].
    destruct (A4 i Hi) as (B1 & B2 & B3 & _). apply ends_iff in Eb as (Z1 & Z2 & Z3). apply starts_iff in Sa as (S1 & S2 & S3 & _).
    rewrite !ends_iff, B1, B2, B3, A7, A8. repeat split; auto; lia. }
  assert (NTH : forall i e f, nth_error es i = Some e -> nth_error (seq (nf h) n) i = Some f -> i < n /\ e = nth i es 0 /\ f = nf h + i).
  { intros i e f Q1 Q2. assert (Hi : i < n) by (apply nth_error_Some; congruence). split; auto.
    split; [symmetry; now apply nth_error_nth|]. apply nth_error_nth with (d := 0) in Q2. rewrite seq_nth in Q2; auto. }
  split.
  { intros i e f Q1 Q2. destruct (NTH i e f Q1 Q2) as (Hi & -> & ->). destruct (TRI i Hi) as (a & b & T1 & T2 & T3).
    exists (ne h + 2 * i), (ne h + 2 * i + 1), a, b. split; auto. split; auto. split; auto.
    destruct (A4 i Hi) as (B1 & B2 & B3 & B4 & B5). split.
    { intros o. rewrite !opp_iff. intros (X & Y). split; [lia|]. congruence. }
    intros e' f' Q1' Q2'. destruct (NTH _ e' f' Q1' Q2') as (Hi' & -> & ->).
    destruct (TRI _ Hi') as (a' & b' & T1' & T2' & T3'). do 4 eexists. split; [exact T3'|].
    assert (LV : Live h' (K ++ seq (nf h) n) (ne h + 2 * i)).
    { exists (nf h + i). split; [apply in_or_app; right; apply in_seq; lia|]. rewrite A3 by auto. cbn. auto. }
    destruct (minv_pair _ _ _ _ A1 LV B5) as (P1 & _ & P2 & _). rewrite !opp_iff. rewrite B5, P2.
    split; (split; [|reflexivity]); [now apply (Live_lt _ _ _ A1)|now apply (Live_lt _ _ _ A1)]. }
  split. { intros e r R I. apply (edge_kept_E h h'); auto; [lia|]. apply A5; auto. now apply is_edge_iff in R. }
  split. { intros f If. apply face_kept_F; [apply (HK f If)|lia|].
    assert (L1 : floop h' f (Lf h f)) by (rewrite <- (A2 f If); apply (Lf_of _ _ _ A1), in_or_app; auto).
    destruct L1 as (_ & _ & _ & L1 & _). destruct (HK f If) as (_ & _ & _ & L2 & _). congruence. }
  split. { intros f If. apply in_seq in If. apply nth_error_None. unfold nf in *. lia. }
  apply coords_kept_vco. auto.
Qed.

(** ** the cavity *)
Lemma in_without K fs f : In f (without K fs) <-> In f fs /\ ~ In f K.
Proof.
  unfold without. rewrite filter_In. destruct (existsb (Nat.eqb f) K) eqn:X; cbn.
  - apply existsb_exists in X as (g & Ig & Q). apply Nat.eqb_eq in Q. subst g. split; [intros [_ Q]; discriminate|tauto].
  - split; [|tauto]. intros (A & _). split; auto. intros I. assert (existsb (Nat.eqb f) K = true) by (apply existsb_exists; exists f; split; auto; apply Nat.eqb_refl). congruence.
Qed.
Lemma cavity_ok h fs K es v : minv h fs -> incl K fs -> NoDup K -> getOrientedFacesBoundaries h K = Ok [es] -> v < nv h ->
  NoDup es /\ es <> [] /\ (forall e, In e es -> Live h fs e /\ ~ Live h (without K fs) e) /\
  (forall e, In e es <-> In e (filter (fun e => negb (inK h K e)) (alle h K))) /\
  (forall i, i < length es -> en h (nth i es 0) = st h (cyc es (i + 1))) /\
  (forall e o, Live h (without K fs) e \/ In e es -> op h e = Some o -> Live h (without K fs) o \/ In o es).
Proof.
  intros H IK NK HB Bv. pose proof H as M. apply mesh_ok_iff in M.
  destruct (oriented_ok h fs K H IK NK) as (ls & A & B & D). rewrite HB in A. injection A as <-. cbn in B. rewrite app_nil_r in B.
  destruct (D es (or_introl eq_refl)) as (T & NE & CL).
  assert (ND : NoDup es) by (apply (Permutation_NoDup (Permutation_sym B)); now apply NoDup_filter, (NoDup_alle h fs)).
  assert (IE : forall e, In e es <-> In e (filter (fun e => negb (inK h K e)) (alle h K))).
  { intros e; split; intros I; [now apply (Permutation_in _ B)|now apply (Permutation_in _ (Permutation_sym B))]. }
  assert (LK : forall e, In e es -> Live h K e) by (intros e I; apply IE, filter_In in I as (I & _); now apply in_alle).
  assert (WL : forall e, Live h (without K fs) e -> Live h fs e).
  { intros e. apply Live_incl. intros g Ig. now apply in_without in Ig. }
  assert (EX : forall e, Live h fs e -> Live h K e \/ Live h (without K fs) e).
  { intros e (f & If & Ie). destruct (in_dec Nat.eq_dec f K); [left|right]; exists f; split; auto. now apply in_without. }
  assert (DJ : forall e, Live h K e -> Live h (without K fs) e -> False).
  { intros e (f & If & Ie) (g & Ig & Ie'). apply in_without in Ig as (Ig & Ng). apply Ng. replace g with f; auto.
    apply (floop_face h f g (Lf h f) (Lf h g) e); auto; apply (Lf_of _ _ _ H); auto. }
  split; auto. split; auto. split.
  { intros e I. split; [apply (Live_incl _ K); auto|]. intros L. apply (DJ e); auto. }
  split; auto. split.
  { apply closed_cyc. apply closed_spec; [|split; auto]. intros e I. apply (Live_based h fs); auto. apply (Live_incl _ K); auto. }
  intros e o L O. assert (LF : Live h fs e) by (destruct L as [L|I]; [auto|apply (Live_incl _ K); auto]).
  destruct (minv_pair _ _ _ _ H LF O) as (Lo & _ & Oo & _). destruct (EX o Lo) as [Ko|Wo]; auto.
  right. apply IE, filter_In. split; [now apply in_alle|]. destruct (inK h K o) eqn:X; auto. exfalso.
  apply inK_iff in X as (e' & f & E1 & F1 & If). assert (e' = e) by congruence. subst e'.
  destruct LF as (g & Ig & Ie). destruct (floop_in _ _ _ _ (Lf_of _ _ _ H Ig) Ie) as (_ & Fg & _). assert (g = f) by congruence. subst g.
  destruct L as [L|I].
  - apply (DJ e); auto. exists f; auto.
  - apply IE, filter_In in I as (_ & I). assert (Y : inK h K e = true); [|rewrite Y in I; discriminate].
    apply inK_iff. destruct Ko as (k & Ik & Io). exists o, k. split; auto. split; auto.
    now apply (floop_in _ _ _ _ (Lf_of _ _ _ H (IK _ Ik)) Io).
Qed.
Lemma NoDup_without K fs : NoDup fs -> NoDup (without K fs).
Proof. apply NoDup_filter. Qed.
End Mesh.
