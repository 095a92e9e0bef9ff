(** add_vertex keeps the mesh invariant. *)
From Coq Require Import List Arith Lia Bool Permutation.
From Verif Require Import Model_Base Proof_Base Model_Mesh Spec_Mesh Proof_Mesh Proof_Mesh2 Proof_Mesh3 Proof_Mesh4 Proof_Mesh5 Proof_Mesh6.
Import ListNotations.
Local Open Scope nat_scope.

Section Mesh.
Context {C : Type}.
Implicit Types (h : heap C) (fs l es K N : list nat) (f e o v x y : nat) (p : ptr).

Lemma minv_av h fs c : minv h fs -> minv (av h c) fs /\ (forall f, In f fs -> Lf (av h c) f = Lf h f).
Proof.
  intros H.
  assert (LL : forall f, In f fs -> Lf (av h c) f = Lf h f).
  { intros f If. apply (Lf_frame h _ f (Lf h f)); auto. - now apply (Lf_of _ fs). - rewrite nv_av; lia. }
  split; [|exact LL]. apply (minv_intro _ _ (Lf h)); [apply H| |].
  - intros f If. apply (floop_frame h); auto. + now apply (Lf_of _ fs). + rewrite nv_av; lia.
  - intros f e o If Ie Ho. destruct H as (_ & _ & D). destruct (D e o) as (A & R); [exists f; auto|exact Ho|]. split; auto.
Qed.

Definition tri_loop h es f : list nat :=
  let i := f - nf h in [nth i es 0; ne h + 2 * i; ne h + 2 * i + 1].

Lemma based_of h fs e : minv h fs -> Live h fs e -> based h e.
Proof.
  intros H Le. pose proof H as (_ & HL & _).
  destruct (Live_e _ _ _ HL Le) as (B & _ & _ & _ & (q & Pq & Lq & _) & (s & Ss & Bs)).
  split; auto. exists q, s. split; auto. split; [now apply (Live_lt _ _ _ H)|]. unfold st in Ss. rewrite Pq in Ss. auto.
Qed.

Lemma refill h fs K es v : minv h fs -> incl K fs -> NoDup K -> NoDup es -> es <> [] -> v < nv h ->
  (forall e, In e es -> Live h fs e /\ ~ Live h K e) ->
  (forall i, i < length es -> en h (nth i es 0) = st h (cyc es (i + 1))) ->
  (forall e o, Live h K e \/ In e es -> op h e = Some o -> Live h K o \/ In o es) ->
  exists h', add_vertex h es v = Ok (h', seq (nf h) (length es)) /\
    minv h' (K ++ seq (nf h) (length es)) /\
    (forall f, In f K -> Lf h' f = Lf h f) /\
    (forall i, i < length es -> Lf h' (nf h + i) = [nth i es 0; ne h + 2 * i; ne h + 2 * i + 1]) /\
    (forall i, i < length es -> en h' (nth i es 0) = en h (nth i es 0) /\ en h' (ne h + 2 * i) = Some v /\
       en h' (ne h + 2 * i + 1) = st h (nth i es 0) /\ op h' (nth i es 0) = op h (nth i es 0) /\
       op h' (ne h + 2 * i) = Some (ne h + 2 * ((i + 1) mod length es) + 1)) /\
    (forall x, x < ne h -> ~ In x es -> E h' x = E h x) /\
    (forall x, vco h' x = vco h x) /\ ne h' = ne h + 2 * length es /\ nv h' = nv h /\ nf h' = nf h + length es /\
    (forall x, x <> v -> ve h x <> None -> ve h' x = ve h x) /\ ve h' v = Some (ne h).
Proof.
  intros H IK NK ND NE Bv HE HC HO. pose proof H as (_ & HL & _).
  set (n := length es). assert (Hn : 0 < n) by (unfold n; destruct es; [congruence|cbn; lia]).
  destruct (add_vertex_ok h es v) as (h' & B0 & B1 & B2 & B3 & B4 & B5 & B6 & B7 & B8 & B9 & B10 & B11 & B12); auto.
  { intros e Ie. apply (based_of h fs); auto. now apply HE. }
  fold n in B0, B1, B3, B6, B7, B8, B9.
  assert (LtE : forall i, i < n -> nth i es 0 < ne h).
  { intros i Hi. apply (Live_lt _ _ _ H). apply HE, nth_In; auto. }
  exists h'. split; [exact B0|].
  (* the new loops *)
  assert (FLN : forall i, i < n -> floop h' (nf h + i) [nth i es 0; ne h + 2 * i; ne h + 2 * i + 1]).
  { intros i Hi. specialize (LtE i Hi).
    assert (LV : Live h fs (nth i es 0)) by (apply HE, nth_In; auto).
    destruct (Live_e _ _ _ HL LV) as (_ & _ & (b & Eb & Bb) & _ & _ & (a & Sa & Ba)).
    split; [cbn; lia|]. split; [repeat constructor; cbn; lia|]. split; [lia|]. split; [now rewrite B6|].
    intros j Hj. cbn in Hj. unfold fc, nx, pv, en, cyc. destruct j as [|[|[|j]]]; [| | |lia]; cbn [nth].
    - rewrite B7 by auto. cbn. split; [lia|]. repeat (split; [reflexivity|]). exists b. split; auto. lia.
    - rewrite B8 by auto. cbn. split; [lia|]. repeat (split; [reflexivity|]). exists v. split; auto. lia.
    - rewrite B9 by auto. cbn. split; [lia|]. repeat (split; [reflexivity|]). exists a. split; auto. lia. }
  assert (KE : forall e, Live h K e -> e < ne h /\ ~ In e es).
  { intros e Le. split; [apply (Live_lt _ _ _ H); now apply (Live_incl _ K)|]. intros I. now apply (HE e I). }
  assert (KF : forall e, Live h K e -> E h' e = E h e) by (intros e Le; destruct (KE e Le); auto).
  assert (SK : forall e, Live h K e -> st h' e = st h e).
  { intros e (f & If & Ie). apply (floop_st_frame h h' f (Lf h f)); auto.
    intros x Ix. unfold en, pv. rewrite KF; [auto|exists f; auto]. }
  assert (SE : forall i, i < n -> st h' (nth i es 0) = st h (nth i es 0)).
  { intros i Hi. unfold st, pv, en. rewrite B7 by auto. cbn [he_prev]. rewrite B9 by auto. reflexivity. }
  assert (EE : forall i, i < n -> en h' (nth i es 0) = en h (nth i es 0)).
  { intros i Hi. unfold en. rewrite B7 by auto. reflexivity. }
  assert (OE : forall i, i < n -> op h' (nth i es 0) = op h (nth i es 0)).
  { intros i Hi. unfold op. rewrite B7 by auto. reflexivity. }
  assert (INE : forall e, In e es -> exists i, i < n /\ e = nth i es 0).
  { intros e Ie. apply (In_nth _ _ 0) in Ie as (i & Hi & <-). eauto. }
  (* the old opposites *)
  assert (OLD : forall e o, Live h K e \/ In e es -> op h' e = Some o ->
     (Live h K o \/ exists g, In g (seq (nf h) n) /\ In o (tri_loop h es g)) /\ o <> e /\ op h' o = Some e /\ rev_pair h' e o).
  { intros e o Le Ho.
    assert (Fe : op h' e = op h e /\ en h' e = en h e /\ st h' e = st h e).
    { destruct Le as [Le|Ie]; [unfold op, en; rewrite KF, SK by auto; auto|].
      destruct (INE e Ie) as (i & Hi & ->). auto. }
    destruct Fe as (Fo & Fe & Fs). rewrite Fo in Ho.
    assert (LV : Live h fs e) by (destruct Le as [Le|Ie]; [now apply (Live_incl _ K)|now apply HE]).
    destruct (minv_pair _ _ _ _ H LV Ho) as (P1 & P2 & P3 & P4 & P5).
    pose proof (HO e o Le Ho) as Lo.
    assert (Go : op h' o = op h o /\ en h' o = en h o /\ st h' o = st h o).
    { destruct Lo as [Lo|Io]; [unfold op, en; rewrite KF, SK by auto; auto|].
      destruct (INE o Io) as (i & Hi & ->). auto. }
    destruct Go as (Go & Ge & Gs). split; [|split; [auto|split; [congruence|unfold rev_pair; rewrite Fe, Fs, Ge, Gs; auto]]].
    destruct Lo as [Lo|Io]; auto. right. destruct (INE o Io) as (i & Hi & ->). exists (nf h + i).
    split; [apply in_seq; lia|]. unfold tri_loop. replace (nf h + i - nf h) with i by lia. cbn; auto. }
  assert (M : minv h' (K ++ seq (nf h) n) /\ (forall e, Live h K e -> st h' e = st h e)).
  { apply (minv_build h h' fs K (seq (nf h) n) (tri_loop h es)); auto; try lia.
    - apply NoDup_app_intro; auto; [apply seq_NoDup|]. intros f If J. apply in_seq in J.
      apply IK, (minv_lt _ _ _ H) in If. lia.
    - intros f If. apply B5. apply IK, (minv_lt _ _ _ H) in If. lia.
    - intros e Le. unfold en, fc, nx, pv. rewrite KF by auto. auto.
    - intros f If. apply in_seq in If. unfold tri_loop. replace f with (nf h + (f - nf h)) at 1 by lia. apply FLN. lia.
    - intros g e o Ig Ie Ho. apply in_seq in Ig. unfold tri_loop in Ie. set (i := g - nf h) in *.
      assert (Hi : i < n) by (unfold i; lia). destruct Ie as [<-|[<-|[<-|[]]]].
      + apply OLD; auto. right. apply nth_In; auto.
      + unfold op in Ho. rewrite B8 in Ho by auto. cbn in Ho. injection Ho as <-.
        set (j := (i + 1) mod n). assert (Hj : j < n) by (apply Nat.mod_upper_bound; lia).
        split.
        { right. exists (nf h + j). split; [apply in_seq; lia|]. unfold tri_loop. replace (nf h + j - nf h) with j by lia. cbn; auto. }
        split; [lia|].
        assert (JJ : (j + n - 1) mod n = i).
        { unfold j. destruct (Nat.eq_dec (i + 1) n) as [Q|Q].
          - rewrite Q, Nat.mod_same by lia. rewrite Nat.mod_small by lia. lia.
          - rewrite (Nat.mod_small (i + 1)) by lia. replace (i + 1 + n - 1) with (i + 1 * n) by lia.
            rewrite Nat.mod_add, Nat.mod_small by lia. auto. }
        split.
        { unfold op. change (ne h + (j + (j + 0)) + 1) with (ne h + 2 * j + 1). rewrite B9 by auto. cbn [he_opp]. now rewrite JJ. }
        change (ne h + (j + (j + 0)) + 1) with (ne h + 2 * j + 1).
        unfold rev_pair, st, pv, en. rewrite !B8, !B9 by auto. cbn [he_prev he_vertex]. rewrite B7, B8 by auto. cbn [he_vertex].
        split; auto. symmetry. apply HC; auto.
      + unfold op in Ho. rewrite B9 in Ho by auto. cbn in Ho. injection Ho as <-.
        set (j := (i + n - 1) mod n). assert (Hj : j < n) by (apply Nat.mod_upper_bound; lia).
        change (ne h + (j + (j + 0))) with (ne h + 2 * j). change (ne h + (i + (i + 0)) + 1) with (ne h + 2 * i + 1).
        split.
        { right. exists (nf h + j). split; [apply in_seq; lia|]. unfold tri_loop. replace (nf h + j - nf h) with j by lia. cbn; auto. }
        split; [lia|].
        assert (JJ : (j + 1) mod n = i).
        { unfold j. destruct (Nat.eq_dec i 0) as [Q|Q].
          - rewrite Q. rewrite (Nat.mod_small (0 + n - 1)) by lia. replace (0 + n - 1 + 1) with n by lia. now rewrite Nat.mod_same by lia.
          - replace (i + n - 1) with (i - 1 + 1 * n) by lia. rewrite Nat.mod_add, (Nat.mod_small (i - 1)) by lia.
            rewrite Nat.mod_small by lia. lia. }
        split.
        { unfold op. rewrite B8 by auto. cbn [he_opp]. now rewrite JJ. }
        unfold rev_pair, st, pv, en. rewrite !B8, !B9 by auto. cbn [he_prev he_vertex]. rewrite B7, B8 by auto. cbn [he_vertex].
        split; auto. pose proof (HC j Hj) as Q. unfold cyc in Q. fold n in Q. rewrite JJ in Q. exact Q. }
  destruct M as [M _]. split; [exact M|].
  split.
  { intros f If. apply Lf_ok. pose proof (IK _ If) as If'. apply (floop_frame h); auto; try lia.
    - apply B5. now apply (minv_lt _ fs).
    - intros e Ie. unfold en, fc, nx, pv. rewrite KF by (exists f; auto). auto. }
  split; [intros i Hi; apply Lf_ok; auto|].
  split.
  { intros i Hi. split; [auto|]. split; [unfold en; now rewrite B8|]. split; [unfold en; now rewrite B9|]. split; [auto|].
    unfold op; now rewrite B8. }
  split; [auto|]. split; [auto|]. split; [auto|]. split; [auto|]. split; [auto|]. auto.
Qed.

(** add_vertex on a face of the mesh: the face is replaced by the fan. *)
Lemma loop_chain h f l i : floop h f l -> i < length l -> en h (nth i l 0) = st h (cyc l (i + 1)).
Proof.
  intros H Hi. assert (Ie : In (nth i l 0) l) by now apply nth_In.
  destruct (floop_in _ _ _ _ H Ie) as (_ & _ & _ & (x & Nx & Ix & Px) & _).
  pose proof H as (_ & _ & _ & _ & H4). destruct (H4 i Hi) as (_ & _ & Q & _). rewrite Q in Nx. injection Nx as <-.
  unfold st. now rewrite Px.
Qed.

Lemma add_vertex_face_minv h k1 f k2 v : minv h (k1 ++ f :: k2) -> v < nv h ->
  exists h', add_vertex_face h f v = Ok (h', seq (nf h) (length (Lf h f))) /\
    minv h' ((k1 ++ k2) ++ seq (nf h) (length (Lf h f))).
Proof.
  intros H Bv. assert (If : In f (k1 ++ f :: k2)) by apply in_elt. pose proof (Lf_of _ _ _ H If) as FL.
  unfold add_vertex_face. rewrite (getFaceEdges_ok _ _ _ FL). cbn [bind].
  assert (NK : ~ In f (k1 ++ k2)) by (apply NoDup_remove_2, H).
  assert (IK : incl (k1 ++ k2) (k1 ++ f :: k2)) by (intros g; rewrite !in_app_iff; cbn; tauto).
  assert (NL : forall e, In e (Lf h f) -> ~ Live h (k1 ++ k2) e).
  { intros e Ie (g & Ig & Ie'). apply NK. replace f with g; auto.
    apply (floop_face h g f (Lf h g) (Lf h f) e); auto. apply (Lf_of _ _ _ H); auto. }
  destruct (refill h (k1 ++ f :: k2) (k1 ++ k2) (Lf h f) v) as (h' & A0 & A1 & _); auto.
  - apply NoDup_remove_1 with f, H.
  - apply FL.
  - destruct FL as (X & _). intros Q. rewrite Q in X. cbn in X. lia.
  - intros e Ie. split; [exists f; auto|auto].
  - intros i Hi. now apply (loop_chain h f).
  - intros e o Le Ho. assert (LV : Live h (k1 ++ f :: k2) e).
    { destruct Le as [Le|Ie]; [now apply (Live_incl _ (k1 ++ k2))|exists f; auto]. }
    destruct (minv_pair _ _ _ _ H LV Ho) as ((g & Ig & Io) & _).
    destruct (Nat.eq_dec g f) as [->|Ng]; [now right|]. left. exists g. split; auto.
    rewrite !in_app_iff in *. cbn in Ig. intuition congruence.
  - exists h'. auto.
Qed.
End Mesh.
