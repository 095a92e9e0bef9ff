(** The mesh invariant is kept: new faces, add_face, links, removal of faces. *)
From Coq Require Import List Arith Lia Bool.
From Verif Require Import Model_Base Proof_Base Model_Mesh Spec_Mesh Proof_Mesh Proof_Mesh2.
Import ListNotations.
Local Open Scope nat_scope.

Ltac lsteps := repeat (rewrite ?ne_ue, ?ne_uf, ?ne_uv, ?ne_ae, ?ne_af, ?ne_av, ?ne_lk, ?ne_mke, ?nv_ue, ?nv_uf, ?nv_uv, ?nv_ae, ?nv_af, ?nv_av, ?nv_lk, ?nv_mke, ?nf_ue, ?nf_uf, ?nf_uv, ?nf_ae, ?nf_af, ?nf_av, ?nf_lk, ?nf_mke).

Lemma NoDup_snoc {A} (l : list A) a : NoDup l -> ~ In a l -> NoDup (l ++ [a]).
Proof.
  intros H N. apply NoDup_rev in H. rewrite <- (rev_involutive (l ++ [a])). apply NoDup_rev.
  rewrite rev_app_distr. cbn. constructor; auto. now rewrite <- in_rev.
Qed.
Lemma NoDup_app_intro {A} (l m : list A) : NoDup l -> NoDup m -> (forall a, In a l -> ~ In a m) -> NoDup (l ++ m).
Proof.
  induction l as [|a l IH]; intros H K D; [auto|]. inversion H; subst. cbn. constructor.
  - intros I. apply in_app_or in I as [I|I]; [auto|]. apply (D a); [now left|auto].
  - apply IH; auto. intros b Ib. apply D. now right.
Qed.

Section Mesh.
Context {C : Type}.
Implicit Types (h : heap C) (fs l es : list nat) (f e o v x y : nat) (p : ptr).

Lemma minv_intro h fs (L : nat -> list nat) : NoDup fs -> (forall f, In f fs -> floop h f (L f)) ->
  (forall f e o, In f fs -> In e (L f) -> op h e = Some o ->
     (exists g, In g fs /\ In o (L g)) /\ o <> e /\ op h o = Some e /\ en h o = st h e /\ st h o = en h e) ->
  minv h fs.
Proof.
  intros H1 H2 H3.
  assert (EL : forall f, In f fs -> Lf h f = L f) by (intros f If; apply Lf_ok; auto).
  split; [auto|]. split; [intros f If; rewrite EL by auto; auto|].
  intros e o (f & If & Ie) Ho. rewrite EL in Ie by auto.
  destruct (H3 f e o If Ie Ho) as ((g & Ig & Io) & R).
  split; [|exact R]. exists g. rewrite EL; auto.
Qed.
Lemma minv_lt h fs f : minv h fs -> In f fs -> f < nf h.
Proof. intros (_ & H & _) If. apply H in If. apply If. Qed.
Lemma minv_fresh h fs : minv h fs -> ~ In (nf h) fs.
Proof. intros H I. apply (minv_lt _ _ _ H) in I. lia. Qed.
Lemma floop_st_frame h h' f l e : floop h f l -> In e l ->
  (forall e, In e l -> en h' e = en h e /\ pv h' e = pv h e) -> st h' e = st h e.
Proof.
  intros H Ie HE. destruct (floop_st _ _ _ _ H Ie) as (v & p & A & B & D & G & _).
  unfold st. rewrite (proj2 (HE e Ie)), D. apply HE. auto.
Qed.
Lemma Lf_of h fs f : minv h fs -> In f fs -> floop h f (Lf h f).
Proof. intros (_ & H & _); auto. Qed.

(** ** A face from coordinates *)
Lemma make_edges_at_ok : forall cs h, exists h', make_edges_at h cs = Ok (h', seq (ne h) (length cs)) /\
  ne h' = ne h + length cs /\ nv h' = nv h + length cs /\ nf h' = nf h /\
  (forall f, F h' f = F h f) /\ (forall x, x < ne h -> E h' x = E h x) /\
  (forall i, i < length cs -> E h' (ne h + i) = newe (nv h + i) None) /\
  (forall v, v < nv h -> ve h' v = ve h v /\ vco h' v = vco h v) /\
  (forall i, i < length cs -> ve h' (nv h + i) = Some (ne h + i)) /\
  (forall i c, nth_error cs i = Some c -> vco h' (nv h + i) = Some c).
Proof.
  induction cs as [|c cs IH]; intros h.
  - exists h. cbn. repeat split; auto; try lia. intros [|i] c; discriminate.
  - cbn [make_edges_at]. unfold make_edge_at, make_vertex.
    change (mkh (h_e h) (h_v h ++ [mkhv c None]) (h_f h)) with (av h c).
    change (length (h_v h)) with (nv h).
    rewrite make_edge_ok by (rewrite nv_av; lia). cbn [bind].
    set (h1 := mke (av h c) (nv h) None).
    destruct (IH h1) as (h' & A0 & A1 & A2 & A3 & A4 & A5 & A6 & A7 & A8 & A9). rewrite A0. cbn [bind].
    assert (N1 : ne h1 = S (ne h)) by (unfold h1; now rewrite ne_mke, ne_av).
    assert (N2 : nv h1 = S (nv h)) by (unfold h1; now rewrite nv_mke, nv_av).
    assert (Ve0 : ve h (nv h) = None).
    { unfold ve. destruct (nth_error (h_v h) (nv h)) eqn:Q; auto.
      exfalso. assert (nv h < length (h_v h)) by (apply nth_error_Some; congruence). unfold nv in *. lia. }
    exists h'. cbn [length seq]. rewrite N1. split; [reflexivity|].
    split; [lia|]. split; [lia|]. split; [rewrite A3; reflexivity || (unfold h1; now rewrite nf_mke, nf_av)|].
    split; [intros f; rewrite A4; unfold h1; now rewrite F_mke, F_av|].
    split.
    { intros x Hx. rewrite A5 by lia. unfold h1. rewrite E_mke, ne_av, E_av.
      destruct (Nat.eqb_spec x (ne h)); [lia|reflexivity]. }
    split.
    { intros [|i] Hi.
      - rewrite Nat.add_0_r. rewrite A5 by lia. unfold h1. rewrite E_mke, ne_av, Nat.eqb_refl.
        now rewrite Nat.add_0_r.
      - replace (ne h + S i) with (ne h1 + i) by lia. rewrite A6 by lia.
        replace (nv h + S i) with (nv h1 + i) by lia. reflexivity. }
    split.
    { intros v Hv. destruct (A7 v) as [B1 B2]; [lia|]. rewrite B1, B2. unfold h1.
      rewrite ve_mke by (rewrite nv_av; lia). rewrite vco_mke, !ve_av, vco_av.
      destruct (Nat.eqb_spec v (nv h)); [lia|]. auto. }
    split.
    { intros [|i] Hi.
      - rewrite !Nat.add_0_r. rewrite (proj1 (A7 (nv h) ltac:(lia))). unfold h1.
        rewrite ve_mke by (rewrite nv_av; lia). rewrite Nat.eqb_refl, !ve_av, Ve0, ne_av. reflexivity.
      - replace (nv h + S i) with (nv h1 + i) by lia. rewrite A8 by lia. f_equal; lia. }
    { intros [|i] c' Hc.
      - cbn in Hc. injection Hc as <-. rewrite Nat.add_0_r.
        rewrite (proj2 (A7 (nv h) ltac:(lia))). unfold h1. now rewrite vco_mke, vco_av, Nat.eqb_refl.
      - cbn in Hc. replace (nv h + S i) with (nv h1 + i) by lia. now apply A9. }
Qed.

Lemma nf_edges_at cs h h' es : make_edges_at h cs = Ok (h', es) -> nf h' = nf h.
Proof. intros H. destruct (make_edges_at_ok cs h) as (h1 & A0 & _ & _ & A3 & _). congruence. Qed.

Lemma new_face_ok h fs cs : minv h fs -> 2 <= length cs -> exists h1 h2,
  make_edges_at h cs = Ok (h1, seq (ne h) (length cs)) /\
  make_face h1 (seq (ne h) (length cs)) = Ok (h2, Some (nf h)) /\ minv h2 (fs ++ [nf h]) /\
  floop h2 (nf h) (seq (ne h) (length cs)) /\
  (forall i, i < length cs -> en h2 (ne h + i) = Some (nv h + i) /\ op h2 (ne h + i) = None) /\
  (forall i c, nth_error cs i = Some c -> vco h2 (nv h + i) = Some c) /\
  (forall x, x < ne h -> E h2 x = E h x) /\ (forall f, f < nf h -> F h2 f = F h f) /\
  (forall v, v < nv h -> ve h2 v = ve h v /\ vco h2 v = vco h v).
Proof.
  intros H L. destruct (make_edges_at_ok cs h) as (h1 & A0 & A1 & A2 & A3 & A4 & A5 & A6 & A7 & A8 & A9).
  exists h1. set (es := seq (ne h) (length cs)) in *.
  assert (Les : length es = length cs) by apply seq_length.
  assert (Nes : forall i, i < length cs -> nth i es 0 = ne h + i) by (intros i Hi; apply seq_nth; auto).
  assert (Ies : forall x, In x es <-> ne h <= x < ne h + length cs) by (intros x; apply in_seq).
  destruct (make_face_ok h1 es) as (h2 & B0 & B1 & B2 & B3 & B4 & B5 & B6).
  { apply seq_NoDup. } { lia. } { intros e He. apply Ies in He. lia. }
  rewrite A3 in B0, B3, B4, B5. exists h2. split; [auto|]. split; [auto|].
  assert (FL : floop h2 (nf h) es).
  { rewrite <- A3. rewrite <- A3 in B0. apply (make_face_floop h1 es h2); auto.
    - apply seq_NoDup.
    - lia.
    - intros e He. apply Ies in He. split; [lia|]. unfold en.
      replace e with (ne h + (e - ne h)) by lia. rewrite A6 by lia. cbn. eexists; split; [reflexivity|lia]. }
  assert (NV : nv h2 = nv h + length cs) by (unfold nv in *; rewrite B1; auto).
  assert (EO : forall x, x < ne h -> E h2 x = E h x).
  { intros x Hx. rewrite B6, A5; auto. intros I. apply Ies in I. lia. }
  assert (FO : forall f, f < nf h -> F h2 f = F h f).
  { intros f Hf. rewrite B4, A4. destruct (Nat.eqb_spec f (nf h)); [lia|auto]. }
  assert (EN : forall i, i < length cs -> en h2 (ne h + i) = Some (nv h + i) /\ op h2 (ne h + i) = None).
  { intros i Hi. unfold en, op. rewrite <- Nes by auto. rewrite B5 by lia. cbn. unfold en, op.
    rewrite Nes, A6 by auto. cbn. auto. }
  split; [|split; [auto|split; [auto|split; [|split; [auto|split; [auto|]]]]]].
  - set (L' := fun f => if f =? nf h then es else Lf h f).
    assert (LO : forall f, In f fs -> L' f = Lf h f).
    { intros f If. unfold L'. destruct (Nat.eqb_spec f (nf h)) as [->|]; auto.
      exfalso. apply (minv_fresh _ _ H If). }
    apply (minv_intro h2 _ L').
    + apply NoDup_snoc; [apply H|]. apply minv_fresh; auto.
    + intros f If. apply in_app_or in If as [If|[<-|[]]].
      * rewrite LO by auto. apply (floop_frame h); [now apply Lf_of with fs|lia|lia|lia|apply FO, (minv_lt _ _ _ H If)|].
        intros e Ie. destruct (floop_in _ _ _ _ (Lf_of _ _ _ H If) Ie) as (Le & _).
        unfold en, fc, nx, pv. rewrite EO by auto. auto.
      * unfold L'. rewrite Nat.eqb_refl. auto.
    + intros f e o If Ie Ho. apply in_app_or in If as [If|[<-|[]]].
      * rewrite LO in Ie by auto.
        destruct (floop_in _ _ _ _ (Lf_of _ _ _ H If) Ie) as (Le & _).
        unfold op in Ho. rewrite EO in Ho by auto.
        pose proof H as (_ & HL & H3). destruct (H3 e o) as ((g & Ig & Io) & B & D & G1 & G2).
        { exists f; auto. } { exact Ho. }
        destruct (floop_in _ _ _ _ (Lf_of _ _ _ H Ig) Io) as (Lo & _).
        split; [exists g; rewrite LO by auto; split; [apply in_or_app; auto|auto]|].
        split; [auto|].
        assert (Q : forall x f, In f fs -> In x (Lf h f) -> st h2 x = st h x).
        { intros x f' If' Ix. apply (floop_st_frame h h2 f' (Lf h f')); auto.
          intros y Iy. destruct (floop_in _ _ _ _ (Lf_of _ _ _ H If') Iy) as (Ly & _).
          unfold en, pv. rewrite EO by auto. auto. }
        rewrite (Q e f), (Q o g) by auto. unfold op, en in *. rewrite !EO by auto. auto.
      * unfold L' in Ie. rewrite Nat.eqb_refl in Ie. apply Ies in Ie.
        destruct (EN (e - ne h)) as [_ Q]; [lia|]. replace (ne h + (e - ne h)) with e in Q by lia. congruence.
  - intros i c Hc. unfold vco in *. rewrite B1. now apply A9.
  - intros v Hv. unfold ve, vco in *. rewrite B1. apply A7; auto.
Qed.
End Mesh.
