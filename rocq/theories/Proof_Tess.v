(** Triangulations in the plane: sums over half-edges and the insertion of a point. *)
From Coq Require Import List Arith Lia Bool Reals Lra Permutation ZArith.
From Verif Require Import Model_Base Model_Mesh Model_Geom Model_Tess Spec_Mesh Spec_MeshEdit Spec_Geom Proof_Base
  Proof_Mesh Proof_Mesh2 Proof_Mesh3 Proof_Mesh4 Proof_Mesh9 Proof_PropMesh Proof_PropMesh2 Proof_Plane.
Import ListNotations.
Local Open Scope nat_scope.

(** ** Sums *)
Fixpoint sumR {A} (f : A -> R) (l : list A) : R := match l with [] => 0%R | a :: t => (f a + sumR f t)%R end.
Lemma sumR_app {A} (f : A -> R) l m : sumR f (l ++ m) = (sumR f l + sumR f m)%R.
Proof. induction l as [|a l IH]; cbn; [lra|]. rewrite IH. lra. Qed.
Lemma sumR_perm {A} (f : A -> R) l m : Permutation l m -> sumR f l = sumR f m.
Proof. induction 1; cbn; lra. Qed.
Lemma sumR_ext {A} (f g : A -> R) l : (forall a, In a l -> f a = g a) -> sumR f l = sumR g l.
Proof. induction l as [|a l IH]; intros H; [reflexivity|]. cbn. rewrite H by now left. f_equal. apply IH. intros b Hb. apply H. now right. Qed.
Lemma sumR_map {A B} (f : B -> R) (g : A -> B) l : sumR f (map g l) = sumR (fun a => f (g a)) l.
Proof. induction l; cbn; congruence. Qed.
Lemma sumR_opp {A} (f : A -> R) l : sumR (fun a => (- f a)%R) l = (- sumR f l)%R.
Proof. induction l as [|a l IH]; cbn; [lra|]. rewrite IH. lra. Qed.
Lemma sumR_plus {A} (f g : A -> R) l : sumR (fun a => (f a + g a)%R) l = (sumR f l + sumR g l)%R.
Proof. induction l as [|a l IH]; cbn; [lra|]. rewrite IH. lra. Qed.
Lemma sumR_flat {A B} (f : B -> R) (g : A -> list B) l : sumR f (flat_map g l) = sumR (fun a => sumR f (g a)) l.
Proof. induction l as [|a l IH]; cbn; [reflexivity|]. rewrite sumR_app, IH. reflexivity. Qed.

Section Coords.
Notation C := (R * R)%type.
Implicit Types (h : heap C) (fs K l es : list nat) (f e : nat).

(** coordinates of a vertex, of the end and of the start of a half-edge *)
Definition co h (p : ptr) : C := match p with Some v => match vco h v with Some c => c | None => (0, 0)%R end | None => (0, 0)%R end.
Definition ec h e := co h (en h e).
Definition sc h e := co h (st h e).

Definition G (g : C -> C -> R) h l : R := sumR (fun e => g (sc h e) (ec h e)) l.

Section Weight.
Variable g : C -> C -> R.
Hypothesis anti : forall a b, g b a = (- g a b)%R.

Lemma interior_iff h fs K : minv h fs -> incl K fs -> forall e, In e (filter (inK h K) (alle h K)) <-> Live h K e /\ exists o, op h e = Some o /\ Live h K o.
Proof.
  intros H IK e. rewrite filter_In, in_alle, inK_iff. split.
  - intros (Le & o & f & Ho & Fo & If). split; auto. exists o. split; auto.
    destruct (minv_pair _ _ _ _ H (Live_incl _ _ _ _ IK Le) Ho) as ((k & Ig & Io) & _).
    assert (fc h o = Some k) by (apply (floop_in _ _ _ _ (Lf_of _ _ _ H Ig) Io)). assert (k = f) by congruence. subst k. exists f; auto.
  - intros (Le & o & Ho & (f & If & Io)). split; auto. exists o, f. split; auto. split; auto.
    apply (floop_in _ _ _ _ (Lf_of _ _ _ H (IK _ If)) Io).
Qed.
Lemma interior_zero h fs K : minv h fs -> incl K fs -> NoDup K -> G g h (filter (inK h K) (alle h K)) = 0%R.
Proof.
  intros H IK NK. set (I := filter (inK h K) (alle h K)).
  assert (HI := interior_iff h fs K H IK). fold I in HI.
  assert (NI : NoDup I) by (apply NoDup_filter, (NoDup_alle h fs); auto).
  assert (P : Permutation (map (opn h) I) I).
  { apply NoDup_Permutation_bis.
    - apply NoDup_map_inv with (f := opn h). rewrite map_map. rewrite (map_ext_in _ (fun e => e)); [now rewrite map_id|].
      intros e Ie. apply HI in Ie as (Le & o & Ho & Lo). unfold opn at 2. rewrite Ho. unfold opn.
      destruct (minv_pair _ _ _ _ H (Live_incl _ _ _ _ IK Le) Ho) as (_ & _ & Q & _). now rewrite Q.
    - now rewrite map_length.
    - intros x Ix. apply in_map_iff in Ix as (e & <- & Ie). apply HI in Ie as (Le & o & Ho & Lo). unfold opn. rewrite Ho.
      apply HI. split; auto. exists e. split; auto. apply (minv_pair _ _ _ _ H (Live_incl _ _ _ _ IK Le) Ho). }
  assert (Q : G g h (map (opn h) I) = (- G g h I)%R).
  { unfold G. rewrite sumR_map, <- sumR_opp. apply sumR_ext. intros e Ie. apply HI in Ie as (Le & o & Ho & Lo).
    unfold opn. rewrite Ho. destruct (minv_pair _ _ _ _ H (Live_incl _ _ _ _ IK Le) Ho) as (_ & _ & _ & Q1 & Q2).
    unfold sc, ec. rewrite Q1, Q2. apply anti. }
  unfold G in *. rewrite (sumR_perm _ _ _ P) in Q. lra.
Qed.
Lemma cavity_sum h fs K es : minv h fs -> incl K fs -> NoDup K -> getOrientedFacesBoundaries h K = Ok [es] ->
  G g h (alle h K) = G g h es /\ (forall ph : ptr -> R, sumR (fun e => ph (en h e)) es = sumR (fun e => ph (st h e)) es).
Proof.
  intros H IK NK HB. destruct (oriented_ok h fs K H IK NK) as (ls & A & P & _). rewrite HB in A. injection A as <-.
  cbn [concat] in P. rewrite app_nil_r in P. split.
  - unfold G. rewrite (sumR_perm _ _ _ (filter_perm (inK h K) (alle h K))), sumR_app.
    rewrite (sumR_perm _ _ _ P). pose proof (interior_zero h fs K H IK NK) as Z. unfold G in Z. rewrite Z. lra.
  - intros ph. rewrite <- (sumR_map ph (en h)), <- (sumR_map ph (st h)). apply sumR_perm.
    pose proof (boundary_balanced h fs K H IK NK) as B.
    apply (Permutation_count_occ ptr_dec). intros p. 
    rewrite (count_occ_perm _ _ (Permutation_map (en h) P)), (count_occ_perm _ _ (Permutation_map (st h) P)). apply B.
Qed.

(** The weights of the mesh do not change when the cavity is filled. *)
Lemma fill_sum h fs K es c h' : minv h fs -> incl K fs -> NoDup K -> getOrientedFacesBoundaries h K = Ok [es] ->
  minv h' (without K fs ++ seq (nf h) (length es)) ->
  (forall f, In f (without K fs) -> Lf h' f = Lf h f) ->
  (forall i, i < length es -> Lf h' (nf h + i) = [nth i es 0; ne h + 2 * i; ne h + 2 * i + 1]) ->
  (forall i, i < length es -> en h' (nth i es 0) = en h (nth i es 0) /\ en h' (ne h + 2 * i) = Some (nv h) /\
       en h' (ne h + 2 * i + 1) = st h (nth i es 0) /\ op h' (nth i es 0) = op h (nth i es 0)) ->
  (forall x, x < ne h -> ~ In x es -> E h' x = E h x) ->
  (forall x, vco h' x = if x =? nv h then Some c else vco h x) ->
  G g h' (alle h' (without K fs ++ seq (nf h) (length es))) = G g h (alle h fs) /\
  (forall f e, In f (without K fs) -> In e (Lf h f) -> sc h' e = sc h e /\ ec h' e = ec h e) /\
  (forall i, i < length es -> let e := nth i es 0 in
     ec h' e = ec h e /\ ec h' (ne h + 2 * i) = c /\ ec h' (ne h + 2 * i + 1) = sc h e /\
     sc h' e = sc h e /\ sc h' (ne h + 2 * i) = ec h e /\ sc h' (ne h + 2 * i + 1) = c).
Proof.
  intros H IK NK HB H' L1 L2 HE HX HV.
  destruct (oriented_ok h fs K H IK NK) as (ls & A & P & _). rewrite HB in A. injection A as <-.
  cbn [concat] in P. rewrite app_nil_r in P.
  assert (ESK : forall e, In e es -> Live h K e).
  { intros e Ie. apply (Permutation_in _ P) in Ie. apply filter_In in Ie as [Ie _]. now apply in_alle. }
  assert (CO : forall p, (forall v, p = Some v -> v < nv h) -> co h' p = co h p).
  { intros [v|] Hp; auto. unfold co. rewrite HV. specialize (Hp v eq_refl). destruct (Nat.eqb_spec v (nv h)); [lia|auto]. }
  assert (KE : forall f e, In f (without K fs) -> In e (Lf h f) -> sc h' e = sc h e /\ ec h' e = ec h e).
  { intros f e If Ie. pose proof (proj1 (in_without _ _ _) If) as (If0 & NK0).
    pose proof (Lf_of _ _ _ H If0) as LO.
    assert (SAME : forall x, In x (Lf h f) -> E h' x = E h x).
    { intros x Ix. apply HX; [apply (floop_in _ _ _ _ LO Ix)|]. intros J. apply ESK in J as (k & Ik & Jx).
      apply NK0. rewrite <- (floop_face h k f (Lf h k) (Lf h f) x); auto. apply (Lf_of _ _ _ H). auto. }
    destruct (floop_in _ _ _ _ LO Ie) as (_ & _ & (v & Hv & Bv) & _).
    destruct (floop_st _ _ _ _ LO Ie) as (w & pe & Hw & Bw & Hp & Ip & _ & Hpe).
    unfold sc, ec. split.
    - assert (Q : st h' e = st h e) by (unfold st, pv; rewrite (SAME e Ie); fold (pv h e); rewrite Hp; unfold en; now rewrite (SAME pe Ip)).
      rewrite Q. apply CO. intros z Z. congruence.
    - unfold en. rewrite (SAME e Ie). fold (en h e). apply CO. intros z Z. congruence. }
  assert (NE : forall i, i < length es -> let e := nth i es 0 in
     ec h' e = ec h e /\ ec h' (ne h + 2 * i) = c /\ ec h' (ne h + 2 * i + 1) = sc h e /\
     sc h' e = sc h e /\ sc h' (ne h + 2 * i) = ec h e /\ sc h' (ne h + 2 * i + 1) = c).
  { intros i Hi e. destruct (HE i Hi) as (E1 & E2 & E3 & _). fold e in E1, E3.
    assert (Ie : In e es) by (now apply nth_In).
    destruct (ESK e Ie) as (f & If & Jf). pose proof (Lf_of _ _ _ H (IK _ If)) as LO.
    destruct (floop_in _ _ _ _ LO Jf) as (_ & _ & (v & Hv & Bv) & _).
    destruct (floop_st _ _ _ _ LO Jf) as (w & pe & Hw & Bw & _).
    assert (LN : floop h' (nf h + i) (Lf h' (nf h + i))).
    { apply (Lf_of _ _ _ H'). apply in_or_app. right. apply in_seq. lia. }
    rewrite L2 in LN by auto. fold e in LN.
    assert (C1 : ec h' e = ec h e) by (unfold ec; rewrite E1; apply CO; intros z Z; congruence).
    assert (C2 : ec h' (ne h + 2 * i) = c) by (unfold ec; rewrite E2; unfold co; rewrite HV, Nat.eqb_refl; reflexivity).
    assert (C3 : ec h' (ne h + 2 * i + 1) = sc h e) by (unfold ec, sc; rewrite E3; apply CO; intros z Z; congruence).
    destruct LN as (_ & _ & _ & _ & LN).
    destruct (LN 0 ltac:(cbn; lia)) as (_ & _ & _ & P0 & _). destruct (LN 1 ltac:(cbn; lia)) as (_ & _ & _ & P1 & _). destruct (LN 2 ltac:(cbn; lia)) as (_ & _ & _ & P2 & _).
    cbn [nth length cyc Nat.add Nat.sub] in P0, P1, P2. unfold cyc in P0, P1, P2.
    cbn [Nat.modulo Nat.divmod nth length snd Nat.sub] in P0, P1, P2.
    repeat (split; [assumption|]). unfold sc at 1, st. rewrite P0.
    split; [exact C3|]. unfold sc at 1, st. rewrite P1. split; [exact C1|]. unfold sc, st. rewrite P2. exact C2. }
  split; [|split; [exact KE|exact NE]].
  assert (SP : G g h (alle h fs) = (G g h (alle h (without K fs)) + G g h (alle h K))%R).
  { unfold G. rewrite <- sumR_app. apply sumR_perm. unfold alle. rewrite <- flat_map_app. apply Permutation_flat_map.
    apply NoDup_Permutation; [apply H| |].
    - apply NoDup_app_intro; [apply NoDup_without, H|auto|]. intros x Ix J. apply in_without in Ix as (_ & Ix). auto.
    - intros x. rewrite in_app_iff, in_without. split; [|intros [[]|]; auto]. intros Ix. destruct (in_dec Nat.eq_dec x K); auto. }
  rewrite SP. destruct (cavity_sum h fs K es H IK NK HB) as (CS & BAL). rewrite CS. clear SP CS.
  unfold alle. rewrite flat_map_app. unfold G. rewrite sumR_app. f_equal.
  - rewrite !sumR_flat. apply sumR_ext. intros f If. rewrite L1 by auto. apply sumR_ext. intros e Ie.
    destruct (KE f e If Ie) as (-> & ->). reflexivity.
  - rewrite sumR_flat.
    rewrite (sumR_ext _ (fun k => let e := nth (k - nf h) es 0 in (g (sc h e) (ec h e) + (g (co h (en h e)) c + - g (co h (st h e)) c))%R)).
    2:{ intros k Ik. apply in_seq in Ik. replace k with (nf h + (k - nf h)) at 1 by lia. rewrite L2 by lia. cbn [sumR].
        destruct (NE (k - nf h)) as (X1 & X2 & X3 & X4 & X5 & X6); [lia|]. cbn zeta. rewrite X1, X2, X3, X4, X5, X6.
        rewrite (anti (sc h (nth (k - nf h) es 0)) c). unfold ec, sc. lra. }
    rewrite <- (sumR_map (fun e => (g (sc h e) (ec h e) + (g (co h (en h e)) c + - g (co h (st h e)) c))%R) (fun k => nth (k - nf h) es 0)).
    assert (M : map (fun k => nth (k - nf h) es 0) (seq (nf h) (length es)) = es).
    { apply nth_ext with 0 0; [now rewrite map_length, seq_length|]. intros i Hi. rewrite map_length, seq_length in Hi.
      rewrite (nth_indep _ 0 (nth (0 - nf h) es 0)) by (now rewrite map_length, seq_length).
      rewrite (map_nth (fun k => nth (k - nf h) es 0)). rewrite seq_nth by auto. f_equal. lia. }
    rewrite M, sumR_plus. rewrite sumR_plus, sumR_opp.
    rewrite (BAL (fun p => g (co h p) c)). lra.
Qed.
End Weight.
End Coords.
