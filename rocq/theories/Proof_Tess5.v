(** Triangulations: from the specification to the views used in the proofs, and back. *)
From Coq Require Import List Arith Lia Bool Reals Lra Permutation ZArith.
From Verif Require Import Model_Base Model_Mesh Model_Geom Model_Tess Spec_Mesh Spec_MeshEdit Spec_Geom Spec_Tess Proof_Base
  Proof_Mesh Proof_Mesh2 Proof_Mesh3 Proof_Mesh4 Proof_Mesh9 Proof_PropMesh Proof_PropMesh2 Proof_PropMesh3 Proof_Plane Proof_Tess Proof_Tess2 Proof_Tess3 Proof_Tess4.
Import ListNotations.
Local Open Scope nat_scope.

Notation C := (R * R)%type.
Implicit Types (h : heap C) (fs K l es : list nat) (f e : nat) (xy q : C).

Lemma coords_ends h e v : ends h e v -> coords_are h v (ec h e).
Proof.
  intros H. apply ends_iff in H as (A & B & D). destruct (get_v_ok h v D) as (r & _ & X & Y). apply coords_iff. unfold ec, co. rewrite B, Y. reflexivity.
Qed.
Lemma coords_inj h v (a b : C) : coords_are h v a -> coords_are h v b -> a = b.
Proof. rewrite !coords_iff. congruence. Qed.
Lemma coords_starts h f e v : floop h f (Lf h f) -> In e (Lf h f) -> starts h e v -> coords_are h v (sc h e).
Proof.
  intros L I S. destruct S as (r & p & H & P & S). apply is_edge_iff in H as (X & Y). apply coords_ends in S as Z.
  apply ends_iff in S as (S1 & S2 & S3). unfold sc, st, pv. rewrite Y, P. exact Z.
Qed.
Lemma corners_of h f e1 e2 e3 : floop h f (Lf h f) -> Lf h f = [e1; e2; e3] -> corners h f (ec h e1) (ec h e2) (ec h e3).
Proof.
  intros L Q. rewrite Q in L. pose proof L as (_ & _ & _ & _ & _).
  assert (X : forall e, In e [e1; e2; e3] -> exists v, ends h e v).
  { intros e I. destruct (floop_in _ _ _ _ L I) as (A & _ & (v & B & D) & _). exists v. now apply ends_iff. }
  destruct (X e1) as (a & A); [cbn; auto|]. destruct (X e2) as (b & B); [cbn; auto|]. destruct (X e3) as (d & D); [cbn; auto|].
  exists e1, e2, e3, a, b, d. split; [split; [now apply face_loop_iff|auto]|]. auto using coords_ends.
Qed.
Lemma corners_inv h f A B D : corners h f A B D -> exists e1 e2 e3, floop h f (Lf h f) /\ Lf h f = [e1; e2; e3] /\ A = ec h e1 /\ B = ec h e2 /\ D = ec h e3.
Proof.
  intros (e1 & e2 & e3 & a & b & d & (L & Ha & Hb & Hd) & Ca & Cb & Cd). apply face_loop_iff in L. pose proof (Lf_ok _ _ _ L) as Q.
  exists e1, e2, e3. rewrite Q. split; [exact L|]. split; [reflexivity|]. split; [|split]; (eapply coords_inj; [eassumption|now apply coords_ends]).
Qed.
Lemma tri_mesh_iff h fs : tri_mesh h fs <-> tmesh h fs.
Proof.
  unfold tri_mesh, tmesh. rewrite mesh_ok_iff. split; intros (H & X); (split; [exact H|]); intros f If.
  - destruct (X f If) as (A & B & D & Y & W). apply corners_inv in Y as (e1 & e2 & e3 & _ & Q & -> & -> & ->). eauto 6.
  - destruct (X f If) as (e1 & e2 & e3 & Q & W). exists (ec h e1), (ec h e2), (ec h e3). split; auto. apply corners_of; auto. now apply (Lf_of _ fs).
Qed.
Lemma tm_L h fs f : tmesh h fs -> In f fs -> floop h f (Lf h f).
Proof. intros (H & _) If. now apply (Lf_of _ fs). Qed.
Lemma covered_iff h fs q : tmesh h fs -> (covered h fs q <-> region h fs q).
Proof.
  intros TM. unfold covered, region, inc. split.
  - intros (f & A & B & D & If & Y & I). apply corners_inv in Y as (e1 & e2 & e3 & _ & Q & -> & -> & ->). eauto 8.
  - intros (f & If & e1 & e2 & e3 & Q & I). exists f, (ec h e1), (ec h e2), (ec h e3). split; auto. split; auto. apply corners_of; auto. now apply (tm_L _ fs).
Qed.
Lemma no_overlap_iff h fs : tmesh h fs -> (no_overlap h fs <-> no_over h fs).
Proof.
  intros TM. unfold no_overlap, no_over, inf. split.
  - intros N f g q If Ig (e1 & e2 & e3 & Q & I) (e1' & e2' & e3' & Q' & I').
    apply (N f g _ _ _ _ _ _ q If Ig (corners_of _ _ _ _ _ (tm_L _ _ _ TM If) Q) (corners_of _ _ _ _ _ (tm_L _ _ _ TM Ig) Q') I I').
  - intros N f g A B D A' B' D' q If Ig Y Y' I I'. apply corners_inv in Y as (e1 & e2 & e3 & _ & Q & -> & -> & ->).
    apply corners_inv in Y' as (e1' & e2' & e3' & _ & Q' & -> & -> & ->). apply (N f g q); eauto 8.
Qed.
Lemma corner_of_iff h fs q : tmesh h fs -> (corner_of h fs q <-> is_corner h fs q).
Proof.
  intros TM. unfold corner_of, is_corner. split.
  - intros (f & A & B & D & If & Y & I). apply corners_inv in Y as (e1 & e2 & e3 & _ & Q & -> & -> & ->). exists f.
    cbn in I. destruct I as [<-|[<-|[<-|[]]]]; [exists e1|exists e2|exists e3]; rewrite Q; (split; [auto|split; [cbn; auto|reflexivity]]).
  - intros (f & e & If & Ie & <-). pose proof TM as (_ & HT). destruct (HT f If) as (e1 & e2 & e3 & Q & W). exists f, (ec h e1), (ec h e2), (ec h e3).
    split; auto. split; [apply corners_of; auto; now apply (tm_L _ fs)|]. rewrite Q in Ie. cbn in *. destruct Ie as [<-|[<-|[<-|[]]]]; auto.
Qed.
Lemma on_border_iff h fs q : tmesh h fs -> (on_border h fs q <-> on_rim h fs q).
Proof.
  intros TM. pose proof TM as (H & _). pose proof (proj2 (mesh_ok_iff h fs) H) as M. unfold on_border, on_rim. split.
  - intros (e & a & b & A & B & Le & O & S & Ed & CA & CB & I). apply (LiveI _ _ _ M) in Le as (f & If & Ie). exists f, e.
    apply opp_iff in O as (_ & O). split; auto. split; auto. split; auto.
    assert (A = sc h e) by (eapply coords_inj; [exact CA|apply (coords_starts h f); auto; now apply (tm_L _ fs)]).
    assert (B = ec h e) by (eapply coords_inj; [exact CB|now apply coords_ends]). congruence.
  - intros (f & e & If & Ie & O & I). pose proof (tm_L _ _ _ TM If) as L.
    destruct (floop_in _ _ _ _ L Ie) as (B1 & _ & (b & B2 & B3) & _). destruct (floop_st _ _ _ _ L Ie) as (v & p & A1 & A2 & A3 & A4 & A5 & A6).
    assert (Ed : ends h e b) by now apply ends_iff.
    assert (S : starts h e v) by (apply starts_iff; repeat split; eauto).
    exists e, v, b, (sc h e), (ec h e). split; [apply (LiveI _ _ _ M); exists f; auto|]. split; [now apply opp_iff|]. split; auto. split; auto.
    split; [now apply (coords_starts h f)|]. split; auto using coords_ends.
Qed.

(** ** Areas *)
Definition cross (a b : C) : R := (fst a * snd b - snd a * fst b)%R.
Lemma cross_anti a b : cross b a = (- cross a b)%R.
Proof. unfold cross. ring. Qed.
Lemma area_cross a b d : (cross d a + (cross a b + (cross b d + 0)) = area2 a b d)%R.
Proof. unfold cross, area2. ring. Qed.
Lemma face_cross h f e1 e2 e3 : floop h f (Lf h f) -> Lf h f = [e1; e2; e3] -> G cross h (Lf h f) = area2 (ec h e1) (ec h e2) (ec h e3).
Proof. intros L Q. rewrite Q in *. destruct (tri_st _ _ _ _ _ L) as (T1 & T2 & T3). unfold G. cbn. rewrite T1, T2, T3. apply area_cross. Qed.
Lemma G_app g h l l' : G g h (l ++ l') = (G g h l + G g h l')%R.
Proof. unfold G. induction l as [|e l IH]; cbn; [lra|]. rewrite IH. lra. Qed.
Lemma total_area_sum h fs : forall l, tmesh h fs -> incl l fs -> forall s, total_area h l s <-> (s = G cross h (alle h l) / 2)%R.
Proof.
  intros l TM. induction l as [|f l IH]; intros I s.
  - unfold total_area, alle, G. cbn. split.
    + intros (x & F2 & ->). inversion F2. cbn. lra.
    + intros ->. exists []. split; [constructor|cbn; lra].
  - assert (If : In f fs) by (apply I; now left). assert (Il : incl l fs) by (intros x Ix; apply I; now right).
    pose proof TM as (_ & HT). destruct (HT f If) as (e1 & e2 & e3 & Q & W). pose proof (tm_L _ _ _ TM If) as L.
    unfold alle. cbn [flat_map]. fold (alle h l). rewrite G_app, (face_cross _ _ _ _ _ L Q). split.
    + intros (x & F2 & ->). destruct x as [|y l']; [inversion F2|]. assert (F3 : (exists A B D, corners h f A B D /\ y = (area2 A B D / 2)%R) /\ Forall2 (fun f x => exists A B D, corners h f A B D /\ x = (area2 A B D / 2)%R) l l') by (inversion F2; auto).
      destruct F3 as ((A & B & D & Y & ->) & F2'). cbn. apply corners_inv in Y as (a1 & a2 & a3 & _ & Q' & -> & -> & ->).
      rewrite Q in Q'. injection Q' as <- <- <-. assert (X : total_area h l (fold_right Rplus 0%R l')) by (exists l'; auto). apply (IH Il) in X. rewrite X. lra.
    + intros ->. assert (X : total_area h l (G cross h (alle h l) / 2)) by (apply (IH Il); auto). destruct X as (x & F2 & E).
      exists ((area2 (ec h e1) (ec h e2) (ec h e3) / 2)%R :: x). split.
      * constructor; auto. exists (ec h e1), (ec h e2), (ec h e3). split; auto. now apply corners_of.
      * cbn. rewrite <- E. lra.
Qed.

(** ** What an insertion changes *)
Lemma es_in h fs K es : minv h fs -> incl K fs -> NoDup K -> getOrientedFacesBoundaries h K = Ok [es] ->
  forall e, In e es <-> Live h K e /\ inK h K e = false.
Proof.
  intros H IK NK HB e. destruct (oriented_ok h fs K H IK NK) as (ls & A & P & _). rewrite HB in A. injection A as <-.
  cbn [concat] in P. rewrite app_nil_r in P. rewrite <- in_alle, <- negb_true_iff, <- (filter_In (fun e => negb (inK h K e))). split; apply Permutation_in; auto. now apply Permutation_sym.
Qed.
Lemma new_op h fs xy K es h' i : filled_with h fs xy K es h' -> i < length es -> op h' (ne h + 2 * i) <> None /\ op h' (ne h + 2 * i + 1) <> None.
Proof.
  intros FW Hi. split; [rewrite (fw_op _ _ _ _ _ _ FW i Hi); discriminate|].
  set (n := length es) in *. set (k := (i + n - 1) mod n). assert (Hk : k < n) by (apply Nat.mod_upper_bound; lia).
  assert (Q : (k + 1) mod n = i).
  { unfold k. destruct (Nat.eq_dec i 0) as [->|N0].
    - cbn [Nat.add]. rewrite (Nat.mod_small (n - 1)) by lia. replace (n - 1 + 1) with n by lia. apply Nat.mod_same. lia.
    - replace (i + n - 1) with (i - 1 + 1 * n) by lia. rewrite Nat.mod_add by lia. rewrite (Nat.mod_small (i - 1)) by lia. rewrite Nat.mod_small; lia. }
  pose proof (fw_op _ _ _ _ _ _ FW k Hk) as O. fold n in O. rewrite Q in O.
  assert (L : Live h' (without K fs ++ seq (nf h) (length es)) (ne h + 2 * k)).
  { exists (nf h + k). split; [apply in_or_app; right; apply in_seq; fold n; lia|]. rewrite (fw_new _ _ _ _ _ _ FW) by auto. cbn. auto. }
  destruct (minv_pair _ _ _ _ (fw_minv _ _ _ _ _ _ FW) L O) as (_ & _ & O2 & _). rewrite O2. discriminate.
Qed.
Lemma kept_op h fs xy K es h' f e : minv h fs -> incl K fs -> NoDup K -> getOrientedFacesBoundaries h K = Ok [es] -> filled_with h fs xy K es h' ->
  In f (without K fs) -> In e (Lf h f) -> op h' e = op h e.
Proof.
  intros H IK NK HB FW If Ie. apply in_without in If as (If & NK').
  assert (e < ne h) by (apply (Live_lt _ _ _ H); exists f; auto).
  unfold op. rewrite (fw_E _ _ _ _ _ _ FW); auto. intros Ies. apply (es_in h fs K es H IK NK HB) in Ies as ((g & Ig & Ie') & _).
  apply NK'. replace f with g; auto. apply (floop_face h g f (Lf h g) (Lf h f) e); auto; apply (Lf_of _ _ _ H); auto.
Qed.
Lemma inserted_rim h fs xy h' fs' r q : tmesh h fs -> inserted h fs xy h' fs' r -> on_rim h' fs' q -> on_rim h fs q.
Proof.
  intros (H & _) I. destruct I as [r _ _|seed K es h' _ _ IK NK HB NE ST FW]; auto. intros (f & e & If & Ie & O & S).
  apply in_app_or in If as [If|If].
  - rewrite (fw_kept _ _ _ _ _ _ FW) in Ie by auto. destruct (fw_keptc _ _ _ _ _ _ FW f e If Ie) as (X & Y). rewrite X, Y in S.
    rewrite (kept_op h fs xy K es h' f) in O by auto. exists f, e. apply in_without in If as (If & _). auto.
  - apply in_seq in If. replace f with (nf h + (f - nf h)) in Ie by lia. set (i := f - nf h) in *. assert (Hi : i < length es) by (unfold i; lia).
    rewrite (fw_new _ _ _ _ _ _ FW) in Ie by auto. destruct (new_op _ _ _ _ _ _ i FW Hi) as (N1 & N2).
    destruct Ie as [<-|[<-|[<-|[]]]]; try contradiction. destruct (fw_newc _ _ _ _ _ _ FW i Hi) as (E1 & _ & _ & E4 & _). cbn zeta in E1, E4. rewrite E1, E4 in S.
    destruct (fw_en _ _ _ _ _ _ FW i Hi) as (_ & O'). rewrite O' in O.
    pose proof (nth_In es 0 Hi) as J. apply (es_in h fs K es H IK NK HB) in J as ((g & Ig & Ie) & _). exists g, (nth i es 0). auto.
Qed.
Lemma inserted_corners h fs xy h' fs' r q : tmesh h fs -> inserted h fs xy h' fs' r -> is_corner h' fs' q -> q = xy \/ is_corner h fs q.
Proof.
  intros (H & HT) I. destruct I as [r _ _|seed K es h' _ _ IK NK HB NE ST FW]; auto. intros (f & e & If & Ie & <-).
  apply in_app_or in If as [If|If].
  - rewrite (fw_kept _ _ _ _ _ _ FW) in Ie by auto. destruct (fw_keptc _ _ _ _ _ _ FW f e If Ie) as (X & Y). rewrite Y.
    right. exists f, e. apply in_without in If as (If & _). auto.
  - apply in_seq in If. replace f with (nf h + (f - nf h)) in Ie by lia. set (i := f - nf h) in *. assert (Hi : i < length es) by (unfold i; lia).
    rewrite (fw_new _ _ _ _ _ _ FW) in Ie by auto. destruct (fw_newc _ _ _ _ _ _ FW i Hi) as (E1 & E2 & E3 & _). cbn zeta in E1, E2, E3.
    pose proof (nth_In es 0 Hi) as J. apply (es_in h fs K es H IK NK HB) in J as ((g & Ig & J) & _).
    destruct Ie as [<-|[<-|[<-|[]]]]; rewrite ?E1, ?E2, ?E3; auto; right.
    + exists g, (nth i es 0). auto.
    + destruct (HT g (IK g Ig)) as (e1 & e2 & e3 & Q & _). pose proof (Lf_of _ _ _ H (IK g Ig)) as L. rewrite Q in L, J. destruct (tri_st _ _ _ _ _ L) as (T1 & T2 & T3).
      exists g. cbn in J. destruct J as [<-|[<-|[<-|[]]]]; [exists e3|exists e1|exists e2]; rewrite Q; (split; [auto|split; [cbn; auto|congruence]]).
Qed.
Lemma inserted_new h fs xy h' fs' v del cre : tmesh h fs -> inserted h fs xy h' fs' (Some (v, del, cre)) ->
  cre <> [] /\ coords_are h' v xy /\ fs' = without del fs ++ cre /\
  (forall f, In f del -> In f fs) /\
  (forall f A B D, In f (without del fs) -> (corners h' f A B D <-> corners h f A B D)) /\
  (forall f, In f cre -> ~ In f fs /\ exists A B, corners h' f A xy B) /\ v = length (h_v h).
Proof.
  intros (H & HT) I. inversion I as [|seed K es h0 _ _ IK NK HB NE ST FW]; subst.
  assert (WE : without (filter (fun f => mem f K) fs) fs = without K fs).
  { rewrite <- !without_mem. apply filter_ext_in. intros f If. f_equal. apply eq_true_iff_eq. rewrite !mem_iff, filter_In, mem_iff. tauto. }
  rewrite WE. split; [destruct es; [congruence|discriminate]|].
  split; [apply coords_iff; rewrite (fw_vco _ _ _ _ _ _ FW), Nat.eqb_refl; reflexivity|]. split; auto.
  split; [intros f If; now apply filter_In in If|]. split; [|split; [|reflexivity]].
  - intros f A B D If. pose proof If as If0. apply in_without in If0 as (If0 & _). destruct (HT f If0) as (e1 & e2 & e3 & Q & W).
    pose proof (Lf_of _ _ _ H If0) as L.
    assert (L' : floop h' f (Lf h' f)) by (apply (Lf_of _ _ _ (fw_minv _ _ _ _ _ _ FW)); apply in_or_app; auto).
    assert (Q' : Lf h' f = [e1; e2; e3]) by (rewrite (fw_kept _ _ _ _ _ _ FW) by auto; auto).
    assert (X : forall e, In e [e1; e2; e3] -> ec h' e = ec h e) by (intros e Ie; rewrite <- Q in Ie; apply (fw_keptc _ _ _ _ _ _ FW f e If Ie)).
    split; intros Y; apply corners_inv in Y as (a1 & a2 & a3 & _ & Q2 & -> & -> & ->); rewrite ?Q, ?Q' in Q2; injection Q2 as <- <- <-.
    + rewrite !X by (cbn; auto). now apply corners_of.
    + rewrite <- !X by (cbn; auto). now apply corners_of.
  - intros f If. pose proof If as If'. apply in_seq in If. split.
    + intros Y. pose proof (Lf_of _ _ _ H Y) as (_ & _ & Z & _). unfold nf in *. lia.
    + set (i := f - nf h). assert (Hi : i < length es) by (unfold i; lia). assert (Q : Lf h' f = [nth i es 0; ne h + 2 * i; ne h + 2 * i + 1]).
      { replace f with (nf h + i) by (unfold i; lia). now apply (fw_new _ _ _ _ _ _ FW). }
      destruct (fw_newc _ _ _ _ _ _ FW i Hi) as (E1 & E2 & E3 & _). cbn zeta in E1, E2, E3.
      exists (ec h' (nth i es 0)), (ec h' (ne h + 2 * i + 1)). rewrite <- E2. apply corners_of; auto.
      apply (Lf_of _ _ _ (fw_minv _ _ _ _ _ _ FW)). apply in_or_app. auto.
Qed.
