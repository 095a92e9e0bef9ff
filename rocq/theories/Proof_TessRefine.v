(** Proofs about the refinement of triangulations. *)
From Coq Require Import Reals List Arith Bool Lia Lra.
From Verif Require Import Model_Base Model_Knots Model_Mesh Model_Geom Model_Tess Model_Refine Spec_Mesh Spec_MeshEdit Spec_Geom Spec_Tess Spec_Refine
  Proof_Base Proof_Mesh Proof_Tess5 Proof_PropTess.
Import ListNotations.
Local Open Scope nat_scope.

Section AtR.
Variable eps : R.
Local Hint Extern 0 (Num R) => exact (NumR eps) : typeclass_instances.

Lemma worst_face_ok (c : list (nat * R)) fs : fs <> [] ->
  exists f, worst_face c fs = Ok f /\ In f fs /\ forall g, In g fs -> (lookup c g <= lookup c f)%R.
Proof.
  destruct fs as [|f0 fs]; [congruence|]. intros _. cbn [worst_face].
  set (step := fun b x => if nltb (lookup c b) (lookup c x) then x else b).
  assert (G : forall l b, let r := fold_left step l b in (r = b \/ In r l) /\ (lookup c b <= lookup c r)%R /\ forall g, In g l -> (lookup c g <= lookup c r)%R).
  { induction l as [|x l IH]; intros b; cbn [fold_left]; [cbn; repeat split; auto; try apply Rle_refl; intros ? []|].
    destruct (IH (step b x)) as (A & B & D). cbv zeta in *.
    assert (S1 : (lookup c b <= lookup c (step b x))%R /\ (lookup c x <= lookup c (step b x))%R /\ (step b x = b \/ step b x = x)).
    { unfold step. cbn. destruct (Rltb_spec (lookup c b) (lookup c x)); repeat split; auto; lra. }
    destruct S1 as (S1 & S2 & S3). split; [|split; [lra|]].
    - cbn [In]. destruct A as [A|A]; [rewrite A; destruct S3 as [-> | ->]; auto|auto].
    - intros g [<-|Ig]; [lra|auto]. }
  destruct (G fs f0) as (A & B & D). cbv zeta in *. exists (fold_left step fs f0). split; [reflexivity|]. split.
  - cbn. destruct A as [->|A]; auto.
  - intros g [<-|Ig]; auto.
Qed.

Lemma store_ok q h fs : defined q -> tri_mesh h fs -> forall l c, (forall f, In f l -> In f fs) -> exists c', store q h c l = Ok c'.
Proof.
  intros TQ TM. unfold store. induction l as [|f l IH]; intros c Il; cbn [foldM]; eauto.
  destruct (TQ h fs f TM (Il f (or_introl eq_refl))) as (r & ->). cbn [bind]. apply IH. intros; apply Il; now right.
Qed.
Lemma same_refl h fs : same_region h fs h fs.
Proof. repeat split; auto; tauto. Qed.
Lemma same_trans h fs h1 fs1 h2 fs2 : same_region h fs h1 fs1 -> same_region h1 fs1 h2 fs2 -> same_region h fs h2 fs2.
Proof.
  intros (A & B & D & E) (A' & B' & D' & E'). split; [auto|]. split; [intros q; now rewrite B', B|]. split; [intros s; now rewrite D, D'|auto].
Qed.
Lemma insertion_step h fs xy : tri_mesh h fs -> fs <> [] -> exists h' fs' r, boyerWatson h fs xy = Ok (h', fs', r) /\
  tri_mesh h' fs' /\ fs' <> [] /\ same_region h fs h' fs' /\ (forall q, corner_of h' fs' q -> q = xy \/ corner_of h fs q) /\
  match r with
  | None => h' = h /\ fs' = fs
  | Some (v, del, cre) => fs' = without del fs ++ cre /\
      (forall f A B D, In f (without del fs) -> (corners h' f A B D <-> corners h f A B D)) /\ (forall f, In f cre -> ~ In f fs)
  end.
Proof.
  intros TM NE. destruct (insertion_prop eps h fs xy TM) as (h' & fs' & r & E & T1 & T2 & T3 & T4 & T5 & T6 & T7).
  exists h', fs', r. split; [exact E|]. split; [exact T1|]. split; [|split; [repeat split; auto; apply T4 || apply T3|split; [exact T6|]]].
  - destruct r as [[[v del] cre]|]; [|destruct T7 as (_ & ->); auto]. destruct T7 as (N & _ & -> & _). destruct cre; [congruence|]. intros Z. apply app_eq_nil in Z. now destruct Z.
  - destruct r as [[[v del] cre]|]; [|exact T7]. destruct T7 as (N & _ & T8 & _ & T9 & T10 & _). split; [exact T8|]. split; [exact T9|].
    intros f If. now destruct (T10 f If).
Qed.
Lemma refine_loop_ok q cm : defined q -> forall n go h fs c, tri_mesh h fs -> fs <> [] -> exists h' fs', refine_loop n q cm go h fs c = Ok (h', fs') /\
  tri_mesh h' fs' /\ fs' <> [] /\ same_region h fs h' fs' /\ corners_added n h fs h' fs'.
Proof.
  intros TQ. assert (Z : forall n h fs, corners_added n h fs h fs) by (intros n h fs; exists []; cbn; split; [lia|auto]).
  induction n as [|n IH]; intros go h fs c TM NE; cbn [refine_loop].
  { exists h, fs. auto using same_refl. }
  destruct go; [|exists h, fs; auto using same_refl].
  destruct (worst_face_ok c fs NE) as (f & -> & If & _). cbn [bind]. destruct (TQ h fs f TM If) as ([cr xy] & ->). cbn [bind].
  destruct (insertion_step h fs xy TM NE) as (h1 & fs1 & r & -> & TM1 & NE1 & SR & CA & MR). cbn [bind].
  set (dc := match r with Some (_, d, c) => (d, c) | None => ([], []) end). destruct dc as [del cre] eqn:DC.
  assert (IC : forall g, In g cre -> In g fs1).
  { destruct r as [[[v d0] c0]|]; cbn in DC; injection DC as <- <-; [|intros g []]. destruct MR as (-> & _). intros g Ig. apply in_or_app. auto. }
  destruct (store_ok q h1 fs1 TQ TM1 cre (erase c del) IC) as (c' & ->). cbn [bind].
  destruct (IH (nltb cm cr) h1 fs1 c' TM1 NE1) as (h2 & fs2 & E & TM2 & NE2 & SR2 & l & LL & CL). exists h2, fs2. split; [exact E|].
  split; [exact TM2|]. split; [exact NE2|]. split; [now apply (same_trans h fs h1 fs1)|]. exists (xy :: l). split; [cbn; lia|].
  intros p Cp. destruct (CL p Cp) as [Il|Cp1]; [left; now right|]. destruct (CA p Cp1) as [->|]; [left; now left|auto].
Qed.
Lemma refine_ok q cm n h fs : defined q -> tri_mesh h fs -> fs <> [] -> exists h' fs', refine q cm n h fs = Ok (h', fs') /\
  tri_mesh h' fs' /\ fs' <> [] /\ same_region h fs h' fs' /\ corners_added n h fs h' fs'.
Proof.
  intros TQ TM NE. unfold refine. destruct (store_ok q h fs TQ TM fs [] (fun _ H => H)) as (c & ->). cbn [bind]. now apply refine_loop_ok.
Qed.

Definition cached (q : measure) (h : plane) (fs : list nat) (c : list (nat * R)) : Prop := forall f r, In f fs -> q h f = Ok r -> lookup c f = fst r.
Lemma lookup_erase (c : list (nat * R)) del f : ~ In f del -> lookup (erase c del) f = lookup c f.
Proof.
  intros N. induction c as [|[g x] c IH]; auto. cbn [erase filter fst]. unfold erase in IH.
  destruct (mem g del) eqn:M; cbn [negb lookup].
  - destruct (Nat.eqb_spec g f); [|exact IH]. subst. exfalso. apply N. unfold mem in M. apply existsb_exists in M as (y & Iy & E). apply Nat.eqb_eq in E. now subst.
  - destruct (g =? f); auto.
Qed.
Lemma store_lookup (q : measure) (h : plane) : forall l (c c' : list (nat * R)), store q h c l = Ok c' -> forall f,
  (forall r, In f l -> q h f = Ok r -> lookup c' f = fst r) /\ (~ In f l -> lookup c' f = lookup c f).
Proof.
  unfold store. induction l as [|g l IH]; intros c c' E f; cbn [foldM] in E.
  - injection E as <-. split; [intros A []|auto].
  - apply bind_inv in E as (c1 & E1 & E2). apply bind_inv in E1 as (r & E1 & E3). injection E3 as <-.
    destruct (IH _ _ E2 f) as (P & Q). split.
    + intros A If X. destruct (in_dec Nat.eq_dec f l) as [Il|Nl]; [now apply P|]. destruct If as [->|If]; [|contradiction].
      rewrite Q by auto. cbn [lookup]. rewrite Nat.eqb_refl. rewrite X in E1. injection E1 as <-. reflexivity.
    + intros N. rewrite Q by (intros Z; apply N; now right). cbn [lookup]. destruct (Nat.eqb_spec g f); [|auto]. subst. exfalso. apply N. now left.
Qed.
Lemma in_without f del fs : In f (without del fs) -> In f fs /\ ~ In f del.
Proof.
  unfold without. intros I. apply filter_In in I as (A & B). split; [auto|]. intros I. apply negb_true_iff in B.
  rewrite (proj2 (existsb_exists _ _)) in B; [discriminate|]. exists f. split; [auto|apply Nat.eqb_refl].
Qed.
Lemma refine_loop_rounds q cm : defined q -> local eps q -> forall n h fs c h' fs', tri_mesh h fs -> fs <> [] -> cached q h fs c ->
  refine_loop n q cm true h fs c = Ok (h', fs') -> rounds eps q cm n h fs h' fs'.
Proof.
  intros DQ LQ. induction n as [|n IH]; intros h fs c h' fs' TM NE CA E; cbn [refine_loop] in E; [injection E as <- <-; constructor|].
  destruct (worst_face_ok c fs NE) as (f & EF & If & W). rewrite EF in E. cbn [bind] in E.
  destruct (DQ h fs f TM If) as ([cr xy] & EQ). rewrite EQ in E. cbn [bind] in E.
  assert (WO : worst q h fs f cr xy).
  { split; [auto|]. split; [auto|]. intros g c' p' Ig Eg. pose proof (W g Ig) as Wg. rewrite (CA g _ Ig Eg), (CA f _ If EQ) in Wg. exact Wg. }
  destruct (insertion_step h fs xy TM NE) as (h1 & fs1 & r & EB & TM1 & NE1 & _ & _ & MR). rewrite EB in E. cbn [bind] in E.
  set (dc := match r with Some (_, d, c) => (d, c) | None => ([], []) end) in E. destruct dc as [del cre] eqn:DC.
  apply bind_inv in E as (c1 & E1 & E). cbn in E. destruct (Rltb_spec cm cr) as [LT|GE].
  - apply (next_round eps q cm n h fs f cr xy h1 fs1 r); auto. apply (IH h1 fs1 c1); auto.
    intros g rg Ig Xg. destruct (store_lookup q h1 cre _ _ E1 g) as (P & Q).
    destruct (in_dec Nat.eq_dec g cre) as [Ic|Nc]; [now apply P|]. rewrite Q by auto.
    destruct r as [[[v d0] c0]|]; cbn in DC; injection DC as <- <-.
    + pose proof MR as (FS & _). pose proof Ig as Ig1. rewrite FS in Ig. apply in_app_or in Ig as [Ig|Ig]; [|contradiction].
      apply in_without in Ig as (Ig & Nd). rewrite (LQ h fs xy h1 fs1 _ g TM EB Ig Ig1) in Xg.
      rewrite lookup_erase by auto. now apply (CA g).
    + destruct MR as (-> & ->). rewrite lookup_erase by (intros []). now apply (CA g).
  - assert (EQ1 : h' = h1 /\ fs' = fs1) by (destruct n; cbn [refine_loop] in E; injection E as <- <-; auto). destruct EQ1 as (-> & ->).
    apply (last_round eps q cm n h fs f cr xy h1 fs1 r); auto.
Qed.
Lemma refine_rounds q cm n h fs h' fs' : defined q -> local eps q -> tri_mesh h fs -> fs <> [] -> refine q cm n h fs = Ok (h', fs') -> rounds eps q cm n h fs h' fs'.
Proof.
  intros DQ LQ TM NE E. unfold refine in E. apply bind_inv in E as (c & E1 & E). apply (refine_loop_rounds q cm DQ LQ n h fs c); auto.
  intros f r If X. destruct (store_lookup q h fs _ _ E1 f) as (P & _). now apply P.
Qed.
End AtR.
