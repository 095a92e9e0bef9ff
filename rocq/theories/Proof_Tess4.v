(** A point inside the triangulated region that is not a corner and not on its rim is inserted. *)
From Coq Require Import List Arith Lia Bool Reals Lra Permutation ZArith.
From Verif Require Import Model_Base Model_Mesh Model_Geom Model_Tess Spec_Mesh Spec_MeshEdit Spec_Geom Proof_Base
  Proof_Mesh Proof_Mesh2 Proof_Mesh3 Proof_Mesh4 Proof_Mesh9 Proof_PropMesh Proof_PropMesh2 Proof_PropMesh3 Proof_Plane Proof_Tess Proof_Tess2 Proof_Tess3.
Import ListNotations.
Local Open Scope nat_scope.

Notation C := (R * R)%type.
Implicit Types (h : heap C) (fs K l es : list nat) (f e : nat) (xy q : C).

Lemma ccw_ne a b c : ccw a b c -> a <> b /\ b <> c /\ a <> c.
Proof.
  intros W. unfold ccw, area2 in W. repeat split; intros ->; lra.
Qed.
Lemma ccw_rot a b c : ccw a b c -> ccw b c a.
Proof. unfold ccw. rewrite <- !orr_area, (orr_rot a b c). auto. Qed.

Lemma filter_true {A} (l : list A) : filter (fun _ => true) l = l.
Proof. induction l; cbn; congruence. Qed.

Record tview h f e f2 f3 : Prop := {
  tv_in : forall x, In x (Lf h f) <-> In x [e; f2; f3];
  tv_nd : NoDup [e; f2; f3];
  tv_s2 : st h f2 = en h e; tv_s3 : st h f3 = en h f2; tv_s1 : st h e = en h f3;
  tv_w : ccw (ec h e) (ec h f2) (ec h f3) }.
Lemma rot_view h fs f e : tmesh h fs -> In f fs -> In e (Lf h f) -> exists f2 f3, tview h f e f2 f3.
Proof.
  intros (H & HT) If Ie. destruct (HT f If) as (e1 & e2 & e3 & Q & W). pose proof (Lf_of _ _ _ H If) as L. rewrite Q in *.
  destruct (tri_facts _ _ _ _ _ L) as (_ & _ & _ & _ & _ & _ & _ & _ & _ & _ & _ & S1 & S2 & S3 & ND).
  inversion_clear ND as [|? ? X Y]. inversion_clear Y as [|? ? X' Y']. cbn in X, X', Ie.
  destruct Ie as [<-|[<-|[<-|[]]]]; [exists e2, e3|exists e3, e1|exists e1, e2]; constructor; rewrite ?Q; auto; try (intros x; cbn; tauto);
    try (repeat constructor; cbn; intuition congruence); auto using ccw_rot.
Qed.
Lemma en_ne h e e' : ec h e <> ec h e' -> en h e <> en h e'.
Proof. intros N Q. apply N. unfold ec. now rewrite Q. Qed.

Lemma inK_single h fs f e : tmesh h fs -> In f fs -> In e (Lf h f) -> inK h [f] e = false.
Proof.
  intros TM If Ie. apply not_true_iff_false. intros Z. apply inK_iff in Z as (o & g & O & Fo & [<-|[]]).
  pose proof TM as (H & _). assert (Le : Live h fs e) by (exists f; auto).
  destruct (minv_pair _ _ _ _ H Le O) as ((g & Ig & Io) & _). assert (fc h o = Some g) by (apply (floop_in _ _ _ _ (Lf_of _ _ _ H Ig) Io)).
  assert (g = f) by congruence. subst g. apply (not_self h fs f e o); auto.
Qed.

Lemma seed1 h fs f : tmesh h fs -> In f fs -> exists es, getOrientedFacesBoundaries h [f] = Ok [es] /\ forall e, In e es <-> In e (Lf h f).
Proof.
  intros TM If. pose proof TM as (H & HT). assert (IK : incl [f] fs) by (intros x [<-|[]]; auto).
  assert (NK : NoDup [f]) by (repeat constructor; auto).
  destruct (oriented_ok h fs [f] H IK NK) as (ls & A & P & CL).
  assert (B : filter (fun e => negb (inK h [f] e)) (alle h [f]) = Lf h f).
  { unfold alle. cbn [flat_map]. rewrite app_nil_r. rewrite (filter_ext_in _ (fun _ => true)); [apply filter_true|].
    intros e Ie. now rewrite (inK_single h fs). }
  rewrite B in P. destruct (HT f If) as (e1 & e2 & e3 & Q & W). pose proof (Lf_of _ _ _ H If) as L. rewrite Q in *.
  destruct (tri_facts _ _ _ _ _ L) as (_ & _ & _ & _ & _ & _ & _ & _ & _ & _ & _ & S1 & S2 & S3 & ND).
  destruct (ccw_ne _ _ _ W) as (N1 & N2 & N3). apply en_ne in N1, N2, N3.
  destruct (one_loop h [e1; e2; e3] ls) as (l & ->); auto.
  { discriminate. }
  { cbn. rewrite S1, S2, S3. repeat constructor; cbn; intuition congruence. }
  { intros PP (x & Ix & Px) ST.
    assert (T1 : PP e1 -> PP e2) by (intros Z; apply (ST e1 e2); cbn; auto).
    assert (T2 : PP e2 -> PP e3) by (intros Z; apply (ST e2 e3); cbn; auto).
    assert (T3 : PP e3 -> PP e1) by (intros Z; apply (ST e3 e1); cbn; auto).
    intros y Iy. cbn in Ix, Iy. destruct Ix as [<-|[<-|[<-|[]]]], Iy as [<-|[<-|[<-|[]]]]; auto. }
  exists l. split; auto. cbn in P. rewrite app_nil_r in P. intros e. split; apply Permutation_in; auto. now apply Permutation_sym.
Qed.

Lemma slide_orr (W p : R) (S E D q : C) : ((W - p) * fst S + p * fst E = W * fst q)%R -> ((W - p) * snd S + p * snd E = W * snd q)%R ->
  (W * orr S D q = p * orr E S D /\ W * orr D E q = (W - p) * orr E S D)%R.
Proof.
  intros X Y. split.
  - transitivity ((fst D - fst S) * (W * snd q - W * snd S) - (snd D - snd S) * (W * fst q - W * fst S))%R; [unfold orr; ring|].
    rewrite <- X, <- Y. unfold orr. ring.
  - transitivity ((fst E - fst D) * (W * snd q - W * snd D) - (snd E - snd D) * (W * fst q - W * fst D))%R; [unfold orr; ring|].
    rewrite <- X, <- Y. unfold orr. ring.
Qed.

Section Pair.
Variables (h : heap C) (fs : list nat) (f g e o : nat).
Hypothesis TM : tmesh h fs.
Hypotheses (If : In f fs) (Ig : In g fs) (NE : f <> g) (Ie : In e (Lf h f)) (Io : In o (Lf h g)) (OP : op h e = Some o).
Variables (f2 f3 g2 g3 : nat).
Hypothesis TF : tview h f e f2 f3.
Hypothesis TG : tview h g o g2 g3.

Let Sc := ec h f3. Let Ec := ec h e. Let Cc := ec h f2. Let Dc := ec h g2.
Lemma pair_ends : en h o = en h f3 /\ en h g3 = en h e /\ op h o = Some e.
Proof.
  pose proof TM as (H & _). assert (Le : Live h fs e) by (exists f; auto). destruct (minv_pair _ _ _ _ H Le OP) as (_ & _ & O2 & R1 & R2).
  rewrite (tv_s1 _ _ _ _ _ TF) in R1. rewrite (tv_s1 _ _ _ _ _ TG) in R2. auto.
Qed.
Lemma pair_area : (0 < orr Sc Ec Cc)%R /\ (0 < orr Ec Sc Dc)%R.
Proof.
  destruct pair_ends as (A & B & _). pose proof (tv_w _ _ _ _ _ TF) as W. pose proof (tv_w _ _ _ _ _ TG) as W'. unfold ccw in *. rewrite <- orr_area in *.
  unfold Sc, Ec, Cc, Dc. split; [now rewrite <- orr_rot|].
  assert (X : ec h o = ec h f3) by (unfold ec; now rewrite A). assert (Y : ec h g3 = ec h e) by (unfold ec; now rewrite B).
  rewrite X, Y in W'. now rewrite <- orr_rot.
Qed.
Lemma pair_distinct : en h e <> en h f2 /\ en h e <> en h f3 /\ en h f2 <> en h f3 /\ en h g2 <> en h e /\ en h g2 <> en h f3 /\ en h g2 <> en h f2.
Proof.
  destruct pair_area as (A & B).
  assert (X : forall a b : C, orr a b a = 0%R /\ orr a b b = 0%R /\ orr a a b = 0%R) by (intros; unfold orr; repeat split; ring).
  repeat split; apply en_ne; fold Sc Ec Cc Dc; intros Q; rewrite ?Q in A; rewrite ?Q in B; 
   try (rewrite ?(proj1 (X _ _)), ?(proj1 (proj2 (X _ _))), ?(proj2 (proj2 (X _ _))) in *; lra).
  rewrite (orr_swap Sc Ec) in B. lra.
Qed.
Lemma seed2 : exists es, getOrientedFacesBoundaries h [f; g] = Ok [es] /\ forall x, In x es <-> In x [f2; f3; g2; g3].
Proof.
  pose proof TM as (H & HT). assert (IK : incl [f; g] fs) by (intros x [<-|[<-|[]]]; auto).
  assert (NK : NoDup [f; g]) by (repeat constructor; cbn; intuition).
  destruct (oriented_ok h fs [f; g] H IK NK) as (ls & A & P & CL).
  destruct pair_ends as (P1 & P2 & P3). destruct pair_distinct as (D1 & D2 & D3 & D4 & D5 & D6).
  pose proof (tv_s1 _ _ _ _ _ TF) as SF1. pose proof (tv_s2 _ _ _ _ _ TF) as SF2. pose proof (tv_s3 _ _ _ _ _ TF) as SF3.
  pose proof (tv_s1 _ _ _ _ _ TG) as SG1. pose proof (tv_s2 _ _ _ _ _ TG) as SG2. pose proof (tv_s3 _ _ _ _ _ TG) as SG3.
  pose proof (tv_nd _ _ _ _ _ TF) as NF. pose proof (tv_nd _ _ _ _ _ TG) as NG.
  assert (NF' : e <> f2 /\ e <> f3 /\ f2 <> f3) by (inversion_clear NF as [|? ? X Y]; inversion_clear Y as [|? ? X' Y']; cbn in *; intuition).
  assert (NG' : o <> g2 /\ o <> g3 /\ g2 <> g3) by (inversion_clear NG as [|? ? X Y]; inversion_clear Y as [|? ? X' Y']; cbn in *; intuition).
  assert (DJ : forall x, In x (Lf h f) -> In x (Lf h g) -> False).
  { intros x I1 I2. apply NE. apply (floop_face h f g (Lf h f) (Lf h g) x); auto; apply (Lf_of _ _ _ H); auto. }
  assert (ND4 : NoDup [f2; f3; g2; g3]).
  { assert (Z : forall x y, In x [e; f2; f3] -> In y [o; g2; g3] -> x <> y).
    { intros x y Ix Iy ->. apply (DJ y); [now apply (tv_in _ _ _ _ _ TF)|now apply (tv_in _ _ _ _ _ TG)]. }
    assert (f2 <> g2) by (apply Z; cbn; auto). assert (f2 <> g3) by (apply Z; cbn; auto). assert (f3 <> g2) by (apply Z; cbn; auto). assert (f3 <> g3) by (apply Z; cbn; auto).
    repeat constructor; cbn; intuition. }
  (* the other sides of these half-edges are outside *)
  assert (OUT : forall x, In x [f2; f3; g2; g3] -> inK h [f; g] x = false).
  { intros x Ix. apply not_true_iff_false. intros Z. apply inK_iff in Z as (y & k & O & Fy & Ik).
    assert (Lx : (In x (Lf h f) \/ In x (Lf h g)) /\ Live h fs x).
    { assert (Q : In x (Lf h f) \/ In x (Lf h g)).
      { cbn in Ix. destruct Ix as [<-|[<-|[<-|[<-|[]]]]]; [left|left|right|right]; (apply (tv_in _ _ _ _ _ TF) || apply (tv_in _ _ _ _ _ TG)); cbn; auto. }
      split; auto. destruct Q; [exists f|exists g]; auto. }
    destruct Lx as (Jx & Lx). destruct (minv_pair _ _ _ _ H Lx O) as ((k' & Ik' & Iy) & _ & _ & R1 & R2).
    assert (fc h y = Some k') by (apply (floop_in _ _ _ _ (Lf_of _ _ _ H Ik') Iy)). assert (k' = k) by congruence. subst k'.
    assert (JY : (In x (Lf h f) /\ In y [o; g2; g3]) \/ (In x (Lf h g) /\ In y [e; f2; f3])).
    { destruct Jx as [Jx|Jx]; [left|right]; (split; [auto|]); destruct Ik as [<-|[<-|[]]].
      - exfalso. apply (not_self h fs f x y); auto. - now apply (tv_in _ _ _ _ _ TG).
      - now apply (tv_in _ _ _ _ _ TF). - exfalso. apply (not_self h fs g x y); auto. }
    destruct JY as [(Jf & Jy)|(Jg & Jy)].
    - assert (Jx' : x = f2 \/ x = f3).
      { cbn in Ix. destruct Ix as [<-|[<-|[<-|[<-|[]]]]]; auto; exfalso; apply (DJ _ Jf), (tv_in _ _ _ _ _ TG); cbn; auto. }
      cbn in Jy. destruct Jx' as [-> | ->], Jy as [<-|[<-|[<-|[]]]]; congruence.
    - assert (Jx' : x = g2 \/ x = g3).
      { cbn in Ix. destruct Ix as [<-|[<-|[<-|[<-|[]]]]]; auto; exfalso; refine (DJ _ _ Jg); apply (tv_in _ _ _ _ _ TF); cbn; auto. }
      cbn in Jy. destruct Jx' as [-> | ->], Jy as [<-|[<-|[<-|[]]]]; congruence. }
  set (b := filter (fun e => negb (inK h [f; g] e)) (alle h [f; g])) in *.
  assert (HB : forall x, In x b <-> In x [f2; f3; g2; g3]).
  { intros x. unfold b. rewrite filter_In, in_alle, negb_true_iff. split.
    - intros ((k & Ik & Jx) & Z). destruct Ik as [<-|[<-|[]]].
      + apply (tv_in _ _ _ _ _ TF) in Jx. cbn in Jx. destruct Jx as [<-|[<-|[<-|[]]]]; cbn; auto. exfalso. apply not_true_iff_false in Z. apply Z.
        apply inK_iff. exists o, g. split; auto. split; [apply (floop_in _ _ _ _ (Lf_of _ _ _ H Ig) Io)|cbn; auto].
      + apply (tv_in _ _ _ _ _ TG) in Jx. cbn in Jx. destruct Jx as [<-|[<-|[<-|[]]]]; cbn; auto. exfalso. apply not_true_iff_false in Z. apply Z.
        apply inK_iff. exists e, f. split; auto. split; [apply (floop_in _ _ _ _ (Lf_of _ _ _ H If) Ie)|cbn; auto].
    - intros Ix. split; [|now apply OUT]. cbn in Ix. destruct Ix as [<-|[<-|[<-|[<-|[]]]]]; [exists f|exists f|exists g|exists g]; (split; [cbn; auto|]);
        (apply (tv_in _ _ _ _ _ TF) || apply (tv_in _ _ _ _ _ TG)); cbn; auto. }
  assert (NB : NoDup b) by (apply NoDup_filter, (NoDup_alle h fs); auto).
  assert (PB : Permutation b [f2; f3; g2; g3]) by (apply NoDup_Permutation; auto).
  destruct (one_loop h b ls) as (l & ->); auto.
  { intros Z. rewrite Z in PB. apply Permutation_nil in PB. discriminate. }
  { apply (Permutation_NoDup (Permutation_sym (Permutation_map (st h) PB))). cbn. rewrite SF2, SF3, SG2, SG3, P1.
    repeat constructor; cbn; intuition congruence. }
  { intros PP (x & Ix & Px) ST. apply HB in Ix.
    assert (T1 : PP f2 -> PP f3) by (intros Z; apply (ST f2 f3); auto; apply HB; cbn; auto).
    assert (T2 : PP f3 -> PP g2) by (intros Z; apply (ST f3 g2); try (apply HB; cbn; auto); congruence).
    assert (T3 : PP g2 -> PP g3) by (intros Z; apply (ST g2 g3); try (apply HB; cbn; auto); congruence).
    assert (T4 : PP g3 -> PP f2) by (intros Z; apply (ST g3 f2); try (apply HB; cbn; auto); congruence).
    intros y Iy. apply HB in Iy. cbn in Ix, Iy. destruct Ix as [<-|[<-|[<-|[<-|[]]]]], Iy as [<-|[<-|[<-|[<-|[]]]]]; auto. }
  exists l. split; auto. cbn in P. rewrite app_nil_r in P. intros x. rewrite <- HB. split; apply Permutation_in; auto. now apply Permutation_sym.
Qed.
(** a point strictly between the ends of the shared edge sees the four sides *)
Lemma pair_star xy : orr Sc Ec xy = 0%R -> (0 <= orr Ec Cc xy)%R -> (0 <= orr Cc Sc xy)%R -> xy <> Sc -> xy <> Ec ->
  forall x, In x [f2; f3; g2; g3] -> (0 < orr (sc h x) (ec h x) xy)%R.
Proof.
  intros Z A1 A2 N1 N2. destruct pair_area as (W1 & W2). destruct pair_ends as (P1 & P2 & _).
  assert (X2 : sc h f2 = Ec) by (unfold sc, Ec, ec; now rewrite (tv_s2 _ _ _ _ _ TF)).
  assert (X3 : sc h f3 = Cc) by (unfold sc, Cc, ec; now rewrite (tv_s3 _ _ _ _ _ TF)).
  assert (Y2 : sc h g2 = Sc) by (unfold sc, Sc, ec; now rewrite (tv_s2 _ _ _ _ _ TG), P1).
  assert (Y3 : sc h g3 = Dc) by (unfold sc, Dc, ec; now rewrite (tv_s3 _ _ _ _ _ TG)).
  assert (Y4 : ec h g3 = Ec) by (unfold Ec, ec; now rewrite P2).
  pose proof (orr_sum Sc Ec Cc xy) as SM. pose proof (orr_barx Sc Ec Cc xy) as BX. pose proof (orr_bary Sc Ec Cc xy) as BY.
  rewrite Z in *. rewrite !Rmult_0_l in BX, BY.
  assert (B1 : (0 < orr Ec Cc xy)%R).
  { destruct A1 as [|A1]; auto. exfalso. apply N2. rewrite <- A1 in *. replace (orr Cc Sc xy) with (orr Sc Ec Cc) in * by lra.
    assert (E1 : (orr Sc Ec Cc * (fst xy - fst Ec) = 0)%R) by lra. assert (E2 : (orr Sc Ec Cc * (snd xy - snd Ec) = 0)%R) by lra.
    apply Rmult_integral in E1 as [?|E1]; [lra|]. apply Rmult_integral in E2 as [?|E2]; [lra|]. destruct xy as [x1 x2], Ec as [y1 y2]. cbn in *. f_equal; lra. }
  assert (B2 : (0 < orr Cc Sc xy)%R).
  { destruct A2 as [|A2]; auto. exfalso. apply N1. rewrite <- A2 in *. replace (orr Ec Cc xy) with (orr Sc Ec Cc) in * by lra.
    assert (E1 : (orr Sc Ec Cc * (fst xy - fst Sc) = 0)%R) by lra. assert (E2 : (orr Sc Ec Cc * (snd xy - snd Sc) = 0)%R) by lra.
    apply Rmult_integral in E1 as [?|E1]; [lra|]. apply Rmult_integral in E2 as [?|E2]; [lra|]. destruct xy as [x1 x2], Sc as [y1 y2]. cbn in *. f_equal; lra. }
  assert (T : (orr Ec Cc xy = orr Sc Ec Cc - orr Cc Sc xy)%R) by lra.
  destruct (slide_orr (orr Sc Ec Cc) (orr Cc Sc xy) Sc Ec Dc xy) as (K1 & K2); [rewrite T in BX; lra|rewrite T in BY; lra|]. rewrite <- T in K2.
  assert (B3 : (0 < orr Sc Dc xy)%R).
  { assert (0 < orr Cc Sc xy * orr Ec Sc Dc)%R by now apply Rmult_lt_0_compat. rewrite <- K1 in H. apply Rnot_le_lt. intros Q.
    assert (0 <= orr Sc Ec Cc * - orr Sc Dc xy)%R by (apply Rmult_le_pos; lra). lra. }
  assert (B4 : (0 < orr Dc Ec xy)%R).
  { assert (0 < orr Ec Cc xy * orr Ec Sc Dc)%R by now apply Rmult_lt_0_compat. rewrite <- K2 in H. apply Rnot_le_lt. intros Q.
    assert (0 <= orr Sc Ec Cc * - orr Dc Ec xy)%R by (apply Rmult_le_pos; lra). lra. }
  intros x Ix. cbn in Ix. destruct Ix as [<-|[<-|[<-|[<-|[]]]]]; rewrite ?X2, ?X3, ?Y2, ?Y3, ?Y4; auto.
Qed.
End Pair.

(** the rim of the mesh: half-edges without opposite *)
Definition on_rim h fs xy := exists f e, In f fs /\ In e (Lf h f) /\ op h e = None /\ on_seg (sc h e) (ec h e) xy.
Definition is_corner h fs xy := exists f e, In f fs /\ In e (Lf h f) /\ ec h e = xy.

Lemma tri_on_seg a b c q : ccw a b c -> in_closed a b c q -> orr a b q = 0%R -> on_seg a b q.
Proof.
  intros W (r & s & t & R0 & S0 & T0 & E & ->) Z. unfold ccw in W. rewrite <- orr_area in W. rewrite orr_mix in Z by lra.
  apply Rmult_integral in Z as [->|Z]; [|lra]. exists s. split; [lra|]. unfold along, mix. replace r with (1 - s)%R by lra. f_equal; ring.
Qed.
Lemma in_closed_rot a b c q : in_closed a b c q -> in_closed b c a q.
Proof. intros (r & s & t & R0 & S0 & T0 & E & ->). exists s, t, r. repeat split; try lra; apply mix_rot. Qed.

Lemma inserted_progress h fs xy h' fs' : tmesh h fs -> inserted h fs xy h' fs' None ->
  is_corner h fs xy \/ ~ region h fs xy \/ on_rim h fs xy.
Proof.
  intros TM I. assert (X : exists r, located h fs xy r /\ (forall seed, r = Some seed -> seed <> [] ->
      forall es, getOrientedFacesBoundaries h seed = Ok [es] -> es <> [] -> ~ (forall e, In e es -> (0 < orr (sc h e) (ec h e) xy)%R))).
  { inversion I as [r LR NS|]; subst. eauto. }
  clear I. destruct X as (r & LR & NS). pose proof TM as (H & HT). destruct LR as [f e If Ie Q|OUT|f e1 e2 e3 If Q IN|f e1 e2 e3 e If Q IC Ie Z OP|f e1 e2 e3 e o g If Q IC N1 N2 N3 Ie Z OP Ig Io NE].
  - left. exists f, e. auto.
  - right. left. intros (f & If & (e1 & e2 & e3 & Q & IC)). apply (OUT f e1 e2 e3); auto.
  - exfalso. destruct (seed1 h fs f TM If) as (es & A & B). apply (NS [f] eq_refl ltac:(discriminate) es A).
    + intros ->. apply (B e1). rewrite Q. now left.
    + intros e Ie. apply B in Ie. rewrite Q in Ie. destruct (HT f If) as (a1 & a2 & a3 & Q' & W). rewrite Q in Q'. injection Q' as <- <- <-.
      pose proof (Lf_of _ _ _ H If) as L. rewrite Q in L. destruct (tri_st _ _ _ _ _ L) as (T1 & T2 & T3).
      apply (in_open_iff _ _ _ xy W) in IN as (I1 & I2 & I3). cbn in Ie. destruct Ie as [<-|[<-|[<-|[]]]]; rewrite ?T1, ?T2, ?T3; auto.
  - right. right. exists f, e. split; auto. split; auto. split; auto.
    destruct (HT f If) as (a1 & a2 & a3 & Q' & W). rewrite Q in Q'. injection Q' as <- <- <-.
    pose proof (Lf_of _ _ _ H If) as L. rewrite Q in L. destruct (tri_st _ _ _ _ _ L) as (T1 & T2 & T3). rewrite Q in Ie. cbn in Ie.
    destruct Ie as [<-|[<-|[<-|[]]]]; rewrite ?T1, ?T2, ?T3 in *.
    + apply tri_on_seg with (ec h e2); auto using ccw_rot, in_closed_rot.
    + apply tri_on_seg with (ec h e3); auto using ccw_rot, in_closed_rot.
    + apply tri_on_seg with (ec h e1); auto using ccw_rot, in_closed_rot.
  - exfalso. destruct (rot_view h fs f e TM If Ie) as (f2 & f3 & TF). destruct (rot_view h fs g o TM Ig Io) as (g2 & g3 & TG).
    destruct (seed2 h fs f g e o TM If Ig NE Ie Io OP f2 f3 g2 g3 TF TG) as (es & A & B). apply (NS [f; g] eq_refl ltac:(discriminate) es A).
    + intros ->. apply (B f2). now left.
    + assert (S1 : sc h e = ec h f3) by (unfold sc, ec; now rewrite (tv_s1 _ _ _ _ _ TF)). rewrite S1 in Z.
      assert (CN : forall x, In x [e; f2; f3] -> xy <> ec h x).
      { intros x Ix. apply (tv_in _ _ _ _ _ TF) in Ix. rewrite Q in Ix. cbn in Ix. destruct Ix as [<-|[<-|[<-|[]]]]; auto. }
      assert (IC' : in_closed (ec h e) (ec h f2) (ec h f3) xy).
      { destruct (HT f If) as (a1 & a2 & a3 & Q' & W). rewrite Q in Q'. injection Q' as <- <- <-.
        pose proof (Lf_of _ _ _ H If) as L. rewrite Q in L. destruct (tri_facts _ _ _ _ _ L) as (_ & _ & _ & _ & _ & _ & _ & _ & _ & _ & _ & S1' & S2' & S3' & ND).
        destruct (ccw_ne _ _ _ W) as (M1 & M2 & M3).
        assert (X2 : ec h f2 = ec h f2) by auto. pose proof (tv_s2 _ _ _ _ _ TF) as V2. pose proof (tv_s3 _ _ _ _ _ TF) as V3.
        pose proof (proj2 (tv_in _ _ _ _ _ TF f2) ltac:(cbn; auto)) as J2. pose proof (proj2 (tv_in _ _ _ _ _ TF f3) ltac:(cbn; auto)) as J3.
        rewrite Q in *. cbn in Ie, J2, J3. apply en_ne in M1, M2, M3.
        destruct Ie as [<-|[<-|[<-|[]]]], J2 as [<-|[<-|[<-|[]]]]; try congruence; destruct J3 as [<-|[<-|[<-|[]]]]; try congruence; auto using in_closed_rot. }
      apply (in_closed_iff _ _ _ xy (tv_w _ _ _ _ _ TF)) in IC' as (I1 & I2 & I3).
      intros x Ix. apply (pair_star h fs f g e o TM If Ie OP f2 f3 g2 g3 TF TG xy); auto; [apply CN|apply CN|now apply B]; cbn; auto.
Qed.
