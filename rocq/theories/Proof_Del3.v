(** Insertion of a point in a triangulation of a box with empty circles: the circles stay empty
    and no corner inside the box is lost. *)
From Coq Require Import List Arith Lia Bool Reals Lra Permutation ZArith.
From Verif Require Import Model_Base Model_Mesh Model_Geom Model_Tess Spec_Mesh Spec_MeshEdit Spec_Geom Proof_Base
  Proof_Mesh Proof_Mesh2 Proof_Mesh3 Proof_Mesh4 Proof_Mesh9 Proof_PropMesh Proof_PropMesh2 Proof_PropMesh3 Proof_Plane Proof_Geom
  Proof_Tess Proof_Tess2 Proof_Tess3 Proof_Tess4 Proof_Tess5 Proof_Tess6 Proof_Del1 Proof_Del2.
Import ListNotations.
Local Open Scope nat_scope.

Notation C := (R * R)%type.
Implicit Types (h : heap C) (fs K S es : list nat) (f e : nat) (xy p q : C).

(** every circle is empty of corners *)
Definition dele h fs := forall f o r2 q, In f fs -> circ h f o r2 -> is_corner h fs q -> (0 <= pow o r2 q)%R.

Lemma tv_sc h f e f2 f3 : tview h f e f2 f3 -> sc h e = ec h f3.
Proof. intros T. unfold sc, ec. now rewrite (tv_s1 _ _ _ _ _ T). Qed.
Lemma edge_circ h fs f e o r2 : tmesh h fs -> In f fs -> In e (Lf h f) -> circ h f o r2 -> circle_through o r2 [sc h e; ec h e].
Proof.
  intros TM If Ie X. destruct (rot_view h fs f e TM If Ie) as (f2 & f3 & TF). rewrite (tv_sc _ _ _ _ _ TF).
  intros p [<-|[<-|[]]]; apply X; [apply (tv_in _ _ _ _ _ TF); cbn; auto|auto].
Qed.
(** the circles of two neighbours *)
Lemma pair_pow h fs f g e o of_ rf og rg : tmesh h fs -> dele h fs -> In f fs -> In g fs -> In e (Lf h f) -> op h e = Some o -> In o (Lf h g) ->
  circ h f of_ rf -> circ h g og rg -> exists l, (0 <= l)%R /\ forall x, pow og rg x = (pow of_ rf x + l * orr (sc h e) (ec h e) x)%R.
Proof.
  intros TM DE If Ig Ie OP Io CF CG.
  destruct (rot_view h fs f e TM If Ie) as (f2 & f3 & TF). destruct (rot_view h fs g o TM Ig Io) as (g2 & g3 & TG).
  destruct (pair_ends h fs f g e o TM If Ie OP f2 f3 g2 g3 TF TG) as (P1 & P2 & _).
  destruct (pair_area h fs f g e o TM If Ie OP f2 f3 g2 g3 TF TG) as (_ & A2).
  assert (E1 : ec h o = sc h e) by (rewrite (tv_sc _ _ _ _ _ TF); unfold ec; now rewrite P1).
  assert (E2 : sc h o = ec h e) by (rewrite (tv_sc _ _ _ _ _ TG); unfold ec; now rewrite P2).
  pose proof (edge_circ h fs f e of_ rf TM If Ie CF) as X. pose proof (edge_circ h fs g o og rg TM Ig Io CG) as Y. rewrite E1, E2 in Y.
  assert (Y' : circle_through og rg [sc h e; ec h e]) by (intros p Ip; apply Y; cbn in *; tauto).
  destruct (pencil _ _ _ _ _ _ (edge_ne h fs f e TM If Ie) X Y') as (l & HL). exists l. split; auto.
  pose proof (HL (ec h g2)) as Z. rewrite <- (tv_sc _ _ _ _ _ TF), orr_swap in A2.
  assert (J2 : In g2 (Lf h g)) by (apply (tv_in _ _ _ _ _ TG); cbn; auto).
  assert (Z0 : pow og rg (ec h g2) = 0%R) by (unfold pow; rewrite (CG g2 J2); lra).
  assert (Z1 : (0 <= pow of_ rf (ec h g2))%R) by (apply (DE f); auto; exists g, g2; auto).
  rewrite Z0 in Z. set (w := orr (sc h e) (ec h e) (ec h g2)) in *. apply Rnot_lt_le. intros NL.
  assert (0 < - l * - w)%R by (apply Rmult_lt_0_compat; lra). lra.
Qed.

Section Box.
Variables x0 x1 y0 y1 : R.
Notation ib := (in_box x0 x1 y0 y1).
Definition sb q := (x0 < fst q < x1 /\ y0 < snd q < y1)%R.
(** the sides of the box are on the right of everything *)
Definition rimok h fs := forall f e, In f fs -> In e (Lf h f) -> op h e = None ->
  forall q, (ib q -> 0 <= orr (sc h e) (ec h e) q)%R /\ (sb q -> 0 < orr (sc h e) (ec h e) q)%R.
Record dinv h fs : Prop := {
  d_tm : tmesh h fs; d_no : no_over h fs; d_del : dele h fs; d_rim : rimok h fs;
  d_co : forall q, is_corner h fs q -> ib q; d_reg : forall q, ib q -> region h fs q }.
Lemma sb_ib q : sb q -> ib q.
Proof. unfold sb, in_box. lra. Qed.

(** the boundary of a set of faces whose circles contain p, closed under neighbourhood *)
Lemma bad_left h fs S p : dinv h fs -> sb p -> incl S fs -> (forall f, In f S -> bad h f p) ->
  (forall f g, In f S -> nb h fs f g -> bad h g p -> In g S) ->
  forall e, In e (bdry h S) -> (0 < orr (sc h e) (ec h e) p)%R.
Proof.
  intros DI SB IS BD CL e Ie. apply filter_In in Ie as (Ie & NK). apply in_alle in Ie as (f & If & Ie). apply negb_true_iff in NK.
  pose proof (d_tm _ _ DI) as TM. pose proof TM as (H & _).
  destruct (op h e) as [o|] eqn:OP; [|apply (d_rim _ _ DI f e (IS f If) Ie OP); auto].
  assert (Le : Live h fs e) by (exists f; auto). destruct (minv_pair _ _ _ _ H Le OP) as ((g & Ig & Io) & _).
  assert (NG : ~ In g S).
  { intros Z. apply not_true_iff_false in NK. apply NK. apply inK_iff. exists o, g. split; auto. split; auto. apply (floop_in _ _ _ _ (Lf_of _ _ _ H Ig) Io). }
  destruct (circ_exists h fs f TM (IS f If)) as (of_ & rf & CF). destruct (circ_exists h fs g TM Ig) as (og & rg & CG).
  destruct (pair_pow h fs f g e o of_ rf og rg TM (d_del _ _ DI) (IS f If) Ig Ie OP Io CF CG) as (l & L0 & LE).
  pose proof (bad_all h fs f p of_ rf TM (IS f If) (BD f If) CF) as PF.
  destruct (bad_dec h fs g p TM Ig) as [B|PG]; [exfalso; apply NG; apply (CL f g If); auto; exists e, o; auto|].
  specialize (PG og rg CG). rewrite LE in PG. apply Rnot_le_lt. intros NL.
  assert (0 <= l * - orr (sc h e) (ec h e) p)%R by (apply Rmult_le_pos; lra). lra.
Qed.
Definition badd h fs p (B : nat -> bool) := forall f, In f fs -> (B f = true <-> bad h f p).
Lemma bad_bool h fs p : tmesh h fs -> exists B, badd h fs p B.
Proof.
  intros TM. assert (X : forall l : list nat, incl l fs -> exists B : nat -> bool, forall f, In f l -> (B f = true <-> bad h f p)).
  { induction l as [|g l IH]; intros I; [exists (fun _ => true); intros ? []|]. destruct IH as (B & HB); [intros x Ix; apply I; now right|].
    assert (Ig : In g fs) by (apply I; now left).
    assert (Y : exists b : bool, b = true <-> bad h g p).
    { destruct (bad_dec h fs g p TM Ig) as [Y|Y]; [exists true; tauto|exists false]. split; [discriminate|]. intros (o & r2 & Z & W). specialize (Y o r2 Z). lra. }
    destruct Y as (b & Y). exists (fun x => if x =? g then b else B x). intros f If. destruct (Nat.eqb_spec f g) as [->|N]; auto. apply HB. destruct If; congruence. }
  exact (X fs (incl_refl _)).
Qed.

(** the faces the search starts from *)
Lemma seed_bad h fs p seed : dinv h fs -> sb p -> located h fs p (Some seed) ->
  (exists f, In f seed /\ In f fs /\ inc h f p) /\ (forall f, In f seed -> bad h f p).
Proof.
  intros DI SB LR. pose proof (d_tm _ _ DI) as TM. pose proof TM as (H & HT).
  inversion LR as [|OUT|f e1 e2 e3 If Q IN|f e1 e2 e3 e If Q IC Ie Z OP|f e1 e2 e3 e o g If Q IC N1 N2 N3 Ie Z OP Ig Io NE]; subst.
  - exfalso. destruct (d_reg _ _ DI p (sb_ib _ SB)) as (f & If & e1 & e2 & e3 & Q & I). now apply (OUT f e1 e2 e3).
  - assert (IC : in_closed (ec h e1) (ec h e2) (ec h e3) p) by (destruct IN as (r & s & t & IN); exists r, s, t; intuition lra).
    split; [exists f; split; [now left|split; auto; exists e1, e2, e3; auto]|]. intros g [<-|[]].
    destruct (circ_exists h fs f TM If) as (o & r2 & CI). exists o, r2. split; auto.
    destruct (HT f If) as (a1 & a2 & a3 & Q' & W). rewrite Q in Q'. injection Q' as <- <- <-.
    apply (in_open_iff _ _ _ p W) in IN as (I1 & I2 & I3). apply (circ_tri _ _ _ _ _ _ _ Q) in CI.
    apply (closed_pow_lt o r2 _ _ _ p W CI IC); intros ->; unfold orr in *; lra.
  - exfalso. pose proof (proj2 (d_rim _ _ DI f e If Ie OP p) SB). lra.
  - split; [exists f; split; [now left|split; auto; exists e1, e2, e3; auto]|].
    destruct (HT f If) as (a1 & a2 & a3 & Q' & W). rewrite Q in Q'. injection Q' as <- <- <-.
    intros k [<-|[<-|[]]].
    + destruct (circ_exists h fs f TM If) as (oo & r2 & CI). exists oo, r2. split; auto.
      apply (circ_tri _ _ _ _ _ _ _ Q) in CI. apply (closed_pow_lt oo r2 _ _ _ p W CI IC); auto.
    + destruct (circ_exists h fs g TM Ig) as (oo & r2 & CI). exists oo, r2. split; auto.
      assert (ON : on_seg (sc h e) (ec h e) p).
      { pose proof (Lf_of _ _ _ H If) as L. rewrite Q in L. destruct (tri_st _ _ _ _ _ L) as (T1 & T2 & T3). rewrite Q in Ie. cbn in Ie.
        destruct Ie as [<-|[<-|[<-|[]]]]; rewrite ?T1, ?T2, ?T3 in *.
        - apply tri_on_seg with (ec h e2); auto using ccw_rot, in_closed_rot.
        - apply tri_on_seg with (ec h e3); auto using ccw_rot, in_closed_rot.
        - apply tri_on_seg with (ec h e1); auto using ccw_rot, in_closed_rot. }
      assert (CN : forall x, In x (Lf h f) -> p <> ec h x) by (intros x Ix; rewrite Q in Ix; cbn in Ix; destruct Ix as [<-|[<-|[<-|[]]]]; auto).
      destruct (rot_view h fs f e TM If Ie) as (f2 & f3 & TF). destruct (rot_view h fs g o TM Ig Io) as (g2 & g3 & TG).
      destruct (pair_ends h fs f g e o TM If Ie OP f2 f3 g2 g3 TF TG) as (P1 & P2 & _).
      destruct (pair_area h fs f g e o TM If Ie OP f2 f3 g2 g3 TF TG) as (_ & A2).
      rewrite (tv_sc _ _ _ _ _ TF) in *.
      assert (E1 : ec h o = ec h f3) by (unfold ec; now rewrite P1). assert (E2 : ec h g3 = ec h e) by (unfold ec; now rewrite P2).
      apply (closed_pow_lt oo r2 (ec h o) (ec h g2) (ec h g3) p).
      * apply TG.
      * intros x [<-|[<-|[<-|[]]]]; apply CI; apply (tv_in _ _ _ _ _ TG); cbn; auto.
      * rewrite E1, E2. destruct ON as (t & T & ->). exists (1 - t)%R, 0%R, t. split; [lra|]. split; [lra|]. split; [lra|]. split; [lra|].
        unfold along, mix. f_equal; ring.
      * rewrite E1. apply CN. apply (tv_in _ _ _ _ _ TF); cbn; auto.
      * intros ->. rewrite orr_swap in A2. lra.
      * rewrite E2. apply CN. auto.
Qed.

Section AtR.
Variable eps : R.
Local Hint Extern 0 (Num R) => exact (NumR eps) : typeclass_instances.
(** what the insertion does *)
Lemma boyerWatson_del h fs p : dinv h fs -> sb p ->
  (is_corner h fs p /\ boyerWatson h fs p = Ok (h, fs, None)) \/
  exists K es h', boyerWatson h fs p = Ok (h', without K fs ++ seq (nf h) (length es), Some (nv h, filter (fun f => mem f K) fs, seq (nf h) (length es))) /\
    inserted h fs p h' (without K fs ++ seq (nf h) (length es)) (Some (nv h, filter (fun f => mem f K) fs, seq (nf h) (length es))) /\
    incl K fs /\ NoDup K /\ getOrientedFacesBoundaries h K = Ok [es] /\ es <> [] /\
    (forall e, In e es -> (0 < orr (sc h e) (ec h e) p)%R) /\ filled_with h fs p K es h' /\
    (forall f, In f fs -> (In f K <-> bad h f p)).
Proof.
  intros DI SB. pose proof (d_tm _ _ DI) as TM. pose proof TM as (H & HT). unfold boyerWatson.
  destruct (locate_ok eps h p fs fs TM (incl_refl _)) as (r & -> & LR); [intros; contradiction|]. cbn [bind].
  destruct r as [seed|]; [|left; split; auto; inversion LR; subst; eexists _, _; eauto].
  right. destruct (seed_bad h fs p seed DI SB LR) as ((f & If & Iff & IC) & SBD). destruct (located_seed h fs p seed TM LR) as (ND & IS).
  destruct seed as [|s0 sd] eqn:ES; [destruct If|]. rewrite <- ES in *. unfold find_cavity. rewrite (distinct_ok _ ND).
  destruct (flood_bad eps h fs p TM (length (h_f h)) seed (rev seed)) as (K & A & B & D & GG & BK & CL); auto.
  { intros x Ix. now apply in_rev. }
  { rewrite rev_length. assert (length seed <= length fs) by (now apply NoDup_incl_length).
    assert (length fs <= length (h_f h)); [|lia]. apply NoDup_bound; [apply H|]. intros g Ig. apply (Lf_of _ _ _ H Ig). }
  { intros x Ix. left. now apply -> in_rev. }
  rewrite A. cbn [bind].
  assert (KN : K <> []) by (intros ->; apply (GG f If)).
  pose proof (bad_left h fs K p DI SB D BK CL) as LK.
  destruct (star_single h fs K f p TM (d_no _ _ DI) D B KN Iff IC LK) as (es & OB & NE).
  assert (LE : forall e, In e es -> (0 < orr (sc h e) (ec h e) p)%R).
  { intros e Ie. apply LK. apply filter_In. apply (boundary_live h fs K es H D B OB) in Ie as (X & Y). rewrite in_alle, Y. auto. }
  destruct (single_star_ok eps h fs p K TM D B) as (r & -> & SS). destruct r as [es'|]; cbn [bind]; [|exfalso; apply (SS es); auto].
  destruct SS as (OB' & _). rewrite OB in OB'. injection OB' as <-.
  destruct (fill_ok h fs p K es H D B OB) as (h' & AV & FW). exists K, es, h'.
  assert (BW : (let (h0, v) := make_vertex h p in let* (h1, created) := add_vertex h0 es v in
     Ok (h1, filter (fun f => negb (mem f K)) fs ++ created, Some (v, filter (fun f => mem f K) fs, created)))
     = Ok (h', without K fs ++ seq (nf h) (length es), Some (nv h, filter (fun f => mem f K) fs, seq (nf h) (length es)))).
  { unfold make_vertex. change (mkh (h_e h) (h_v h ++ [mkhv p None]) (h_f h)) with (av h p). change (length (h_v h)) with (nv h). rewrite AV. cbn [bind]. reflexivity. }
  split; [exact BW|]. split; [now apply (ins_some h fs p seed K es)|]. do 6 (split; [assumption|]).
  (* the other faces whose circle contains the point *)
  intros g Ig. split; auto. intros BG. destruct (in_dec Nat.eq_dec g K) as [|NG]; auto. exfalso.
  destruct (bad_bool h fs p TM) as (BB & HB). set (S := filter (fun f => BB f && negb (mem f K)) fs).
  assert (IN : forall x, In x S <-> In x fs /\ bad h x p /\ ~ In x K).
  { intros x. unfold S. rewrite filter_In, andb_true_iff, negb_true_iff, <- not_true_iff_false, mem_iff. split.
    - intros (X & Y & Z). split; auto. split; auto. now apply HB. - intros (X & Y & Z). split; auto. split; auto. now apply HB. }
  assert (NS : NoDup S) by (apply NoDup_filter, H). assert (IS' : incl S fs) by (intros x Ix; now apply IN).
  assert (SN : S <> []) by (intros Z; assert (In g S) by (apply IN; auto); rewrite Z in *; contradiction).
  assert (FS : In f S).
  { apply (star_set h fs S f p TM (d_no _ _ DI) IS' NS SN Iff IC). apply (bad_left h fs S p DI SB IS').
    - intros x Ix. now apply IN.
    - intros x y Ix NB By. apply IN in Ix as (Ix & Bx & Nx). pose proof NB as (e & o & Ie & OP & Iy & Io). apply IN. split; auto. split; auto.
      intros Ky. apply Nx. apply (CL y x Ky); auto.
      destruct (minv_pair _ _ _ _ H (ex_intro _ x (conj Ix Ie)) OP) as (_ & _ & OP' & _). exists o, e. auto. }
  apply IN in FS as (_ & _ & FS). apply FS, GG, If.
Qed.
End AtR.

(** ** The circles stay empty *)
Lemma filled_circ h fs p K es h' f o r2 : tmesh h fs -> filled_with h fs p K es h' -> In f (without K fs) -> (circ h' f o r2 <-> circ h f o r2).
Proof.
  intros TM FW If. unfold circ. rewrite (fw_kept _ _ _ _ _ _ FW) by auto. split; intros X e Ie; specialize (X e Ie); destruct (fw_keptc _ _ _ _ _ _ FW f e If Ie) as (_ & E); congruence.
Qed.
Lemma filled_dele h fs p K es h' r : dinv h fs -> sb p -> incl K fs -> NoDup K -> getOrientedFacesBoundaries h K = Ok [es] ->
  (forall e, In e es -> (0 < orr (sc h e) (ec h e) p)%R) -> filled_with h fs p K es h' -> (forall f, In f fs -> (In f K <-> bad h f p)) ->
  inserted h fs p h' (without K fs ++ seq (nf h) (length es)) r ->
  dele h' (without K fs ++ seq (nf h) (length es)).
Proof.
  intros DI SB IK NK HB ST FW KB INS f o r2 q If CI CQ. pose proof (d_tm _ _ DI) as TM. pose proof TM as (H & HT).
  pose proof (inserted_corners _ _ _ _ _ _ q TM INS CQ) as QC.
  apply in_app_or in If as [If|If].
  - apply (filled_circ h fs p K es h' f o r2 TM FW If) in CI. apply in_without in If as (If & NF).
    destruct QC as [->|QC]; [|now apply (d_del _ _ DI f)].
    destruct (bad_dec h fs f p TM If) as [B|B]; auto. exfalso. apply NF. now apply KB.
  - apply in_seq in If. set (i := f - nf h). assert (Hi : i < length es) by (unfold i; lia).
    assert (LF : Lf h' f = [nth i es 0; ne h + 2 * i; ne h + 2 * i + 1]) by (replace f with (nf h + i) by (unfold i; lia); now apply (fw_new _ _ _ _ _ _ FW)).
    destruct (fw_newc _ _ _ _ _ _ FW i Hi) as (E1 & E2 & E3 & _). cbn zeta in E1, E2, E3. set (e := nth i es 0) in *.
    apply (circ_tri _ _ _ _ _ _ _ LF) in CI. rewrite E1, E2, E3 in CI.
    assert (PP : pow o r2 p = 0%R) by (unfold pow; rewrite (CI p); cbn; auto; lra).
    destruct QC as [->|QC]; [lra|].
    assert (Ies : In e es) by now apply nth_In. pose proof (ST e Ies) as OP0. apply (es_in h fs K es H IK NK HB) in Ies as ((t & It & Ie) & NIK).
    pose proof (IK t It) as Itf.
    destruct (circ_exists h fs t TM Itf) as (ot & rt & CT).
    assert (N2 : circle_through o r2 [sc h e; ec h e]) by (intros x [<-|[<-|[]]]; apply CI; cbn; auto).
    destruct (pencil _ _ _ _ _ _ (edge_ne h fs t e TM Itf Ie) (edge_circ h fs t e ot rt TM Itf Ie CT) N2) as (l & HL).
    assert (PT : (pow ot rt p < 0)%R) by (apply (bad_all h fs t); auto; now apply KB).
    pose proof (HL p) as HP. rewrite PP in HP. set (w := orr (sc h e) (ec h e) p) in *.
    assert (L0 : (0 < l)%R).
    { apply Rnot_le_lt. intros Z. assert (0 <= - l * w)%R by (apply Rmult_le_pos; lra). lra. }
    pose proof (d_del _ _ DI t ot rt q Itf CT QC) as QT. rewrite (HL q). set (v := orr (sc h e) (ec h e) q).
    destruct (Rle_dec 0 v) as [V|V]; [assert (0 <= l * v)%R by (apply Rmult_le_pos; lra); lra|].
    destruct (op h e) as [oe|] eqn:OE.
    + destruct (minv_pair _ _ _ _ H (ex_intro _ t (conj Itf Ie)) OE) as ((g & Ig & Io) & _).
      destruct (circ_exists h fs g TM Ig) as (og & rg & CG).
      destruct (pair_pow h fs t g e oe ot rt og rg TM (d_del _ _ DI) Itf Ig Ie OE Io CT CG) as (l' & _ & HL').
      assert (GP : (0 <= pow og rg p)%R).
      { destruct (bad_dec h fs g p TM Ig) as [B|B]; auto. exfalso. apply not_true_iff_false in NIK. apply NIK. apply inK_iff. exists oe, g.
        split; auto. split; [apply (floop_in _ _ _ _ (Lf_of _ _ _ H Ig) Io)|]. now apply KB. }
      rewrite HL' in GP. fold w in GP. assert (LL : (l <= l')%R).
      { apply Rnot_lt_le. intros Z. assert (0 < (l - l') * w)%R by (apply Rmult_lt_0_compat; lra). lra. }
      pose proof (d_del _ _ DI g og rg q Ig CG QC) as QG. rewrite HL' in QG. fold v in QG.
      assert (0 <= (l' - l) * - v)%R by (apply Rmult_le_pos; lra). lra.
    + exfalso. pose proof (proj1 (d_rim _ _ DI t e Itf Ie OE q) (d_co _ _ DI q QC)). unfold v in V. lra.
Qed.

(** ** No corner inside the box is lost *)
Lemma region_dec_sub h fs (l : list nat) q : tmesh h fs -> incl l fs -> (exists f, In f l /\ inc h f q) \/ exists d, (0 < d)%R /\ forall q', near d q q' -> ~ exists f, In f l /\ inc h f q'.
Proof.
  intros TM. induction l as [|f l IH]; intros I.
  - right. exists 1%R. split; [lra|]. intros q' _ (f & [] & _).
  - assert (If : In f fs) by (apply I; now left). destruct (inc_dec h fs f q TM If) as [Y|Y]; [left; exists f; split; [now left|auto]|].
    destruct IH as [(g & Ig & Hg)|(d & D & Hd)]; [intros x Ix; apply I; now right|left; exists g; split; [now right|auto]|].
    destruct (out_near h fs f q TM If Y) as (d' & D' & Hd'). right. exists (Rmin d d'). split; [apply Rmin_glb_lt; auto|].
    intros q' N (g & [<-|Ig] & Hg).
    + apply (Hd' q'); auto. eapply near_mono; [exact N|apply Rmin_r].
    + apply (Hd q'); [|eauto]. eapply near_mono; [exact N|apply Rmin_l].
Qed.
Lemma near_sb q : sb q -> exists d, (0 < d)%R /\ forall q', near d q q' -> ib q'.
Proof.
  intros ((A & B) & D & E). exists (Rmin (Rmin (fst q - x0) (x1 - fst q)) (Rmin (snd q - y0) (y1 - snd q))).
  split; [repeat apply Rmin_glb_lt; lra|]. intros q' (N1 & N2).
  pose proof (Rmin_l (Rmin (fst q - x0) (x1 - fst q)) (Rmin (snd q - y0) (y1 - snd q))). pose proof (Rmin_r (Rmin (fst q - x0) (x1 - fst q)) (Rmin (snd q - y0) (y1 - snd q))).
  pose proof (Rmin_l (fst q - x0) (x1 - fst q)). pose proof (Rmin_r (fst q - x0) (x1 - fst q)). pose proof (Rmin_l (snd q - y0) (y1 - snd q)). pose proof (Rmin_r (snd q - y0) (y1 - snd q)).
  apply Rabs_def2 in N1, N2. unfold in_box. lra.
Qed.
Lemma beyond_near p q d : (0 < d)%R -> exists t, (0 < t)%R /\ near d q (along p q (1 + t)).
Proof.
  intros D. set (M := (Rabs (fst q - fst p) + Rabs (snd q - snd p) + 1)%R).
  pose proof (Rabs_pos (fst q - fst p)) as P1. pose proof (Rabs_pos (snd q - snd p)) as P2.
  assert (HM : (0 < M)%R) by (unfold M; lra). exists (d / (2 * M))%R. assert (T : (0 < d / (2 * M))%R) by (apply Rdiv_lt_0_compat; lra). split; auto.
  set (t := (d / (2 * M))%R) in *. assert (TM : (t * M < d)%R) by (unfold t; replace (d / (2 * M) * M)%R with (d / 2)%R by (field; lra); lra).
  unfold near, along. cbn [fst snd]. replace (fst p + (1 + t) * (fst q - fst p) - fst q)%R with (t * (fst q - fst p))%R by ring.
  replace (snd p + (1 + t) * (snd q - snd p) - snd q)%R with (t * (snd q - snd p))%R by ring. rewrite !Rabs_mult, (Rabs_right t) by lra.
  split; eapply Rle_lt_trans; try exact TM; apply Rmult_le_compat_l; unfold M; lra.
Qed.
Lemma filled_keeps h fs p K es h' q : dinv h fs -> filled_with h fs p K es h' -> (forall f, In f fs -> (In f K <-> bad h f p)) ->
  is_corner h fs q -> sb q -> is_corner h' (without K fs ++ seq (nf h) (length es)) q.
Proof.
  intros DI FW KB QC SB. pose proof (d_tm _ _ DI) as TM. pose proof TM as (H & HT).
  assert (IW : incl (without K fs) fs) by (intros x Ix; now apply in_without in Ix).
  destruct (region_dec_sub h fs (without K fs) q TM IW) as [(f & If & (e1 & e2 & e3 & Q & IC))|(d & D & NR)].
  - pose proof (IW f If) as Iff. destruct (HT f Iff) as (a1 & a2 & a3 & Q' & W). rewrite Q in Q'. injection Q' as <- <- <-.
    destruct (circ_exists h fs f TM Iff) as (o & r2 & CI). pose proof (d_del _ _ DI f o r2 q Iff CI QC) as PQ.
    apply (circ_tri _ _ _ _ _ _ _ Q) in CI.
    assert (X : exists e, In e (Lf h f) /\ q = ec h e).
    { rewrite Q. assert (DEC : forall a : C, q = a \/ q <> a) by (intros a; destruct q as [u v], a as [u' v']; destruct (Req_dec u u'), (Req_dec v v'); subst; auto; right; congruence).
      destruct (DEC (ec h e1)) as [|Z1]; [exists e1; cbn; auto|]. destruct (DEC (ec h e2)) as [|Z2]; [exists e2; cbn; auto|]. destruct (DEC (ec h e3)) as [|Z3]; [exists e3; cbn; auto|].
      pose proof (closed_pow_lt o r2 _ _ _ q W CI IC Z1 Z2 Z3). lra. }
    destruct X as (e & Ie & ->). exists f, e. split; [apply in_or_app; auto|]. rewrite (fw_kept _ _ _ _ _ _ FW) by auto. split; auto. apply (fw_keptc _ _ _ _ _ _ FW f e If Ie).
  - exfalso. destruct (near_sb q SB) as (d' & D' & HB). destruct (beyond_near p q (Rmin d d')) as (t & T & N); [now apply Rmin_glb_lt|].
    set (x := along p q (1 + t)) in *. assert (X : ib x) by (apply HB; eapply near_mono; [exact N|apply Rmin_r]).
    destruct (d_reg _ _ DI x X) as (f & If & I). apply (NR x); [eapply near_mono; [exact N|apply Rmin_l]|]. exists f. split; auto.
    apply in_without. split; auto. intros Kf. apply KB in Kf; auto. destruct (circ_exists h fs f TM If) as (o & r2 & CI).
    pose proof (bad_all h fs f p o r2 TM If Kf CI) as PP. pose proof (d_del _ _ DI f o r2 q If CI QC) as PQ.
    pose proof (beyond_out o r2 p q t PP PQ T) as PX. fold x in PX. destruct I as (e1 & e2 & e3 & Q & IC).
    destruct (HT f If) as (a1 & a2 & a3 & Q' & W). rewrite Q in Q'. injection Q' as <- <- <-.
    apply (circ_tri _ _ _ _ _ _ _ Q) in CI. pose proof (closed_pow o r2 _ _ _ x W CI IC). lra.
Qed.

(** ** One insertion *)
Lemma filled_rim h fs p K es h' : minv h fs -> incl K fs -> NoDup K -> getOrientedFacesBoundaries h K = Ok [es] -> filled_with h fs p K es h' ->
  rimok h fs -> rimok h' (without K fs ++ seq (nf h) (length es)).
Proof.
  intros H IK NK HB FW RO f e If Ie O. apply in_app_or in If as [If|If].
  - rewrite (fw_kept _ _ _ _ _ _ FW) in Ie by auto. destruct (fw_keptc _ _ _ _ _ _ FW f e If Ie) as (X & Y). rewrite X, Y.
    rewrite (kept_op h fs p K es h' f) in O by auto. apply in_without in If as (If & _). now apply (RO f e).
  - apply in_seq in If. replace f with (nf h + (f - nf h)) in Ie by lia. set (i := f - nf h) in *. assert (Hi : i < length es) by (unfold i; lia).
    rewrite (fw_new _ _ _ _ _ _ FW) in Ie by auto. destruct (new_op _ _ _ _ _ _ i FW Hi) as (N1 & N2).
    destruct Ie as [<-|[<-|[<-|[]]]]; try contradiction. destruct (fw_newc _ _ _ _ _ _ FW i Hi) as (E1 & _ & _ & E4 & _). cbn zeta in E1, E4. rewrite E1, E4.
    destruct (fw_en _ _ _ _ _ _ FW i Hi) as (_ & O'). rewrite O' in O.
    pose proof (nth_In es 0 Hi) as J. apply (es_in h fs K es H IK NK HB) in J as ((g & Ig & Ie) & _). apply (RO g); auto.
Qed.
Definition rim_end h fs q := exists f e, In f fs /\ In e (Lf h f) /\ op h e = None /\ ec h e = q.
Lemma filled_rim_end h fs p K es h' q : minv h fs -> incl K fs -> NoDup K -> getOrientedFacesBoundaries h K = Ok [es] -> filled_with h fs p K es h' ->
  rim_end h fs q -> rim_end h' (without K fs ++ seq (nf h) (length es)) q.
Proof.
  intros H IK NK HB FW (f & e & If & Ie & O & Q). destruct (in_dec Nat.eq_dec f K) as [Kf|Kf].
  - assert (Ies : In e es).
    { apply (es_in h fs K es H IK NK HB). split; [exists f; auto|]. apply not_true_iff_false. intros Z. apply inK_iff in Z as (o & g & Z & _). congruence. }
    apply (In_nth _ _ 0) in Ies as (i & Hi & <-). exists (nf h + i), (nth i es 0). split; [apply in_or_app; right; apply in_seq; lia|].
    rewrite (fw_new _ _ _ _ _ _ FW) by auto. split; [now left|]. destruct (fw_en _ _ _ _ _ _ FW i Hi) as (_ & ->). split; auto.
    destruct (fw_newc _ _ _ _ _ _ FW i Hi) as (E1 & _). cbn zeta in E1. congruence.
  - assert (W : In f (without K fs)) by (apply in_without; auto). exists f, e. split; [apply in_or_app; auto|].
    rewrite (fw_kept _ _ _ _ _ _ FW) by auto. split; auto. rewrite (kept_op h fs p K es h' f) by auto. split; auto. rewrite <- Q. apply (fw_keptc _ _ _ _ _ _ FW f e W Ie).
Qed.
Lemma insert_one eps h fs p : dinv h fs -> sb p ->
  exists h' fs' r, @boyerWatson R (NumR eps) h fs p = Ok (h', fs', r) /\ inserted h fs p h' fs' r /\ dinv h' fs' /\ is_corner h' fs' p /\
    (forall q, is_corner h fs q -> sb q -> is_corner h' fs' q) /\ (forall q, rim_end h fs q -> rim_end h' fs' q).
Proof.
  intros DI SB. pose proof (d_tm _ _ DI) as TM. pose proof TM as (H & HT).
  destruct (boyerWatson_del eps h fs p DI SB) as [(IC & E)|(K & es & h' & E & INS & IK & NK & HB & NE & ST & FW & KB)].
  - exists h, fs, None. split; auto. split; [|auto]. apply (ins_none h fs p None); [|congruence]. destruct IC as (f & e & If & Ie & Q). now apply (loc_dup h fs p f e).
  - exists h', (without K fs ++ seq (nf h) (length es)), (Some (nv h, filter (fun f => mem f K) fs, seq (nf h) (length es))).
    split; auto. split; auto. pose proof (inserted_tmesh _ _ _ _ _ _ TM INS) as TM'. pose proof (inserted_cov _ _ _ _ _ _ TM INS) as SC.
    split; [|split; [|split]].
    + constructor; auto.
      * apply (no_over_same h fs); auto. apply (d_no _ _ DI).
      * now apply (filled_dele h fs p K es h' _ DI SB IK NK HB ST FW KB INS).
      * apply (filled_rim h fs p K es h'); auto. apply (d_rim _ _ DI).
      * intros q Q. destruct (inserted_corners _ _ _ _ _ _ q TM INS Q) as [->|Q']; [now apply sb_ib|now apply (d_co _ _ DI)].
      * intros q Q. apply (region_same h fs); auto. now apply (d_reg _ _ DI).
    + assert (Hi : 0 < length es) by (destruct es; [congruence|cbn; lia]). exists (nf h + 0), (ne h + 2 * 0). split; [apply in_or_app; right; apply in_seq; lia|].
      rewrite (fw_new _ _ _ _ _ _ FW) by auto. split; [cbn; auto|]. apply (fw_newc _ _ _ _ _ _ FW 0 Hi).
    + intros q Q S. now apply (filled_keeps h fs p K es h' q).
    + intros q. now apply (filled_rim_end h fs p K es h' q).
Qed.

(** ** All of them *)
Lemma insert_all eps l : forall cs h fs, dinv h fs -> 4 <= nv h -> from_input h l -> (forall p, In p cs -> In p l /\ sb p) ->
  exists h' fs', @insert_points R (NumR eps) h fs cs = Ok (h', fs') /\ dinv h' fs' /\ 4 <= nv h' /\ from_input h' l /\
    (forall q, In q cs -> is_corner h' fs' q) /\ (forall q, is_corner h fs q -> sb q -> is_corner h' fs' q) /\
    (forall q, rim_end h fs q -> rim_end h' fs' q) /\ (forall v, v < 4 -> vco h' v = vco h v).
Proof.
  induction cs as [|xy cs IH]; intros h fs DI N FI I; cbn [insert_points].
  - exists h, fs. split; [reflexivity|]. do 3 (split; [assumption|]). split; [intros q []|]. auto.
  - destruct (I xy (or_introl eq_refl)) as (I1 & I2). destruct (insert_one eps h fs xy DI I2) as (h1 & fs1 & r & -> & IS & DI1 & C1 & C2 & C3). cbn [bind].
    destruct (inserted_input _ _ _ _ _ _ l N I1 FI IS) as (FI1 & N1).
    destruct (IH h1 fs1 DI1 N1 FI1) as (h' & fs' & A & B & D & E & X1 & X2 & X3 & X4); [intros p Ip; apply I; now right|].
    exists h', fs'. repeat (split; [assumption|]). split; [intros q [<-|Iq]; auto|]. split; [auto|]. split; [auto|].
    intros v V. rewrite X4 by auto. destruct IS as [|seed K es h1 _ _ _ _ _ _ _ FW]; auto. rewrite (fw_vco _ _ _ _ _ _ FW). destruct (Nat.eqb_spec v (nv h)); [lia|auto].
Qed.
(** the box *)
Hypothesis Hx : (x0 < x1)%R.
Hypothesis Hy : (y0 < y1)%R.
Lemma box_dinv : dinv (box (x1, y0) (x0, y1) (x0, y0) (x1, y1)) [0; 1].
Proof.
  assert (CN : forall q, is_corner (box (x1, y0) (x0, y1) (x0, y0) (x1, y1)) [0; 1] q -> In q [(x1, y0); (x0, y1); (x0, y0); (x1, y1)]).
  { intros q (f & e & [<-|[<-|[]]] & Ie & <-); destruct Ie as [<-|[<-|[<-|[]]]]; cbn; auto. }
  constructor.
  - now apply box_tmesh.
  - now apply box_no_over.
  - intros f o r2 q If CI QC. apply CN in QC.
    assert (E : (dist2 (x1, y0) o + dist2 (x0, y1) o = dist2 (x0, y0) o + dist2 (x1, y1) o)%R) by (unfold dist2; cbn; ring).
    unfold pow. destruct If as [<-|[<-|[]]].
    + pose proof (CI 0 ltac:(cbn; auto)) as C0. pose proof (CI 1 ltac:(cbn; auto)) as C1. pose proof (CI 2 ltac:(cbn; auto)) as C2. cbn in C0, C1, C2.
      cbn in QC. destruct QC as [<-|[<-|[<-|[<-|[]]]]]; lra.
    + pose proof (CI 4 ltac:(cbn; auto)) as C0. pose proof (CI 3 ltac:(cbn; auto)) as C1. pose proof (CI 5 ltac:(cbn; auto)) as C2. cbn in C0, C1, C2.
      cbn in QC. destruct QC as [<-|[<-|[<-|[<-|[]]]]]; lra.
  - intros f e If Ie O q. unfold in_box, sb. assert (M : forall a b, (0 <= a)%R -> (0 <= b)%R -> (0 <= a * b)%R) by (intros; now apply Rmult_le_pos).
    assert (M' : forall a b, (0 < a)%R -> (0 < b)%R -> (0 < a * b)%R) by (intros; now apply Rmult_lt_0_compat).
    destruct If as [<-|[<-|[]]]; destruct Ie as [<-|[<-|[<-|[]]]]; try discriminate; cbn; unfold orr; cbn [fst snd]; split; intros ((X0 & X1) & Y0 & Y1).
    all: pose proof (M (x1 - x0)%R (snd q - y0)%R); pose proof (M (x1 - x0)%R (y1 - snd q)%R); pose proof (M (y1 - y0)%R (fst q - x0)%R); pose proof (M (y1 - y0)%R (x1 - fst q)%R);
         pose proof (M' (x1 - x0)%R (snd q - y0)%R); pose proof (M' (x1 - x0)%R (y1 - snd q)%R); pose proof (M' (y1 - y0)%R (fst q - x0)%R); pose proof (M' (y1 - y0)%R (x1 - fst q)%R); lra.
  - intros q Q. apply CN in Q. unfold in_box. cbn in Q. destruct Q as [<-|[<-|[<-|[<-|[]]]]]; cbn; lra.
  - intros q Q. now apply box_region.
Qed.
Lemma box_ends c : In c [(x1, y0); (x0, y1); (x0, y0); (x1, y1)] -> rim_end (box (x1, y0) (x0, y1) (x0, y0) (x1, y1)) [0; 1] c.
Proof.
  intros [<-|[<-|[<-|[<-|[]]]]]; [exists 0, 0|exists 1, 4|exists 0, 2|exists 1, 5]; (split; [cbn; auto|split; [cbn; auto|split; reflexivity]]).
Qed.
End Box.
