(** The mesh around the points, and the removal of what touches its corners. *)
From Coq Require Import List Arith Lia Bool Reals Lra Permutation ZArith.
From Verif Require Import Model_Base Model_Mesh Model_Geom Model_Tess Spec_Mesh Spec_MeshEdit Spec_Geom Spec_Tess Proof_Base
  Proof_Mesh Proof_Mesh2 Proof_Mesh3 Proof_Mesh4 Proof_Mesh9 Proof_PropMesh Proof_PropMesh2 Proof_PropMesh3 Proof_PropMesh4
  Proof_Plane Proof_Tess Proof_Tess2 Proof_Tess3 Proof_Tess4 Proof_Tess5 Proof_PropTess.
Import ListNotations.
Local Open Scope nat_scope.

Notation C := (R * R)%type.
Implicit Types (fs K es : list nat) (f e : nat) (xy q : C).

(** ** Bounds of a list of points *)
Section AtR.
Variable eps : R.
Local Hint Extern 0 (Num R) => exact (NumR eps) : typeclass_instances.

Lemma nmin_R x y : nmin x y = Rmin x y.
Proof. unfold nmin, Rmin. nsimp. destruct (Rltb_spec y x), (Rle_dec x y); lra. Qed.
Lemma nmax_R x y : nmax x y = Rmax x y.
Proof. unfold nmax, Rmax. nsimp. destruct (Rltb_spec x y), (Rle_dec x y); lra. Qed.

Definition bounds_ok (l : list C) (mn mx : C) : Prop :=
  (forall p, In p l -> fst mn <= fst p <= fst mx /\ snd mn <= snd p <= snd mx)%R /\
  (exists p, In p l /\ fst mn = fst p) /\ (exists p, In p l /\ fst mx = fst p) /\
  (exists p, In p l /\ snd mn = snd p) /\ (exists p, In p l /\ snd mx = snd p).
Lemma minmax_ok (l : list C) : l <> [] -> exists mn mx, getCoordsMinMax l = Ok (mn, mx) /\ bounds_ok l mn mx.
Proof.
  destruct l as [|x l]; [congruence|]. intros _. unfold getCoordsMinMax. cbn [front bind].
  set (F := fun mm X => _).
  assert (G : forall (t l0 : list C) mn mx, bounds_ok l0 mn mx -> exists mn' mx', fold_left F t (mn, mx) = (mn', mx') /\ bounds_ok (l0 ++ t) mn' mx').
  { induction t as [|y t IH]; intros l0 mn mx B.
    - exists mn, mx. rewrite app_nil_r. auto.
    - cbn [fold_left]. assert (Q : exists mn1 mx1, F (mn, mx) y = (mn1, mx1) /\ bounds_ok (l0 ++ [y]) mn1 mx1).
      { unfold F. cbn [fst snd]. rewrite !nmin_R, !nmax_R. do 2 eexists. split; [reflexivity|].
        destruct B as (B & (p1 & I1 & E1) & (p2 & I2 & E2) & (p3 & I3 & E3) & (p4 & I4 & E4)).
        split.
        { intros p Ip. cbn [fst snd]. apply in_app_or in Ip as [Ip|[<-|[]]].
          - destruct (B p Ip). pose proof (Rmin_l (fst mn) (fst y)). pose proof (Rmin_l (snd mn) (snd y)). pose proof (Rmax_l (fst mx) (fst y)). pose proof (Rmax_l (snd mx) (snd y)). lra.
          - pose proof (Rmin_r (fst mn) (fst y)). pose proof (Rmin_r (snd mn) (snd y)). pose proof (Rmax_r (fst mx) (fst y)). pose proof (Rmax_r (snd mx) (snd y)). lra. }
        cbn [fst snd]. assert (Y : In y (l0 ++ [y])) by (apply in_or_app; right; now left).
        assert (Z : forall p, In p l0 -> In p (l0 ++ [y])) by (intros; apply in_or_app; auto).
        split; [|split; [|split]].
        - unfold Rmin. destruct (Rle_dec _ _); eauto. - unfold Rmax. destruct (Rle_dec _ _); eauto.
        - unfold Rmin. destruct (Rle_dec _ _); eauto. - unfold Rmax. destruct (Rle_dec _ _); eauto. }
      destruct Q as (mn1 & mx1 & -> & B1). destruct (IH _ _ _ B1) as (mn' & mx' & A & B2). exists mn', mx'. split; auto. now rewrite <- app_assoc in B2. }
  assert (B0 : bounds_ok [x] x x).
  { split; [intros p [<-|[]]; lra|]. repeat split; exists x; cbn; auto. }
  cbn [fold_left]. assert (Q : F (x, x) x = (x, x)).
  { unfold F. cbn [fst snd]. rewrite !nmin_R, !nmax_R. unfold Rmin, Rmax. destruct x as [u v]. cbn [fst snd].
    destruct (Rle_dec u u), (Rle_dec v v); auto; lra. }
  rewrite Q. destruct (G l [x] x x B0) as (mn & mx & A & B). exists mn, mx. rewrite A. auto.
Qed.

(** ** The box *)
Definition box (a b c d : C) : heap C :=
  mkh [he4 0 0 1 2 None; he4 1 0 2 0 (Some 3); he4 2 0 0 1 None;
       he4 0 1 5 4 (Some 1); he4 1 1 3 5 None; he4 3 1 4 3 None]
      [mkhv a (Some 0); mkhv b (Some 1); mkhv c (Some 2); mkhv d (Some 5)] [Some 0; Some 4].
Lemma box_ok a b c d : minv (box a b c d) [0; 1].
Proof.
  apply mesh_ok_iff. apply reached_prop.
  set (one := mkh [he4 0 0 1 2 None; he4 1 0 2 0 None; he4 2 0 0 1 None] [mkhv a (Some 0); mkhv b (Some 1); mkhv c (Some 2)] [Some 0]).
  assert (R1 : reached one [0]) by (apply (reached_edit (mkh [] [] []) [] (NewFace [a; b; c])); [constructor|cbn; lia|reflexivity]).
  apply (reached_edit one [0] (AttachFace (Some 0) (Some 1) d)); [exact R1| |reflexivity].
  intros i [= <-]. pose proof (reached_prop _ _ R1) as M. livetac M.
Qed.
Lemma box_views a b c d : Lf (box a b c d) 0 = [0; 1; 2] /\ Lf (box a b c d) 1 = [4; 3; 5].
Proof. split; reflexivity. Qed.

Section Box.
Variables x0 x1 y0 y1 : R.
Hypothesis Hx : (x0 < x1)%R.
Hypothesis Hy : (y0 < y1)%R.
Let B := box (x1, y0) (x0, y1) (x0, y0) (x1, y1).
Lemma box_tmesh : tmesh B [0; 1].
Proof.
  split; [apply box_ok|]. intros f [<-|[<-|[]]].
  - exists 0, 1, 2. split; [reflexivity|]. cbv -[Rlt Rminus Rmult]. assert (0 < (x1 - x0) * (y1 - y0))%R by (apply Rmult_lt_0_compat; lra). lra.
  - exists 4, 3, 5. split; [reflexivity|]. cbv -[Rlt Rminus Rmult]. assert (0 < (x1 - x0) * (y1 - y0))%R by (apply Rmult_lt_0_compat; lra). lra.
Qed.
Definition in_box q := (x0 <= fst q <= x1 /\ y0 <= snd q <= y1)%R.
Definition on_box q := (fst q = x0 \/ fst q = x1 \/ snd q = y0 \/ snd q = y1)%R.
Lemma box_region q : in_box q -> region B [0; 1] q.
Proof.
  intros ((X0 & X1) & Y0 & Y1). destruct box_tmesh as (_ & HT).
  set (w := orr (x1, y0) (x0, y1) q). destruct (Rle_dec 0 w) as [W|W].
  - exists 0. split; [now left|]. exists 0, 1, 2. split; [reflexivity|].
    destruct (HT 0) as (e1 & e2 & e3 & Q & CW); [now left|]. injection Q as <- <- <-. apply (in_closed_iff _ _ _ q CW).
    change (ec B 0) with (x1, y0). change (ec B 1) with (x0, y1). change (ec B 2) with (x0, y0). fold w. split; auto.
    unfold orr. cbn [fst snd]. split; [assert (0 <= (y1 - y0) * (fst q - x0))%R by (apply Rmult_le_pos; lra); lra|].
    assert (0 <= (x1 - x0) * (snd q - y0))%R by (apply Rmult_le_pos; lra). lra.
  - exists 1. split; [right; now left|]. exists 4, 3, 5. split; [reflexivity|].
    destruct (HT 1) as (e1 & e2 & e3 & Q & CW); [right; now left|]. injection Q as <- <- <-. apply (in_closed_iff _ _ _ q CW).
    change (ec B 4) with (x0, y1). change (ec B 3) with (x1, y0). change (ec B 5) with (x1, y1). rewrite orr_swap. fold w. split; [lra|].
    unfold orr. cbn [fst snd]. split; [assert (0 <= (y1 - y0) * (x1 - fst q))%R by (apply Rmult_le_pos; lra); lra|].
    assert (0 <= (x1 - x0) * (y1 - snd q))%R by (apply Rmult_le_pos; lra). lra.
Qed.
Lemma box_rim q : on_rim B [0; 1] q -> on_box q.
Proof.
  intros (f & e & If & Ie & O & (t & _ & ->)). unfold on_box.
  destruct If as [<-|[<-|[]]]; [change (Lf B 0) with [0; 1; 2] in Ie|change (Lf B 1) with [4; 3; 5] in Ie];
   destruct Ie as [<-|[<-|[<-|[]]]]; try discriminate; cbv -[Rlt Rminus Rmult Rplus]; lra.
Qed.
Lemma box_no_over : no_over B [0; 1].
Proof.
  intros f g q If Ig (e1 & e2 & e3 & Q & I) (a1 & a2 & a3 & Q' & I'). destruct box_tmesh as (_ & HT).
  destruct (HT 0) as (b1 & b2 & b3 & P & CW); [now left|]. injection P as <- <- <-.
  destruct (HT 1) as (b1 & b2 & b3 & P & CW'); [right; now left|]. injection P as <- <- <-.
  destruct If as [<-|[<-|[]]], Ig as [<-|[<-|[]]]; auto; exfalso; injection Q as <- <- <-; injection Q' as <- <- <-.
  - apply (in_open_iff _ _ _ q CW) in I as (I & _). apply (in_open_iff _ _ _ q CW') in I' as (I' & _).
    change (ec B 4) with (ec B 1) in I'. change (ec B 3) with (ec B 0) in I'. rewrite orr_swap in I'. lra.
  - apply (in_open_iff _ _ _ q CW') in I as (I & _). apply (in_open_iff _ _ _ q CW) in I' as (I' & _).
    change (ec B 4) with (ec B 1) in I. change (ec B 3) with (ec B 0) in I. rewrite orr_swap in I. lra.
Qed.
End Box.

Lemma encompassing_ok (l : list C) mn mx : getCoordsMinMax l = Ok (mn, mx) ->
  let x1 := (fst mx + 1 / 10 * (fst mx - fst mn))%R in let y1 := (snd mx + 1 / 10 * (snd mx - snd mn))%R in
  let x0 := (fst mn - 1 / 10 * (x1 - fst mn))%R in let y0 := (snd mn - 1 / 10 * (y1 - snd mn))%R in
  getEncompassingMesh l = Ok (box (x1, y0) (x0, y1) (x0, y0) (x1, y1), [0; 1]).
Proof.
  intros A x1 y1 x0 y0. unfold getEncompassingMesh. rewrite A. cbn [bind fst snd].
  replace (ndiv (nofnat 10) (nofnat 100)) with (1 / 10)%R by (rewrite !nofnat_R; cbn [ndiv NumR]; cbn [INR]; field).
  reflexivity.
Qed.
Lemma box_vertices a b c d : face_vertices (box a b c d) [0; 1] [] = Ok [0; 1; 2; 3].
Proof. reflexivity. Qed.

(** ** Inserting all the points *)
Definition from_input (h : heap C) (l : list C) := forall v c, 4 <= v -> vco h v = Some c -> In c l.
Lemma inserted_input h fs xy h' fs' r l : 4 <= nv h -> In xy l -> from_input h l -> inserted h fs xy h' fs' r -> from_input h' l /\ 4 <= nv h'.
Proof.
  intros N I FI IS. destruct IS as [|seed K es h' _ _ _ _ _ _ _ FW]; auto. split; [|rewrite (fw_nv _ _ _ _ _ _ FW); lia].
  intros v c V. rewrite (fw_vco _ _ _ _ _ _ FW). destruct (v =? nv h); [intros [= <-]; auto|]. now apply FI.
Qed.
Lemma insert_basic l : forall cs (h : heap C) fs, tmesh h fs -> 4 <= nv h -> from_input h l -> (forall p, In p cs -> In p l) -> no_over h fs ->
  exists h' fs', insert_points h fs cs = Ok (h', fs') /\ tmesh h' fs' /\ 4 <= nv h' /\ from_input h' l /\ no_over h' fs'.
Proof.
  induction cs as [|xy cs IH]; intros h fs TM N FI I NO; cbn [insert_points].
  - eauto 8.
  - destruct (boyerWatson_ok eps h fs xy TM) as (h1 & fs1 & r & A & IS). rewrite A. cbn [bind].
    pose proof (inserted_tmesh _ _ _ _ _ _ TM IS) as TM1. pose proof (inserted_cov _ _ _ _ _ _ TM IS) as SC.
    destruct (inserted_input _ _ _ _ _ _ l N (I xy (or_introl eq_refl)) FI IS) as (FI1 & N1).
    apply IH; auto. { intros p Ip. apply I. now right. } now apply (no_over_same h fs).
Qed.
End AtR.

(** ** Removing the faces at a vertex *)
Lemma remove_tm (h : heap C) fs v : tri_mesh h fs -> v < length (h_v h) ->
  exists h' kept n, remove_faces h fs v = Ok (h', kept, n) /\ tri_mesh h' kept /\ incl kept fs /\ h_v h' = h_v h /\
    (forall f, In f kept <-> In f fs /\ ~ touches h f v) /\
    (forall f e1 e2 e3 a b d, In f kept -> (triangle h' f e1 e2 e3 a b d <-> triangle h f e1 e2 e3 a b d)).
Proof.
  intros (M & W) V. destruct (remove_faces_prop h fs v M V) as (h' & kept & n & A & M' & KE & _ & FL & LK & HV & HF & _).
  assert (EN : forall e w f l, In f fs -> face_loop h f l -> In e l -> (ends h' e w <-> ends h e w)).
  { intros e w f l If Fl Ie. destruct Fl as (_ & _ & _ & Fl). apply In_nth_error in Ie as (i & Hi). destruct (Fl i e Hi) as (_ & _ & _ & v0 & (r & E0 & V0 & _)).
    destruct (LK e r E0) as (o & E1). unfold ends. rewrite HV. split; intros (r' & E2 & V2 & V3).
    - exists r. split; auto. unfold is_edge in *. rewrite E1 in E2. injection E2 as <-. auto.
    - unfold is_edge in *. rewrite E0 in E2. injection E2 as <-. eexists. split; [exact E1|]. auto. }
  assert (TR : forall f e1 e2 e3 a b d, In f kept -> (triangle h' f e1 e2 e3 a b d <-> triangle h f e1 e2 e3 a b d)).
  { intros f e1 e2 e3 a b d If. unfold triangle. rewrite <- (FL f _ If).
    assert (X : face_loop h f [e1; e2; e3] -> forall e w, In e [e1; e2; e3] -> (ends h' e w <-> ends h e w)).
    { intros Fl e w Ie. apply (EN e w f [e1; e2; e3]); auto. now apply KE. }
    split; intros (Fl & E1 & E2 & E3); (split; [exact Fl|]).
    - rewrite <- !(X Fl) by (cbn; auto). auto. - rewrite !(X Fl) by (cbn; auto). auto. }
  exists h', kept, n. split; auto. split; [|split; [|split; [|split]]]; auto.
  - split; auto. intros f If. destruct (W f) as (P & Q & D & (e1 & e2 & e3 & a & b & d & T & C1 & C2 & C3) & CW); [now apply KE|].
    exists P, Q, D. split; auto. exists e1, e2, e3, a, b, d. rewrite TR by auto. unfold coords_are. rewrite HV. auto.
  - intros f If. now apply KE.
Qed.
Lemma remove_all_ok : forall vs (h : heap C) fs, tri_mesh h fs -> (forall v, In v vs -> v < length (h_v h)) ->
  exists h' kept, remove_all h fs vs = Ok (h', kept) /\ tri_mesh h' kept /\ incl kept fs /\ h_v h' = h_v h /\
    (forall f, In f kept <-> In f fs /\ forall v, In v vs -> ~ touches h f v) /\
    (forall f e1 e2 e3 a b d, In f kept -> (triangle h' f e1 e2 e3 a b d <-> triangle h f e1 e2 e3 a b d)).
Proof.
  induction vs as [|v vs IH]; intros h fs TM V; cbn [remove_all].
  - exists h, fs. repeat (split; [auto using incl_refl; fail|]). split; [|tauto]. intros f. split; [intros I; split; auto; intros v []|tauto].
  - destruct (remove_tm h fs v TM) as (h1 & k1 & n & -> & TM1 & I1 & V1 & KE1 & T1); [apply V; now left|]. cbn [bind].
    destruct (IH h1 k1 TM1) as (h2 & k2 & -> & TM2 & I2 & V2 & KE2 & T2); [intros w Iw; rewrite V1; apply V; now right|].
    assert (TCH : forall f w, In f k1 -> (touches h1 f w <-> touches h f w)).
    { intros f w If. pose proof TM as (_ & W). destruct (W f (I1 f If)) as (P & Q & D & (e1 & e2 & e3 & a & b & d & T & _) & _).
      assert (T' : triangle h1 f e1 e2 e3 a b d) by (now apply T1).
      assert (X : forall (hh : heap C), triangle hh f e1 e2 e3 a b d -> (touches hh f w <-> w = a \/ w = b \/ w = d)).
      { clear. intros hh (L & Ea & Eb & Ed). split.
        - intros (l & e & L' & Ie & Ee). apply face_loop_iff in L, L'. apply Lf_ok in L, L'. rewrite L in L'. subst l.
          apply ends_iff in Ea as (_ & Ea & _), Eb as (_ & Eb & _), Ed as (_ & Ed & _), Ee as (_ & Ee & _).
          cbn in Ie. destruct Ie as [<-|[<-|[<-|[]]]]; intuition congruence.
        - intros [-> |[-> | ->]]; [exists [e1; e2; e3], e1|exists [e1; e2; e3], e2|exists [e1; e2; e3], e3]; (split; [auto|split; [cbn; auto|auto]]). }
      rewrite (X h1 T'), (X h T). tauto. }
    exists h2, k2. split; auto. split; auto. split; [intros f If; auto|]. split; [congruence|]. split.
    + intros f. rewrite KE2. split.
      * intros (If & X). split; [auto|]. intros w [<-|Iw]; [now apply KE1|]. intros Y. apply (X w Iw). now apply TCH.
      * intros (If & X). assert (If1 : In f k1) by (apply KE1; split; auto; apply X; now left). split; auto.
        intros w Iw Y. apply (X w); [now right|]. now apply TCH.
    + intros f e1 e2 e3 a b d If. rewrite T2 by auto. apply T1. auto.
Qed.
