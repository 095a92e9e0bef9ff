(** Reversal, trimming, bounds and knot insertion in V for surfaces. *)
From Coq Require Import List Arith ZArith Reals Lia Lra Bool.
From Verif Require Import Model_Base Model_Basis Model_Knots Model_Rational Model_Curve Model_Surface Spec_Base Spec_Basis Spec_Eval
  Spec_Curve Spec_Class Spec_Surface Proof_Base Proof_Blossom Proof_Basis Proof_Ders Proof_Eval Proof_PropBasis Proof_Refine
  Proof_Insert Proof_Boehm Proof_Unique Proof_PropInsert Proof_Trim Proof_PropRemove2 Proof_Ctor Proof_Curve Proof_PropCurve
  Proof_Surface Proof_Grid Proof_SurfEdit.
Import ListNotations.
Local Open Scope R_scope.

Section AtR.
Variable eps : R.
Local Hint Extern 0 (Num R) => exact (NumR eps) : typeclass_instances.

Definition rows_inserted (s : surf R) (u : R) r idx k1 n1 (F : nat -> list (pt R)) : Prop :=
  knots_ok k1 n1 (s_degU s) /\ kn k1 0 = kn (s_ku s) 0 /\ kn k1 (n1 + s_degU s) = kn (s_ku s) (s_nU s + s_degU s) /\
  forall j, (j < s_nV s)%nat ->
    insert_knots u (s_degU s) r (s_ku s) (row (s_poles s) (s_nU s) j) = Ok (idx, k1, F j) /\ length (F j) = n1.

Lemma insertU_rows (s : surf R) u r idx k1 n1 F : surface_ok s -> rows_inserted s u r idx k1 n1 F ->
  insertKnotU s u r = Ok (idx, with_u s (rows F (s_nV s)) k1 (s_u1 s) (s_u2 s)).
Proof.
  intros Hok (K1 & _ & _ & J). pose proof Hok as (_ & (_ & HpV & _) & _).
  unfold insertKnotU. rewrite nPolesV_ok by auto. cbn [bind].
  set (body := fun (j : nat) (st : Z * list R * list (pt R)) => _).
  destruct (for_inv (fun j st => (1 <= j -> fst st = (idx, k1))%nat /\ snd st = rows F j)
    body 0 (s_nV s) (0%Z, [], [])) as ([[ik k] P] & EB & B1 & B2).
  + split; [intros; lia|reflexivity].
  + intros j [[ik k] acc] Hj (_ & B). cbn [snd] in B. subst acc. unfold body. rewrite polesU_ok by (auto; lia). cbn [bind].
    destruct (J j ltac:(lia)) as (EJ & _). rewrite EJ. cbn [bind].
    eexists; split; [reflexivity|]. split; [intros; reflexivity|]. cbn [snd]. rewrite rows_S. reflexivity.
  + cbn [fst snd] in B1, B2. specialize (B1 ltac:(lia)). injection B1 as -> ->. rewrite EB. cbn [bind]. subst P. reflexivity.
Qed.

Lemma insertV_rows (s s1 : surf R) v r idx k1 n1 F : surface_ok s -> natural_surface s ->
  invertUV s = Ok s1 -> rows_inserted s1 v r idx k1 n1 F ->
  insertKnotV s v r = let* s3 := invertUV (with_u s1 (rows F (s_nV s1)) k1 (s_u1 s1) (s_u2 s1)) in Ok (idx, s3).
Proof.
  intros Hok Hn E1 (K1 & A3 & A4 & J). destruct (invert_ok eps s Hok) as (T & E & EI & LT & R1 & C1 & V).
  rewrite EI in E1. injection E1 as E1.
  pose proof Hok as (HkU & HkV & L). pose proof HkU as (LU & HpU & _). pose proof HkV as (LV & HpV & _).
  assert (Hok1 : surface_ok s1) by (subst s1; split; [exact HkV|split; [exact HkU|exact LT]]).
  destruct (rows_surface s1 F k1 n1 (s_u1 s1) (s_u2 s1) Hok1 K1 ltac:(intros j Hj; apply J, Hj)) as (Hok2 & N1 & N2 & HR).
  cbv zeta in *. set (s2 := with_u s1 _ _ _ _) in *.
  destruct (invert_ok eps s2 Hok2) as (T2 & E2 & EI2 & _). rewrite EI2. cbn [bind].
  unfold insertKnotV. rewrite nPolesU_ok by auto. cbn [bind].
  assert (M : s_nV s1 = s_nU s) by (subst s1; reflexivity).
  set (body := fun (j : nat) (st : Z * list R * list (pt R)) => _).
  destruct (for_inv (fun j st => (1 <= j -> fst st = (idx, k1))%nat /\ snd st = rows F j)
      body 0 (s_nU s) (0%Z, [], [])) as ([[ik k] P] & EB & B1 & B2).
  - split; [intros; lia|reflexivity].
  - intros i [[ik k] acc] Hj (_ & B). cbn [snd] in B. subst acc. unfold body. rewrite polesV_ok by (auto; lia). cbn [bind].
    rewrite <- R1 by lia. destruct (J i ltac:(lia)) as (EJ & _). rewrite <- E1 in EJ.
    change (s_nU {| s_degU := _ |}) with (s_nV s) in EJ. cbn [s_poles s_degU s_ku] in EJ. rewrite EJ. cbn [bind].
    eexists; split; [reflexivity|]. split; [intros; reflexivity|]. cbn [snd]. rewrite rows_S. reflexivity.
  - cbn [fst snd] in B1, B2. specialize (B1 ltac:(lia)). injection B1 as -> ->. rewrite EB. cbn [bind]. subst P.
    rewrite N2, M in E2. change (s_poles s2) with (rows F (s_nV s1)) in E2. rewrite M in E2.
    rewrite Nat.add_0_l, E2. cbn [bind]. destruct Hn as (B1 & B2 & B3 & B4).
    rewrite N1, N2, M. change (s_degV s2) with (s_degV s1). change (s_degU s2) with (s_degU s1). change (s_kv s2) with (s_kv s1).
    change (s_ku s2) with k1. rewrite A3, A4. subst s1. change (s_nU {| s_degU := _ |}) with (s_nV s).
    cbn [s_degU s_degV s_ku s_kv]. rewrite B1, B2, B3, B4. reflexivity.
Qed.

Lemma insertV_eq (s : surf R) v r : surface_ok s -> natural_surface s ->
  kn (s_kv s) (s_degV s) <= v < kn (s_kv s) (s_nV s) -> (1 <= r)%nat ->
  insertKnotV s v r =
    let* s1 := invertUV s in let* (idx, s2) := insertKnotU s1 v r in let* s3 := invertUV s2 in Ok (idx, s3).
Proof.
  intros Hok Hn Hv Hr. destruct (invert_ok eps s Hok) as (T & E & EI & LT & R1 & C1 & V).
  pose proof Hok as (HkU & HkV & L).
  set (s1 := mks _ _ _ _ _ _ _ _ _) in EI.
  assert (Hok1 : surface_ok s1) by (split; [exact HkV|split; [exact HkU|exact LT]]).
  destruct (insertU_ok eps s1 v r Hok1 Hv Hr) as (idx & k1 & n1 & E1 & K1 & A1 & A2 & A3 & A4 & _ & _ & J).
  rewrite (insertV_rows s s1 v r idx k1 n1 (insF eps s1 v r)); auto.
  - rewrite EI. cbn [bind]. rewrite E1. reflexivity.
  - split; [exact K1|]. split; [exact A3|]. split; [exact A4|]. intros j Hj. destruct (J j Hj) as (X & Y & _). auto.
Qed.

Lemma agree_swap (s s1 s2 s3 : surf R) (dom : R -> R -> R -> R -> nat -> nat -> Prop) (f : nat -> nat -> R) :
  (forall u v u' v' du dv, dom u v u' v' du dv -> in_surface s1 u v /\ in_surface s2 u' v') ->
  (forall u v du dv, in_surface s u v -> exists z z', surf_value s u v du dv = Ok z /\ surf_value s1 v u dv du = Ok z' /\ forall c, z' c = z c) ->
  (forall u v du dv, in_surface s2 u v -> exists z z', surf_value s2 u v du dv = Ok z /\ surf_value s3 v u dv du = Ok z' /\ forall c, z' c = z c) ->
  (forall u v, in_surface s u v <-> in_surface s1 v u) ->
  surfaces_agree eps s1 s2 dom f ->
  surfaces_agree eps s s3 (fun u v u' v' du dv => dom v u v' u' dv du) (fun du dv => f dv du).
Proof.
  intros Hd H1 H3 Hs H2 u v u' v' du dv D. destruct (Hd _ _ _ _ _ _ D) as [I1 I2].
  destruct (H1 u v du dv ltac:(apply Hs; exact I1)) as (z & z1 & E & E1 & V1).
  destruct (H2 _ _ _ _ _ _ D) as (y1 & z2 & E1' & E2 & V2).
  destruct (H3 _ _ dv du I2) as (y2 & z3 & E2' & E3 & V3).
  assert (X1 : z1 = y1) by congruence. assert (X2 : z2 = y2) by congruence. subst y1 y2.
  exists z, z3. split; [exact E|]. split; [exact E3|]. intros c. rewrite V3, V2, V1. reflexivity.
Qed.

Lemma ev_swap (s s1 : surf R) : s_degU s1 = s_degV s -> s_degV s1 = s_degU s -> s_ku s1 = s_kv s -> s_kv s1 = s_ku s ->
  evaluable_surface eps s -> evaluable_surface eps s1.
Proof.
  intros A B C D [[? ?]|(? & ? & ? & ? & ?)]; unfold evaluable_surface, s_nU, s_nV; rewrite A, B, C, D;
    [left; split; auto|right; repeat split; auto].
Qed.
Lemma in_swap (s s1 : surf R) u v : s_degU s1 = s_degV s -> s_degV s1 = s_degU s -> s_ku s1 = s_kv s -> s_kv s1 = s_ku s ->
  (in_surface s u v <-> in_surface s1 v u).
Proof.
  intros A B C D. unfold in_surface, in_rect, s_nU, s_nV. rewrite A, B, C, D. tauto.
Qed.
Lemma same_in (s s' : surf R) (P : surf R -> Prop) : s = s' -> P s -> P s'.
Proof. congruence. Qed.

Lemma insertV_prop (s : surf R) v r : 0 <= eps -> surface_ok s -> natural_surface s ->
  kn (s_kv s) (s_degV s) <= v < kn (s_kv s) (s_nV s) -> (1 <= r)%nat ->
  exists idx s', insertKnotV s v r = Ok (idx, s') /\ surface_ok s' /\ natural_surface s' /\
    s_degU s' = s_degU s /\ s_degV s' = s_degV s /\ s_ku s' = s_ku s /\
    count_occ Req_EM_T (s_kv s') v = max (count_occ Req_EM_T (s_kv s) v) (min (s_degV s) (count_occ Req_EM_T (s_kv s) v + r)) /\
    (forall x, x <> v -> count_occ Req_EM_T (s_kv s') x = count_occ Req_EM_T (s_kv s) x) /\
    (forall x y, in_surface s' x y <-> in_surface s x y) /\
    (evaluable_surface eps s -> evaluable_surface eps s' -> surfaces_agree eps s s' (same_params s) one).
Proof.
  intros He Hok Hn Hv Hr. rewrite insertV_eq by auto.
  destruct (invert_prop eps s He Hok Hn) as (s1 & E1 & Hok1 & Hn1 & D1 & D2 & D3 & D4 & _ & _ & V1).
  rewrite E1. cbn [bind].
  assert (M1 : s_nU s1 = s_nV s) by (unfold s_nU, s_nV; rewrite D1, D3; reflexivity).
  destruct (insertU_prop eps s1 v r He Hok1 Hn1) as (idx & s2 & E2 & Hok2 & Hn2 & G1 & G2 & G3 & G4 & G5 & G6 & V2); auto.
  { rewrite D1, D3, M1. exact Hv. }
  rewrite E2. cbn [bind].
  destruct (invert_prop eps s2 He Hok2 Hn2) as (s3 & E3 & Hok3 & Hn3 & F1 & F2 & F3 & F4 & _ & _ & V3).
  rewrite E3. cbn [bind]. exists idx, s3. split; [reflexivity|]. split; [exact Hok3|]. split; [exact Hn3|].
  split; [congruence|]. split; [congruence|]. split; [congruence|].
  split; [rewrite F4, G4, D1, D3; reflexivity|]. split; [intros x Hx; rewrite F4, G5, D3; auto|].
  split. { intros x y. rewrite <- (in_swap s2 s3), G6, <- (in_swap s s1) by auto. tauto. }
  intros Hev Hev3.
  assert (Hev1 : evaluable_surface eps s1) by (apply (ev_swap s); auto).
  assert (Hev2 : evaluable_surface eps s2) by (apply (ev_swap s3); auto; congruence).
  specialize (V1 Hev). specialize (V2 Hev1 Hev2). specialize (V3 Hev2).
  intros x y x' y' du dv (Hin & -> & ->).
  refine (agree_swap s s1 s2 s3 (fun u v u' v' du dv => same_params s1 u v u' v' du dv /\ in_surface s2 u' v') one _ V1 V3 _ _
    x y x y du dv _).
  - intros ? ? ? ? ? ? ((A & _) & B). split; assumption.
  - intros. apply in_swap; auto.
  - intros ? ? ? ? ? ? (A & B). apply V2. exact A.
  - split; [split; [apply (in_swap s s1); auto|auto]|].
    apply G6. apply (in_swap s s1); auto.
Qed.

(** ** Values of rows as values of curves *)
Lemma value_eval (c : curve R) x d q : value c x d = Ok q -> eval_value x (c_knots c) (c_poles c) (c_deg c) d = Ok q.
Proof. unfold value. destruct (out_of_bounds c x); [discriminate|auto]. Qed.


Lemma urow_wf (s : surf R) j : surface_ok s -> first_span (s_ku s) (s_degU s) -> well_formed (urow s j).
Proof.
  intros ((L & Hp & Hnd & Hl) & _) Hf. unfold well_formed, shape_ok, c_n, urow. cbn [c_knots c_deg c_poles].
  rewrite row_length. repeat split; auto; lia.
Qed.
Lemma urow_n (s : surf R) j : c_n (urow s j) = s_nU s.
Proof. unfold c_n, urow. cbn [c_poles]. apply row_length. Qed.
Lemma urow_nat (s : surf R) j : natural_surface s -> natural_bounds (urow s j).
Proof. intros (A & B & _). unfold natural_bounds. rewrite urow_n. auto. Qed.


Lemma reverseU_eq (s : surf R) : surface_ok s ->
  reverseU s = Ok (with_u s (rows (fun j => rev (row (s_poles s) (s_nU s) j)) (s_nV s)) (krev (s_ku s)) (s_u1 s) (s_u2 s)).
Proof.
  intros Hok. pose proof Hok as (HkU & HkV & L). pose proof HkU as (LU & HpU & _).
  unfold reverseU. rewrite back_kn by lia. rewrite front_kn by (intros Z; rewrite Z in *; simpl in *; lia). cbn [bind].
  rewrite nPolesU_ok, nPolesV_ok by auto. cbn [bind].
  set (F := fun j => rev (row (s_poles s) (s_nU s) j)).
  destruct (for_inv (fun j acc => acc = rows F j) (fun j acc => let* r := slice (s_poles s) j (s_nU s) in Ok (acc ++ rev r)) 0 (s_nV s) [])
    as (P & EB & B).
  - reflexivity.
  - intros j acc Hj ->. rewrite (row_slice _ _ (s_nV s)) by (auto; lia). cbn [bind]. eexists; split; [reflexivity|].
    rewrite rows_S. reflexivity.
  - rewrite EB. cbn [bind]. subst P. rewrite Nat.add_0_l. rewrite skipn_all2 by (unfold pt in *; lia). rewrite app_nil_r. reflexivity.
Qed.

Lemma reverseU_prop (s : surf R) : 0 <= eps -> surface_ok s -> natural_surface s -> first_span (s_ku s) (s_degU s) ->
  exists s', reverseU s = Ok s' /\ surface_ok s' /\ natural_surface s' /\ first_span (s_ku s') (s_degU s') /\
    s_degU s' = s_degU s /\ s_degV s' = s_degV s /\ s_kv s' = s_kv s /\
    s_u1 s' = s_u1 s /\ s_u2 s' = s_u2 s /\ s_nU s' = s_nU s /\
    reverseU s' = Ok s /\
    (forall u v, in_surface s u v -> in_surface s' (s_u1 s + s_u2 s - u) v) /\
    (evaluable_surface eps s -> evaluable_surface eps s' -> surfaces_agree eps s s' (mirrored s) sign_u).
Proof.
  intros He Hok Hn Hf. pose proof Hok as (HkU & HkV & L). pose proof HkU as (LU & HpU & HndU & HlU).
  assert (Hne : s_ku s <> []) by (intros Z; rewrite Z in *; simpl in *; lia).
  assert (W : forall j, well_formed (rev_curve (urow s j)) /\ natural_bounds (rev_curve (urow s j)) /\ c_n (rev_curve (urow s j)) = s_nU s /\
     (evaluable_curve eps (urow s j) -> evaluable_curve eps (rev_curve (urow s j)) ->
     forall x d, in_domain (urow s j) x -> smooth_at (urow s j) x d ->
     exists q q', value (urow s j) x d = Ok q /\ value (rev_curve (urow s j)) (s_u1 s + s_u2 s - x) d = Ok q' /\
       forall i, q' i = (-1) ^ d * q i)).
  { intros j. destruct (reverse_prop eps (urow s j) He (urow_wf s j Hok Hf) (urow_nat s j Hn)) as (c' & E & _ & _ & N & W & B & _ & V).
    rewrite reverse_eq in E by auto. injection E as <-. rewrite urow_n in N. auto. }
  rewrite reverseU_eq by auto. eexists; split; [reflexivity|].
  set (F := fun j => rev (row (s_poles s) (s_nU s) j)).
  destruct (W 0%nat) as (((WA & WB & WC) & WD & WE) & (WN1 & WN2) & WN & _).
  unfold c_n, rev_curve, urow in WA, WB, WC, WD, WE, WN1, WN2. cbn [c_poles c_knots c_deg c_lo c_hi] in *.
  rewrite rev_length, row_length in *.
  assert (K' : knots_ok (krev (s_ku s)) (s_nU s) (s_degU s)).
  { split; [rewrite krev_length; exact LU|]. split; [exact HpU|]. split; [exact WC|exact WE]. }
  destruct (rows_surface s F (krev (s_ku s)) (s_nU s) (s_u1 s) (s_u2 s) Hok K') as (Hok' & N1 & N2 & HR).
  { intros j _. unfold F. rewrite rev_length. apply row_length. }
  cbv zeta in *. set (s' := with_u s _ _ _ _) in *.
  assert (Hn' : natural_surface s').
  { destruct Hn as (B1 & B2 & B3 & B4). unfold natural_surface. rewrite N1, N2. unfold s'. cbn [with_u s_ku s_kv s_degU s_degV s_u1 s_u2 s_v1 s_v2]. auto. }
  assert (Hin : forall u v, in_surface s u v -> in_surface s' (s_u1 s + s_u2 s - u) v).
  { intros u v [Hu Hv]. split; [|rewrite N2; exact Hv]. rewrite N1. unfold s'; cbn [with_u s_ku s_degU].
    destruct Hn as (B1 & B2 & _). rewrite !krev_kn by lia. rewrite LU.
    replace (s_nU s + s_degU s + 1 - 1 - s_degU s)%nat with (s_nU s) by lia.
    replace (s_nU s + s_degU s + 1 - 1 - s_nU s)%nat with (s_degU s) by lia.
    replace (s_nU s + s_degU s + 1 - 1)%nat with (s_nU s + s_degU s)%nat by lia. lra. }
  split; [exact Hok'|]. split; [exact Hn'|]. split; [exact WD|]. do 5 (split; [reflexivity|]). split; [exact N1|].
  split; [|split; [exact Hin|]].
  - rewrite reverseU_eq by auto. f_equal.
    assert (RR : rows (fun j => rev (row (s_poles s') (s_nU s') j)) (s_nV s') = s_poles s).
    { rewrite N2. rewrite <- (rows_row (s_poles s) (s_nU s) (s_nV s) L). unfold rows. f_equal. apply map_ext_in. intros j Hj. apply in_seq in Hj.
      rewrite N1, HR by lia. unfold F. rewrite rev_involutive. reflexivity. }
    rewrite RR. unfold s'. unfold with_u. cbn [s_ku s_u1 s_u2 s_degU s_degV s_kv s_v1 s_v2].
    rewrite krev_krev by auto. destruct s; reflexivity.
  - intros Hev Hev' u v u' v' du dv (Hs & Hsm & -> & ->).
    pose proof (Hin _ _ Hs) as Hs'. rewrite (surf_value_in eps s) by auto. rewrite (surf_value_in eps s') by auto.
    destruct Hs as [Hu Hv]. destruct Hs' as [Hu' _]. unfold sign_u.
    eapply (row_transfer eps (s_ku s) (s_nU s) (s_ku s') (s_nU s') (s_degU s) (s_kv s) (s_nV s) (s_degV s)); auto.
    intros j c Hj. rewrite N1, HR by auto. destruct (W j) as (_ & _ & _ & V).
    assert (X1 : evaluable_curve eps (urow s j)).
    { unfold evaluable_curve. rewrite urow_n. apply (ev2_1 _ _ _ _ _ _ _ Hev). }
    assert (X2 : evaluable_curve eps (rev_curve (urow s j))).
    { unfold evaluable_curve, c_n. cbn [rev_curve urow c_poles c_knots c_deg]. rewrite rev_length, row_length.
      unfold evaluable_surface in Hev'. rewrite N1 in Hev'. apply (ev2_1 _ _ _ _ _ _ _ Hev'). }
    destruct (V X1 X2 u du) as (q & q' & Q1 & Q2 & Q3).
    { unfold in_domain. rewrite urow_n. exact Hu. }
    { unfold smooth_at. rewrite urow_n. exact Hsm. }
    apply value_eval in Q1. apply value_eval in Q2. cbn [rev_curve urow c_knots c_poles c_deg] in Q1, Q2.
    rewrite Q1. unfold s', F. cbn [with_u s_ku]. rewrite Q2. cbn [val]. apply Q3.
Qed.


Lemma reverseV_prop (s : surf R) : 0 <= eps -> surface_ok s -> natural_surface s -> first_span (s_kv s) (s_degV s) ->
  exists s', reverseV s = Ok s' /\ surface_ok s' /\ natural_surface s' /\ first_span (s_kv s') (s_degV s') /\
    s_degU s' = s_degU s /\ s_degV s' = s_degV s /\ s_ku s' = s_ku s /\
    s_v1 s' = s_v1 s /\ s_v2 s' = s_v2 s /\ s_nV s' = s_nV s /\
    reverseV s' = Ok s /\
    (forall u v, in_surface s u v -> in_surface s' u (s_v1 s + s_v2 s - v)) /\
    (evaluable_surface eps s -> evaluable_surface eps s' -> surfaces_agree eps s s' (mirrored_v s) sign_v).
Proof.
  intros He Hok Hn Hf. unfold reverseV.
  destruct (invert_prop eps s He Hok Hn) as (s1 & E1 & Hok1 & Hn1 & D1 & D2 & D3 & D4 & _ & D5 & V1).
  rewrite E1. cbn [bind].
  assert (M1 : s_nU s1 = s_nV s) by (unfold s_nU, s_nV; rewrite D1, D3; reflexivity).
  assert (M2 : s_u1 s1 = s_v1 s /\ s_u2 s1 = s_v2 s).
  { destruct Hn1 as (-> & -> & _). destruct Hn as (_ & _ & -> & ->). rewrite M1, D1, D3. auto. }
  destruct M2 as [M2 M3].
  destruct (reverseU_prop s1 He Hok1 Hn1) as (s2 & E2 & Hok2 & Hn2 & G1 & G2 & G3 & G4 & G5 & G6 & G7 & G8 & G9 & V2); auto.
  { rewrite D1, D3. exact Hf. }
  rewrite E2. cbn [bind].
  destruct (invert_prop eps s2 He Hok2 Hn2) as (s3 & E3 & Hok3 & Hn3 & F1 & F2 & F3 & F4 & _ & F5 & V3).
  assert (M4 : s_nV s3 = s_nU s2) by (unfold s_nU, s_nV; rewrite F2, F4; reflexivity).
  rewrite E3. exists s3. split; [reflexivity|]. split; [exact Hok3|]. split; [exact Hn3|].
  split; [rewrite F2, F4; exact G1|]. split; [congruence|]. split; [congruence|]. split; [congruence|].
  assert (H1 : s_v1 s3 = s_v1 s).
  { rewrite <- M2, <- G5. destruct Hn3 as (_ & _ & -> & _). destruct Hn2 as (-> & _). rewrite F4. reflexivity. }
  assert (H2 : s_v2 s3 = s_v2 s).
  { rewrite <- M3, <- G6. destruct Hn3 as (_ & _ & _ & ->). destruct Hn2 as (_ & -> & _). rewrite F4, F2, M4. reflexivity. }
  split; [exact H1|]. split; [exact H2|]. split; [congruence|].
  split; [rewrite F5; cbn [bind]; rewrite G8; cbn [bind]; exact D5|].
  assert (HI : forall u v, in_surface s u v -> in_surface s3 u (s_v1 s + s_v2 s - v)).
  { intros u v Hi. apply (in_swap s s1) in Hi; auto. apply G9 in Hi. rewrite <- M2, <- M3. apply (in_swap s2 s3); auto. }
  split; [exact HI|].
  intros Hev Hev3.
  assert (Hev1 : evaluable_surface eps s1) by (apply (ev_swap s); auto).
  assert (Hev2 : evaluable_surface eps s2) by (apply (ev_swap s3); auto; congruence).
  specialize (V1 Hev). specialize (V2 Hev1 Hev2). specialize (V3 Hev2).
  intros x y x' y' du dv (Hin & Hsm & -> & ->).
  refine (agree_swap s s1 s2 s3 (mirrored s1) sign_u _ V1 V3 _ V2 x y x _ du dv _).
  - intros ? ? ? ? ? ? (A & _ & -> & ->). split; [assumption|apply G9; assumption].
  - intros. apply in_swap; auto.
  - split; [apply (in_swap s s1); auto|]. split; [|rewrite M2, M3; auto].
    unfold smooth_knots. rewrite D1, D3, M1. exact Hsm.
Qed.

(** ** Bounds *)

Lemma urow_lt (s : surf R) : surface_ok s -> natural_surface s -> s_u1 s < s_u2 s.
Proof.
  intros ((L & Hp & Hnd & Hl) & _) (-> & -> & _).
  pose proof (Hnd 0%nat (s_nU s - 1)%nat ltac:(lia) ltac:(lia)). pose proof (Hnd (s_nU s) (s_nU s + s_degU s)%nat ltac:(lia) ltac:(lia)). lra.
Qed.

Lemma changeU_prop (s : surf R) a b : 0 <= eps -> surface_ok s -> natural_surface s -> first_span (s_ku s) (s_degU s) -> a < b ->
  exists s', changeUBounds s a b = Ok s' /\ surface_ok s' /\ natural_surface s' /\ first_span (s_ku s') (s_degU s') /\
    s_degU s' = s_degU s /\ s_degV s' = s_degV s /\ s_kv s' = s_kv s /\ s_poles s' = s_poles s /\
    s_u1 s' = a /\ s_u2 s' = b /\ s_nU s' = s_nU s /\
    (forall i, (i < length (s_ku s))%nat -> kn (s_ku s') i = a + (b - a) * (kn (s_ku s) i - s_u1 s) / (s_u2 s - s_u1 s)) /\
    (evaluable_surface eps s -> evaluable_surface eps s' ->
       surfaces_agree eps s s' (rescaled s a b) (scale_u ((s_u2 s - s_u1 s) / (b - a)))).
Proof.
  intros He Hok Hn Hf Hab. pose proof Hok as (HkU & HkV & L). pose proof HkU as (LU & HpU & HndU & HlU).
  pose proof (urow_lt s Hok Hn) as Hlt.
  set (k' := map (fun x => a + (b - a) * (x - kn (s_ku s) 0) / (kn (s_ku s) (length (s_ku s) - 1) - kn (s_ku s) 0)) (s_ku s)).
  assert (Ek : change_bounds a b (s_ku s) = Ok k').
  { apply change_bounds_eq; [intros Z; rewrite Z in *; simpl in *; lia|].
    destruct Hn as (B1 & B2 & _). replace (length (s_ku s) - 1)%nat with (s_nU s + s_degU s)%nat by lia. lra. }
  assert (W : forall j, let c' := mk (s_degU s) (row (s_poles s) (s_nU s) j) k' a b in
    well_formed c' /\ natural_bounds c' /\
    (forall i, (i < length (s_ku s))%nat -> kn k' i = a + (b - a) * (kn (s_ku s) i - s_u1 s) / (s_u2 s - s_u1 s)) /\
    (evaluable_curve eps (urow s j) -> evaluable_curve eps c' ->
     forall x d, in_domain (urow s j) x ->
     exists q q', value (urow s j) x d = Ok q /\
       value c' (a + (b - a) * (x - s_u1 s) / (s_u2 s - s_u1 s)) d = Ok q' /\
       forall i, ((b - a) / (s_u2 s - s_u1 s)) ^ d * q' i = q i)).
  { intros j. destruct (change_prop eps (urow s j) a b He (urow_wf s j Hok Hf) (urow_nat s j Hn) Hab) as (c' & E & _ & _ & _ & W & B & KK & V).
    unfold changeBounds in E. cbn [urow c_knots c_deg c_poles] in E. rewrite Ek in E. cbn [bind] in E. injection E as <-. auto. }
  unfold changeUBounds. rewrite Ek. cbn [bind]. eexists; split; [reflexivity|].
  destruct (W 0%nat) as (((WA & WB & WC) & WD & WE) & (WN1 & WN2) & WK & _).
  unfold c_n in WA, WB, WC, WD, WE, WN1, WN2. cbn [c_poles c_knots c_deg c_lo c_hi] in *. rewrite row_length in *.
  assert (K' : knots_ok k' (s_nU s) (s_degU s)).
  { split; [unfold k'; rewrite map_length; exact LU|]. split; [exact HpU|]. split; [exact WC|exact WE]. }
  set (s' := with_u s _ _ _ _) in *.
  assert (N1 : s_nU s' = s_nU s) by (unfold s_nU, s'; cbn [with_u s_ku s_degU]; unfold k'; rewrite map_length; reflexivity).
  assert (Hok' : surface_ok s').
  { split; [rewrite N1; exact K'|]. split; [exact HkV|]. rewrite N1. exact L. }
  assert (Hn' : natural_surface s').
  { destruct Hn as (_ & _ & B3 & B4). unfold natural_surface. rewrite N1. change (s_nV s') with (s_nV s).
    unfold s'. cbn [with_u s_ku s_kv s_degU s_degV s_u1 s_u2 s_v1 s_v2]. auto. }
  split; [exact Hok'|]. split; [exact Hn'|]. split; [exact WD|]. do 6 (split; [reflexivity|]). split; [exact N1|]. split; [exact WK|].
  intros Hev Hev' u v u' v' du dv ([Hu Hv] & -> & ->).
  assert (Hu' : kn (s_ku s') (s_degU s') <= a + (b - a) * (u - s_u1 s) / (s_u2 s - s_u1 s) <= kn (s_ku s') (s_nU s')).
  { rewrite N1. unfold s'; cbn [with_u s_ku s_degU]. rewrite !WK by lia.
    assert (Hc : 0 < (b - a) / (s_u2 s - s_u1 s)) by (apply Rdiv_lt_0_compat; lra).
    assert (X : forall y, a + (b - a) * (y - s_u1 s) / (s_u2 s - s_u1 s) = a + (b - a) / (s_u2 s - s_u1 s) * (y - s_u1 s)) by (intros; field; lra).
    rewrite !X. split; apply Rplus_le_compat_l, Rmult_le_compat_l; lra. }
  rewrite (surf_value_in eps s) by (auto; split; auto). rewrite (surf_value_in eps s') by (auto; split; auto).
  unfold scale_u.
  eapply (row_transfer eps (s_ku s) (s_nU s) (s_ku s') (s_nU s') (s_degU s) (s_kv s) (s_nV s) (s_degV s)); auto.
  intros j c Hj. rewrite N1. destruct (W j) as (_ & _ & _ & V).
  assert (X1 : evaluable_curve eps (urow s j)).
  { unfold evaluable_curve. rewrite urow_n. apply (ev2_1 _ _ _ _ _ _ _ Hev). }
  destruct (V X1) with (x := u) (d := du) as (q & q' & Q1 & Q2 & Q3).
  { unfold evaluable_curve, c_n. cbn [c_poles c_knots c_deg]. rewrite row_length.
    unfold evaluable_surface in Hev'. rewrite N1 in Hev'. apply (ev2_1 _ _ _ _ _ _ _ Hev'). }
  { unfold in_domain. rewrite urow_n. exact Hu. }
  apply value_eval in Q1. apply value_eval in Q2. cbn [urow c_knots c_poles c_deg] in Q1, Q2.
  rewrite Q1. unfold s'. cbn [with_u s_ku s_poles]. rewrite Q2. cbn [val]. rewrite <- (Q3 c).
  rewrite <- Rmult_assoc, <- Rpow_mult_distr.
  replace ((s_u2 s - s_u1 s) / (b - a) * ((b - a) / (s_u2 s - s_u1 s))) with 1 by (field; lra). rewrite pow1. ring.
Qed.


Lemma changeV_prop (s : surf R) a b : 0 <= eps -> surface_ok s -> natural_surface s -> first_span (s_kv s) (s_degV s) -> a < b ->
  exists s', changeVBounds s a b = Ok s' /\ surface_ok s' /\ natural_surface s' /\ first_span (s_kv s') (s_degV s') /\
    s_degU s' = s_degU s /\ s_degV s' = s_degV s /\ s_ku s' = s_ku s /\ s_poles s' = s_poles s /\
    s_v1 s' = a /\ s_v2 s' = b /\ s_nV s' = s_nV s /\
    (forall i, (i < length (s_kv s))%nat -> kn (s_kv s') i = a + (b - a) * (kn (s_kv s) i - s_v1 s) / (s_v2 s - s_v1 s)) /\
    (evaluable_surface eps s -> evaluable_surface eps s' ->
       surfaces_agree eps s s' (rescaled_v s a b) (scale_v ((s_v2 s - s_v1 s) / (b - a)))).
Proof.
  intros He Hok Hn Hf Hab.
  destruct (invert_prop eps s He Hok Hn) as (s1 & E1 & Hok1 & Hn1 & D1 & D2 & D3 & D4 & D6 & D5 & V1).
  assert (M1 : s_nU s1 = s_nV s) by (unfold s_nU, s_nV; rewrite D1, D3; reflexivity).
  assert (M2 : s_u1 s1 = s_v1 s /\ s_u2 s1 = s_v2 s).
  { destruct Hn1 as (-> & -> & _). destruct Hn as (_ & _ & -> & ->). rewrite M1, D1, D3. auto. }
  destruct M2 as [M2 M3].
  destruct (changeU_prop s1 a b He Hok1 Hn1) as (s2 & E2 & Hok2 & Hn2 & G1 & G2 & G3 & G4 & G5 & G6 & G7 & G8 & G9 & V2); auto.
  { rewrite D1, D3. exact Hf. }
  destruct (invert_prop eps s2 He Hok2 Hn2) as (s3 & E3 & Hok3 & Hn3 & F1 & F2 & F3 & F4 & F6 & F5 & V3).
  assert (M4 : s_nV s3 = s_nU s2) by (unfold s_nU, s_nV; rewrite F2, F4; reflexivity).
  assert (M5 : s_nV s2 = s_nU s) by (unfold s_nU, s_nV; rewrite G3, G4, D2, D4; reflexivity).
  assert (M6 : s_nU s3 = s_nU s) by (unfold s_nU; rewrite F1, F3, G3, G4, D2, D4; reflexivity).
  assert (E : changeVBounds s a b = Ok s3).
  { unfold changeUBounds in E2. unfold changeVBounds. rewrite D3 in E2.
    destruct (change_bounds a b (s_kv s)) as [k'| | |]; cbn [bind] in *; try discriminate.
    injection E2 as <-. cbn [with_u s_ku s_kv s_poles s_u1 s_u2 s_v1 s_v2 s_degU s_degV] in *.
    assert (PP : s_poles s3 = s_poles s).
    { pose proof Hok3 as (_ & _ & L3). pose proof Hok as (_ & _ & L). rewrite M6, M4, G8, M1 in L3.
      apply (grid_ext _ _ pzero (s_nU s) (s_nV s)); auto.
      intros i j Hi Hj. specialize (F6 j i). rewrite G8, M1, M5 in F6. rewrite F6 by auto.
      specialize (D6 i j Hi Hj). exact D6. }
    destruct Hn3 as (B1 & B2 & B3 & B4). destruct Hn2 as (C1 & C2 & _). destruct Hn as (A1 & A2 & _).
    cbn [with_u s_ku s_kv s_poles s_u1 s_u2 s_v1 s_v2 s_degU s_degV] in *.
    rewrite <- PP. rewrite M6 in B2. rewrite M4 in B4.
    destruct s3 as [x1 x2 x3 x4 x5 x6 x7 x8 x9]. cbn [s_degU s_degV s_ku s_kv s_u1 s_u2 s_v1 s_v2 s_poles] in *.
    subst x1 x2 x4 x5 x6 x7 x8 x9. rewrite <- C1, <- C2, D2, D4, D1. rewrite <- A1, <- A2. reflexivity. }
  exists s3. split; [exact E|]. split; [exact Hok3|]. split; [exact Hn3|].
  split; [rewrite F2, F4; exact G1|]. split; [congruence|]. split; [congruence|]. split; [congruence|].
  split. { unfold changeVBounds in E. destruct (change_bounds a b (s_kv s)); cbn [bind] in E; try discriminate. injection E as <-. reflexivity. }
  split. { unfold changeVBounds in E. destruct (change_bounds a b (s_kv s)); cbn [bind] in E; try discriminate. injection E as <-. reflexivity. }
  split. { unfold changeVBounds in E. destruct (change_bounds a b (s_kv s)); cbn [bind] in E; try discriminate. injection E as <-. reflexivity. }
  split; [congruence|]. split; [intros i Hi; rewrite F4, G9, D3, M2, M3 by (rewrite D3; exact Hi); reflexivity|].
  intros Hev Hev3.
  assert (Hev1 : evaluable_surface eps s1) by (apply (ev_swap s); auto).
  assert (Hev2 : evaluable_surface eps s2) by (apply (ev_swap s3); auto; congruence).
  specialize (V1 Hev). specialize (V2 Hev1 Hev2). specialize (V3 Hev2).
  intros x y x' y' du dv (Hin & -> & ->).
  refine (agree_swap s s1 s2 s3 (rescaled s1 a b) (scale_u ((s_v2 s - s_v1 s) / (b - a))) _ V1 V3 _ _ x y x _ du dv _).
  - intros ? ? ? ? ? ? (A & -> & ->). split; [exact A|]. destruct A as [Hu Hv]. split; [|unfold s_nV; rewrite G3, G4; exact Hv].
    pose proof (urow_lt s1 Hok1 Hn1) as Hlt.
    pose proof Hok1 as ((L1 & HpU & _) & _). rewrite G2, G8, !G9 by lia.
    assert (Hc : 0 < (b - a) / (s_u2 s1 - s_u1 s1)) by (apply Rdiv_lt_0_compat; lra).
    assert (X : forall y, a + (b - a) * (y - s_u1 s1) / (s_u2 s1 - s_u1 s1) = a + (b - a) / (s_u2 s1 - s_u1 s1) * (y - s_u1 s1)) by (intros; field; lra).
    rewrite !X. split; apply Rplus_le_compat_l, Rmult_le_compat_l; lra.
  - intros. apply in_swap; auto.
  - rewrite M2, M3 in V2. exact V2.
  - split; [apply (in_swap s s1); auto|]. rewrite M2, M3. auto.
Qed.

(** ** Trimming *)
Lemma for_pres {S X : Type} (f : S -> X) body : (forall i st st', body i st = Ok st' -> f st' = f st) ->
  forall n lo st st', for_ lo n body st = Ok st' -> f st' = f st.
Proof.
  intros Hb. induction n as [|n IH]; intros lo st st' E; cbn [for_] in E; [congruence|].
  destruct (body lo st) as [s1| | |] eqn:E1; cbn [bind] in E; try discriminate.
  rewrite (IH _ _ _ E). apply (Hb _ _ _ E1).
Qed.
Lemma set_pres {A} (l : list A) i a l' : set l i a = Ok l' -> length l' = length l.
Proof. unfold set. destruct (i <? length l)%nat; [|discriminate]. intros E. injection E as <-. apply upd_length. Qed.
Lemma bind_set_pres {A B} (x : result B) (l : list A) i (g : B -> A) l' : bind x (fun b => set l i (g b)) = Ok l' -> length l' = length l.
Proof. destruct x; cbn [bind]; try discriminate. apply set_pres. Qed.

Lemma insert_length (k : list R) (u : R) p r (P : list (pt R)) i1 k1 P1 :
  insert_knots u p r k P = Ok (i1, k1, P1) ->
  length P1 = (length P + if (p <=? upper_bound k u - lower_bound k u)%nat then 0 else min r (p - (upper_bound k u - lower_bound k u)))%nat.
Proof.
  unfold insert_knots. destruct (subi (length P) 1) as [np| | |]; cbn [bind]; try discriminate.
  destruct (p <=? _)%nat. { intros A; injection A as _ _ <-. lia. }
  set (r' := min r _). intros E.
  apply bind_inv in E. destruct E as (m & _ & E). apply bind_inv in E. destruct E as (UQ & _ & E).
  apply bind_inv in E. destruct E as (mp & _ & E). apply bind_inv in E. destruct E as (Q1 & E1 & E).
  apply bind_inv in E. destruct E as (ms & _ & E). apply bind_inv in E. destruct E as (Q2 & E2 & E).
  apply bind_inv in E. destruct E as (R1 & _ & E). apply bind_inv in E. destruct E as ([Q3 R3] & E3 & E).
  apply bind_inv in E. destruct E as (Q4 & E4 & E). injection E as _ _ <-.
  assert (L1 : length Q1 = (length P + r')%nat).
  { rewrite <- (filled_length (length P + r') (pzero : pt R)). unfold copy_loop in E1.
    refine (for_pres (@length (pt R)) _ _ _ _ _ _ E1). intros i st st'. apply bind_set_pres with (g := fun x => x). }
  assert (L2 : length Q2 = length Q1).
  { unfold copy_loop in E2. refine (for_pres (@length (pt R)) _ _ _ _ _ _ E2). intros i st st'. apply bind_set_pres with (g := fun x => x). }
  assert (L3 : length Q3 = length Q2).
  { refine (for_pres (fun st => length (fst st)) _ _ _ _ _ _ E3). intros i [Q RR] [Q' R'] F. unfold insert_knots_round in F.
    apply bind_inv in F. destruct F as (? & _ & F). apply bind_inv in F. destruct F as (? & _ & F).
    apply bind_inv in F. destruct F as (Qa & F1 & F). apply bind_inv in F. destruct F as (? & _ & F).
    apply bind_inv in F. destruct F as (Qb & F2 & F). injection F as <- _. cbn [fst].
    rewrite (set_pres _ _ _ _ F2). apply (set_pres _ _ _ _ F1). }
  assert (L4 : length Q4 = length Q3).
  { refine (for_pres (@length (pt R)) _ _ _ _ _ _ E4). intros i st st'. apply bind_set_pres with (g := fun x => x). }
  lia.
Qed.

Lemma trim_begin_shape (k : list R) p (P Q : list (pt R)) (u : R) k1 P1 k2 Q2 : length P = length Q ->
  trim_begin p k P u = Ok (k1, P1) -> trim_begin p k Q u = Ok (k2, Q2) -> k1 = k2 /\ length P1 = length Q2.
Proof.
  intros L A B. unfold trim_begin in A, B.
  destruct (front k) as [f| | |]; cbn [bind] in *; try discriminate.
  destruct (nltb _ _). { injection A as <- <-. injection B as <- <-. auto. }
  destruct (insert_knots u p p k P) as [[[i1 k1'] P1']| | |] eqn:EP; cbn [bind] in A; try discriminate.
  destruct (insert_knots u p p k Q) as [[[i2 k2'] Q2']| | |] eqn:EQ; cbn [bind] in B; try discriminate.
  destruct (insert_shape eps _ _ _ _ _ _ _ _ _ _ _ _ L EP EQ) as [_ <-].
  apply insert_length in EP. apply insert_length in EQ.
  destruct (front (skipn (lower_bound k1' u) k1')); cbn [bind] in *; try discriminate.
  destruct (subi (lower_bound k1' u) 1) as [x| | |]; cbn [bind] in *; try discriminate.
  destruct (x <=? length P1')%nat; try discriminate. destruct (x <=? length Q2')%nat; try discriminate.
  injection A as <- <-. injection B as <- <-. split; [reflexivity|]. rewrite !skipn_length. lia.
Qed.
Lemma trim_end_shape (k : list R) p (P Q : list (pt R)) (u : R) k1 P1 k2 Q2 : length P = length Q ->
  trim_end p k P u = Ok (k1, P1) -> trim_end p k Q u = Ok (k2, Q2) -> k1 = k2 /\ length P1 = length Q2.
Proof.
  intros L A B. unfold trim_end in A, B.
  destruct (back k) as [f| | |]; cbn [bind] in *; try discriminate.
  destruct (nltb _ _). { injection A as <- <-. injection B as <- <-. auto. }
  destruct (insert_knots u p p k P) as [[[i1 k1'] P1']| | |] eqn:EP; cbn [bind] in A; try discriminate.
  destruct (insert_knots u p p k Q) as [[[i2 k2'] Q2']| | |] eqn:EQ; cbn [bind] in B; try discriminate.
  destruct (insert_shape eps _ _ _ _ _ _ _ _ _ _ _ _ L EP EQ) as [_ <-].
  apply insert_length in EP. apply insert_length in EQ.
  destruct (lower_bound k1' u + p <=? length k1')%nat; try discriminate.
  destruct (back (firstn (lower_bound k1' u + p) k1')); cbn [bind] in *; try discriminate.
  destruct (lower_bound k1' u <=? length P1')%nat; try discriminate. destruct (lower_bound k1' u <=? length Q2')%nat; try discriminate.
  injection A as <- <-. injection B as <- <-. split; [reflexivity|]. rewrite !firstn_length. lia.
Qed.
Lemma trim_shape (k : list R) p (P Q : list (pt R)) (u1 u2 : R) k1 P1 k2 Q2 : length P = length Q ->
  trim p k P u1 u2 = Ok (k1, P1) -> trim p k Q u1 u2 = Ok (k2, Q2) -> k1 = k2 /\ length P1 = length Q2.
Proof.
  intros L A B. unfold trim in A, B.
  set (lo := if nltb u1 u2 then u1 else u2) in *. set (hi := if nltb u1 u2 then u2 else u1) in *.
  destruct (trim_begin p k P lo) as [[ka Pa]| | |] eqn:EP; cbn [bind] in A; try discriminate.
  destruct (trim_begin p k Q lo) as [[kb Pb]| | |] eqn:EQ; cbn [bind] in B; try discriminate.
  destruct (trim_begin_shape _ _ _ _ _ _ _ _ _ L EP EQ) as [<- L'].
  apply (trim_end_shape _ _ _ _ _ _ _ _ _ L' A B).
Qed.

Lemma surf_value_guard (s : surf R) u v du dv : s_u1 s - eps <= u <= s_u2 s + eps -> s_v1 s - eps <= v <= s_v2 s + eps ->
  surf_value s u v du dv = surf_eval u v (s_ku s) (s_kv s) (s_poles s) (s_degU s) (s_degV s) du dv.
Proof.
  intros Hu Hv. unfold surf_value, out_u, out_v. nsimp. cbn [neps NumR].
  destruct (Rltb_spec u (s_u1 s - eps)); [lra|]. destruct (Rltb_spec (s_u2 s + eps) u); [lra|].
  destruct (Rltb_spec v (s_v1 s - eps)); [lra|]. destruct (Rltb_spec (s_v2 s + eps) v); [lra|]. reflexivity.
Qed.


Definition trimF (s : surf R) u1 u2 j : list (pt R) :=
  match trim (s_degU s) (s_ku s) (row (s_poles s) (s_nU s) j) u1 u2 with Ok (_, Q) => Q | _ => [] end.

Lemma trimU_prop (s : surf R) u1 u2 : 0 < eps -> surface_ok s -> natural_surface s -> (1 <= s_degU s)%nat ->
  clamped (s_ku s) (s_nU s) (s_degU s) -> kn (s_ku s) (s_degU s) <= u1 -> u1 < u2 -> u2 <= kn (s_ku s) (s_nU s) ->
  exists s', trimU s u1 u2 = Ok s' /\ surface_ok s' /\ clamped (s_ku s') (s_nU s') (s_degU s') /\
    s_degU s' = s_degU s /\ s_degV s' = s_degV s /\ s_kv s' = s_kv s /\ s_v1 s' = s_v1 s /\ s_v2 s' = s_v2 s /\
    s_u1 s' = u1 /\ s_u2 s' = u2 /\
    u1 - eps < kn (s_ku s') (s_degU s') <= u1 /\ u2 <= kn (s_ku s') (s_nU s') < u2 + eps /\
    (eps <= u1 - kn (s_ku s) (s_degU s) -> kn (s_ku s') (s_degU s') = u1) /\
    (eps <= kn (s_ku s) (s_nU s) - u2 -> kn (s_ku s') (s_nU s') = u2) /\
    (evaluable_surface eps s -> evaluable_surface eps s' -> surfaces_agree eps s s' (trimmed eps s u1 u2) one).
Proof.
  intros He Hok Hn Hp Hc H1 H12 H2. pose proof Hok as (HkU & HkV & L). pose proof HkV as (LV & HpV & HndV & HlV).
  destruct (trim_prop eps (s_ku s) (s_nU s) (s_degU s) u1 u2 (row (s_poles s) (s_nU s) 0) He HkU (row_length _ _ _) Hp Hc H1 H12 H2)
    as (k' & P0 & n' & E0 & _ & K' & L0 & C' & T1 & T2 & T3 & T4 & _).
  assert (J : forall j, trim (s_degU s) (s_ku s) (row (s_poles s) (s_nU s) j) u1 u2 = Ok (k', trimF s u1 u2 j) /\
     length (trimF s u1 u2 j) = n' /\
     (evaluable eps (s_ku s) (s_nU s) (s_degU s) -> evaluable eps k' n' (s_degU s) ->
       same_on eps (s_degU s) (s_ku s) (row (s_poles s) (s_nU s) j) k' (trimF s u1 u2 j) (fun x => u1 <= x < u2) any /\
       ((count_occ Req_EM_T (s_ku s) u2 <= s_degU s)%nat \/ kn (s_ku s) (s_nU s) - u2 < eps ->
          same_on eps (s_degU s) (s_ku s) (row (s_poles s) (s_nU s) j) k' (trimF s u1 u2 j) (fun x => x = u2) (fun d => d = 0%nat)))).
  { intros j. destruct (trim_prop eps (s_ku s) (s_nU s) (s_degU s) u1 u2 (row (s_poles s) (s_nU s) j) He HkU (row_length _ _ _) Hp Hc H1 H12 H2)
      as (k2 & P2 & n2 & E2 & _ & K2 & L2 & _ & _ & _ & _ & _ & V2).
    destruct (trim_shape _ _ _ _ _ _ _ _ _ _ ltac:(rewrite !row_length; reflexivity) E0 E2) as [<- LL].
    assert (NN : n2 = n') by (unfold pt in *; lia). rewrite NN in *.
    unfold trimF. rewrite E2. split; [reflexivity|]. split; [exact L2|exact V2]. }
  assert (E : trimU s u1 u2 = Ok (with_u s (rows (trimF s u1 u2) (s_nV s)) k' u1 u2)).
  { unfold trimU. rewrite nPolesU_ok, nPolesV_ok by auto. cbn [bind].
    set (body := fun (j : nat) (st : list R * list (pt R)) => _).
    destruct (for_inv (fun j st => (1 <= j -> fst st = k')%nat /\ snd st = rows (trimF s u1 u2) j) body 0 (s_nV s) ([], []))
      as ([k P] & EB & B1 & B2).
    - split; [intros; lia|reflexivity].
    - intros j [k acc] Hj (_ & B). cbn [snd] in B. subst acc. unfold body. rewrite (row_slice _ _ (s_nV s)) by (auto; lia). cbn [bind].
      destruct (J j) as (EJ & _). rewrite EJ. cbn [bind]. eexists; split; [reflexivity|]. split; [intros; reflexivity|].
      cbn [snd]. rewrite rows_S. reflexivity.
    - cbn [fst snd] in B1, B2. specialize (B1 ltac:(lia)). rewrite EB. cbn [bind]. subst k P. reflexivity. }
  eexists; split; [exact E|].
  destruct (rows_surface s (trimF s u1 u2) k' n' u1 u2 Hok K' ltac:(intros j Hj; apply J)) as (Hok' & N1 & N2 & HR).
  cbv zeta in *. set (s' := with_u s _ _ _ _) in *.
  split; [exact Hok'|]. split; [rewrite N1; exact C'|]. do 7 (split; [reflexivity|]).
  rewrite N1. change (s_ku s') with k'. change (s_degU s') with (s_degU s).
  split; [exact T1|]. split; [exact T2|]. split; [exact T3|]. split; [exact T4|].
  intros Hev Hev' u v u' v' du dv (Hv & -> & -> & Hu).
  assert (Hu0 : u1 <= u <= u2) by (destruct Hu as [?|(-> & _)]; lra).
  pose proof (knots_span _ _ _ _ HkV Hv) as Hv0. destruct Hn as (B1 & B2 & B3 & B4).
  rewrite (surf_value_in eps s); [|lra|exact Hok|split; [|split; [|split]]; assumption|split; [lra|exact Hv]].
  rewrite (surf_value_guard s').
  2:{ unfold s'; cbn [with_u s_u1 s_u2]. lra. }
  2:{ unfold s'; cbn [with_u s_v1 s_v2]. rewrite B3, B4. lra. }
  unfold one. eapply (row_transfer eps (s_ku s) (s_nU s) (s_ku s') (s_nU s') (s_degU s) (s_kv s) (s_nV s) (s_degV s)); auto.
  { lra. } { rewrite N1. change (s_ku s') with k'. lra. }
  intros j c Hj. rewrite Rmult_1_l. rewrite N1, HR by auto. destruct (J j) as (_ & _ & VJ).
  unfold evaluable_surface in Hev'. rewrite N1 in Hev'.
  destruct (VJ (ev2_1 _ _ _ _ _ _ _ Hev) (ev2_1 _ _ _ _ _ _ _ Hev')) as [S1 S2].
  change (s_ku s') with k'. destruct Hu as [Hu|(-> & -> & Hc2)].
  - destruct (S1 u du Hu I) as (q & q' & -> & -> & Q). apply Q.
  - destruct (S2 Hc2 u2 0%nat eq_refl eq_refl) as (q & q' & -> & -> & Q). apply Q.
Qed.

Definition renat (s : surf R) : surf R :=
  mks (s_degU s) (s_degV s) (s_poles s) (s_ku s) (s_kv s) (kn (s_ku s) 0) (kn (s_ku s) (s_nU s + s_degU s))
      (kn (s_kv s) 0) (kn (s_kv s) (s_nV s + s_degV s)).


Lemma trimV_prop (s : surf R) v1 v2 : 0 < eps -> surface_ok s -> natural_surface s -> (1 <= s_degV s)%nat ->
  clamped (s_kv s) (s_nV s) (s_degV s) -> kn (s_kv s) (s_degV s) <= v1 -> v1 < v2 -> v2 <= kn (s_kv s) (s_nV s) ->
  exists s', trimV s v1 v2 = Ok s' /\ surface_ok s' /\ natural_surface s' /\ clamped (s_kv s') (s_nV s') (s_degV s') /\
    s_degU s' = s_degU s /\ s_degV s' = s_degV s /\ s_ku s' = s_ku s /\
    v1 - eps < kn (s_kv s') (s_degV s') <= v1 /\ v2 <= kn (s_kv s') (s_nV s') < v2 + eps /\
    (eps <= v1 - kn (s_kv s) (s_degV s) -> kn (s_kv s') (s_degV s') = v1) /\
    (eps <= kn (s_kv s) (s_nV s) - v2 -> kn (s_kv s') (s_nV s') = v2) /\
    (evaluable_surface eps s -> evaluable_surface eps s' -> surfaces_agree eps s s' (trimmed_v eps s v1 v2) one).
Proof.
  intros He Hok Hn Hp Hc H1 H12 H2. assert (He' : 0 <= eps) by lra. unfold trimV.
  destruct (invert_prop eps s He' Hok Hn) as (s1 & E1 & Hok1 & Hn1 & D1 & D2 & D3 & D4 & _ & D5 & V1).
  rewrite E1. cbn [bind].
  assert (M1 : s_nU s1 = s_nV s) by (unfold s_nU, s_nV; rewrite D1, D3; reflexivity).
  assert (M0 : s_nV s1 = s_nU s) by (unfold s_nU, s_nV; rewrite D2, D4; reflexivity).
  destruct (trimU_prop s1 v1 v2 He Hok1 Hn1) as (s2 & E2 & Hok2 & Hc2 & G1 & G2 & G3 & G4 & G5 & G6 & G7 & T1 & T2 & T3 & T4 & V2);
    rewrite ?M1, ?D1, ?D3; auto.
  rewrite E2. cbn [bind].
  assert (Hokn : surface_ok (renat s2)) by exact Hok2.
  assert (Hnn : natural_surface (renat s2)) by (split; [|split; [|split]]; reflexivity).
  destruct (invert_prop eps (renat s2) He' Hokn Hnn) as (s3 & E3 & Hok3 & Hn3 & F1 & F2 & F3 & F4 & _ & F5 & V3).
  change (invertUV (renat s2)) with (invertUV s2) in E3. rewrite E3.
  change (s_degV (renat s2)) with (s_degV s2) in *. change (s_degU (renat s2)) with (s_degU s2) in *.
  change (s_kv (renat s2)) with (s_kv s2) in *. change (s_ku (renat s2)) with (s_ku s2) in *.
  assert (M4 : s_nV s3 = s_nU s2) by (unfold s_nU, s_nV; rewrite F2, F4; reflexivity).
  exists s3. split; [reflexivity|]. split; [exact Hok3|]. split; [exact Hn3|].
  rewrite F1, F2, F3, F4, M4. split; [exact Hc2|]. split; [congruence|]. split; [congruence|]. split; [congruence|].
  split; [exact T1|]. split; [exact T2|]. rewrite D1, D3, M1 in *. split; [exact T3|]. split; [exact T4|].
  intros Hev Hev3.
  assert (Hev1 : evaluable_surface eps s1) by (apply (ev_swap s); auto).
  assert (Hev2 : evaluable_surface eps s2) by (apply (ev_swap s3); auto; congruence).
  specialize (V1 Hev). specialize (V2 Hev1 Hev2). specialize (V3 Hev2).
  intros x y x' y' du dv (Hx & -> & -> & Hy).
  assert (Hy0 : v1 <= y <= v2) by (destruct Hy as [?|(-> & _)]; lra).
  refine (agree_swap s s1 (renat s2) s3 (fun u v u' v' du dv => trimmed eps s1 v1 v2 u v u' v' du dv) one _ V1 V3 _ _ x y x y du dv _).
  - intros u v u' v' du' dv' (A & -> & -> & B).
    assert (B0 : v1 <= u <= v2) by (destruct B as [?|(-> & _)]; lra).
    split; (split; [|]).
    + rewrite D1, D3, M1. lra.
    + exact A.
    + change (kn (s_ku s2) (s_degU s2) <= u <= kn (s_ku s2) (s_nU s2)). lra.
    + change (kn (s_kv s2) (s_degV s2) <= v <= kn (s_kv s2) (s_nV s2)). unfold s_nV. rewrite G2, G3. exact A.
  - intros. apply in_swap; auto.
  - intros u v u' v' du' dv' A. destruct (V2 u v u' v' du' dv' A) as (z & z' & Z1 & Z2 & Z3).
    exists z, z'. split; [exact Z1|]. split; [|exact Z3]. destruct A as (A & -> & -> & B).
    assert (B0 : v1 <= u <= v2) by (destruct B as [?|(-> & _)]; lra).
    rewrite (surf_value_in eps (renat s2)); auto.
    + rewrite <- Z2. symmetry. change (surf_value s2 u v du' dv' = surf_eval u v (s_ku s2) (s_kv s2) (s_poles s2) (s_degU s2) (s_degV s2) du' dv').
      apply surf_value_guard; [lra|]. rewrite G4, G5.
      pose proof (knots_span _ _ _ _ (proj1 (proj2 Hok1)) A). destruct Hn1 as (_ & _ & -> & ->). lra.
    + split; [change (kn (s_ku s2) (s_degU s2) <= u <= kn (s_ku s2) (s_nU s2)); lra|].
      change (kn (s_kv s2) (s_degV s2) <= v <= kn (s_kv s2) (s_nV s2)). unfold s_nV. rewrite G2, G3. exact A.
  - unfold trimmed. rewrite D1, D2, D3, D4, M0, M1. auto.
Qed.

(** ** Iso-parametric curves *)
Lemma insert_index (k : list R) n p (u : R) r (P : list (pt R)) idx k1 P1 :
  knots_ok k n p -> length P = n -> kn k p <= u < kn k n -> (1 <= r)%nat ->
  insert_knots u p r k P = Ok (idx, k1, P1) -> (p + 1 <= upper_bound k1 u)%nat /\ idx = Z.of_nat (upper_bound k1 u - 1 - p).
Proof.
  intros Hk HP Hu Hr E. pose proof Hk as (L & Hpn & Hnd & Hlast).
  assert (Hub : (p + 1 <= upper_bound k u <= n)%nat).
  { split.
    - destruct (Nat.lt_ge_cases (upper_bound k u) (p + 1)) as [C|C]; [|lia]. exfalso.
      pose proof (ub_at eps k u ltac:(lia)). pose proof (Hnd (upper_bound k u) p ltac:(lia) ltac:(lia)). lra.
    - destruct (Nat.lt_ge_cases n (upper_bound k u)) as [C|C]; [|lia]. exfalso. pose proof (ub_below eps k u n C). lra. }
  destruct (Nat.lt_ge_cases (multiplicity u k) p) as [Hm|Hm].
  - destruct (insert_knots_same eps k u n p r P Hk HP Hu Hm Hr) as (idx' & k' & P' & r' & Er & E' & K' & LP' & _ & _ & _ & (m & Em & Hpos & Ei & Gk) & _).
    rewrite E in E'. injection E' as -> -> ->. pose proof K' as (L' & _ & Hnd' & _).
    destruct Hpos as (Q1 & Q2 & Q3 & Q4 & Q5 & Q6).
    assert (Hr' : (r' <= p)%nat) by lia.
    assert (UB : upper_bound k' u = (m + r' + 1)%nat).
    { apply (ub_char eps); auto; [lia| |].
      - intros i Hi. rewrite Gk by lia. unfold ins_kn.
        destruct (Nat.leb_spec i m); [apply (ub_below eps); lia|]. destruct (Nat.leb_spec i (m + r')); lra || lia.
      - intros Hlt. rewrite Gk by lia. unfold ins_kn.
        destruct (Nat.leb_spec (m + r' + 1) m); [lia|]. destruct (Nat.leb_spec (m + r' + 1) (m + r')); [lia|].
        replace (m + r' + 1 - r')%nat with (upper_bound k u) by lia. apply (ub_at eps). lia. }
    rewrite UB. split; [lia|]. rewrite Ei. f_equal. lia.
  - unfold multiplicity in Hm. unfold insert_knots in E. rewrite subi_ok in E by (rewrite HP; lia). cbn [bind] in E.
    apply Nat.leb_le in Hm. rewrite Hm in E.
    destruct (Nat.eqb_spec (upper_bound k u) (length k)); [lia|]. injection E as <- <- <-. split; lia.
Qed.

Lemma iso_pole (k : list R) n p (P : list (pt R)) (u : R) c : knots_ok k n p -> kn k p <= u < kn k n ->
  (p <= count_occ Req_EM_T k u)%nat ->
  CV k n p 0 (pole P c) u = pole P c (upper_bound k u - 1 - p).
Proof.
  intros Hk Hu Hc. pose proof Hk as (L & Hpn & Hnd & Hlast). rewrite <- (mult_count eps) in Hc by auto. unfold multiplicity in Hc.
  assert (Hub : (p + 1 <= upper_bound k u <= n)%nat).
  { split.
    - destruct (Nat.lt_ge_cases (upper_bound k u) (p + 1)) as [C|C]; [|lia]. exfalso.
      pose proof (ub_at eps k u ltac:(lia)). pose proof (Hnd (upper_bound k u) p ltac:(lia) ltac:(lia)). lra.
    - destruct (Nat.lt_ge_cases n (upper_bound k u)) as [C|C]; [|lia]. exfalso. pose proof (ub_below eps k u n C). lra. }
  set (l := (upper_bound k u - 1)%nat).
  pose proof (ub_below eps k u l ltac:(lia)) as U1. pose proof (ub_at eps k u ltac:(lia)) as U2.
  assert (Hs : span_at k n u l).
  { left. replace (S l) with (upper_bound k u) by lia. split; [exact U1|exact U2]. }
  rewrite (CV_at k n p 0 _ u l Hk ltac:(lia) Hs), PS_blo. cbn [ffall repeat app]. rewrite Nat.sub_0_r.
  rewrite <- (kargs_const (kn k) (l - p) p u).
  - rewrite (blo_dual k n p l) by (auto; try lia; replace (S l) with (upper_bound k u) by lia; lra). ring.
  - intros x Hx. apply Rle_antisym; [apply (ub_below eps); lia|].
    pose proof (lb_at eps k u ltac:(lia)). pose proof (Hnd (lower_bound k u) (l - p + x)%nat ltac:(lia) ltac:(lia)). lra.
Qed.

Lemma value_guard_eval (c : curve R) x d : c_lo c - eps <= x <= c_hi c + eps ->
  value c x d = eval_value x (c_knots c) (c_poles c) (c_deg c) d.
Proof.
  intros Hx. unfold value. destruct (oob_spec eps c x); [lra|reflexivity].
Qed.

(** The column of interpolated poles. *)
Lemma iso_column (s : surf R) (u : R) (F : nat -> list (pt R)) k1 n1 i0 : surface_ok s -> natural_surface s -> 0 <= eps ->
  evaluable_surface eps s ->
  kn (s_ku s) (s_degU s) <= u <= kn (s_ku s) (s_nU s) ->
  knots_ok k1 n1 (s_degU s) -> (i0 < n1)%nat -> (forall j, (j < s_nV s)%nat -> length (F j) = n1) ->
  (forall j c, (j < s_nV s)%nat ->
     val (eval_value u (s_ku s) (row (s_poles s) (s_nU s) j) (s_degU s) 0) c = pole (F j) c i0) ->
  let s' := with_u s (rows F (s_nV s)) k1 (s_u1 s) (s_u2 s) in
  exists cv, (let* P := polesV s' i0 in mk_curve P (s_kv s') (s_degV s')) = Ok cv /\
    c_deg cv = s_degV s /\ c_knots cv = s_kv s /\ c_lo cv = s_v1 s /\ c_hi cv = s_v2 s /\ c_n cv = s_nV s /\
    forall v dv, kn (s_kv s) (s_degV s) <= v <= kn (s_kv s) (s_nV s) ->
      exists z z', surf_value s u v 0 dv = Ok z /\ value cv v dv = Ok z' /\ forall c, z' c = z c.
Proof.
  intros Hok Hn He Hev Hu K1 Hi HF HV. pose proof Hok as (HkU & HkV & L). pose proof HkV as (LV & HpV & HndV & HlV).
  destruct (rows_surface s F k1 n1 (s_u1 s) (s_u2 s) Hok K1 HF) as (Hok' & N1 & N2 & HR). cbv zeta in *.
  set (s' := with_u s _ _ _ _) in *.
  rewrite polesV_ok by (auto; rewrite N1; exact Hi). cbn [bind]. rewrite N1, N2.
  change (s_kv s') with (s_kv s). change (s_degV s') with (s_degV s).
  rewrite (mk_curve_accepts eps) by (rewrite ?col_length; auto; lia).
  set (cv := mk _ _ _ _ _). exists cv. destruct Hn as (B1 & B2 & B3 & B4).
  assert (Hlo : c_lo cv = s_v1 s) by (unfold cv; cbn [c_lo]; congruence).
  assert (Hhi : c_hi cv = s_v2 s) by (unfold cv; cbn [c_hi]; rewrite B4; f_equal; lia).
  split; [reflexivity|]. split; [reflexivity|]. split; [reflexivity|]. split; [exact Hlo|]. split; [exact Hhi|].
  split; [unfold c_n, cv; cbn [c_poles]; apply col_length|].
  intros v dv Hv. pose proof (knots_span _ _ _ _ HkV Hv) as Hv0.
  rewrite value_guard_eval by (rewrite Hlo, Hhi, B3, B4; lra).
  rewrite (surf_value_in eps s) by (auto; repeat split; auto; apply Hu || apply Hv).
  destruct (surf_total eps _ _ _ _ _ _ _ Hok Hev u v 0 dv (conj Hu Hv)) as (z & Ez).
  destruct (eval_value_total eps (s_kv s) (s_nV s) (s_degV s) (c_poles cv) v dv HkV (col_length _ _ _ _) (ev2_2 _ _ _ _ _ _ _ Hev) Hv)
    as (z' & Ez').
  exists z, z'. split; [exact Ez|]. split; [exact Ez'|]. intros c.
  destruct (span_pack eps (s_kv s) (s_nV s) (s_degV s) v HkV Hv) as (l2 & _ & Hl2 & Hs2 & _).
  pose proof (surf_rows eps _ _ _ _ _ _ _ Hok Hev u v 0 dv c l2 Hu Hl2 Hs2) as A. unfold SVal in A. rewrite Ez in A. cbn [val] in A.
  pose proof (eval_val_span eps (s_kv s) (s_nV s) (s_degV s) (c_poles cv) v dv l2 c HkV (col_length _ _ _ _) (ev2_2 _ _ _ _ _ _ _ Hev) Hl2 Hs2) as A'.
  rewrite Ez' in A'. cbn [val] in A'. rewrite A, A'. destruct (Nat.leb_spec dv (s_degV s)); [|reflexivity].
  apply PS_ext. intros j Hj. rewrite HV by lia. unfold cv. cbn [c_poles]. rewrite pole_col by lia.
  unfold pole. unfold s'. cbn [with_u s_poles]. rewrite (nth_rows F n1 (s_nV s)) by (auto; lia). reflexivity.
Qed.

Lemma iso_insert (s : surf R) (u : R) : surface_ok s -> evaluable_surface eps s -> (1 <= s_degU s)%nat ->
  kn (s_ku s) (s_degU s) <= u < kn (s_ku s) (s_nU s) \/ u = kn (s_ku s) (s_nU s) /\ end_clamped (s_ku s) (s_nU s) (s_degU s) ->
  exists i0 k1 n1 F, rows_inserted s u (s_degU s) (Z.of_nat i0) k1 n1 F /\ (i0 < n1)%nat /\
    (forall j c, (j < s_nV s)%nat ->
       val (eval_value u (s_ku s) (row (s_poles s) (s_nU s) j) (s_degU s) 0) c = pole (F j) c i0).
Proof.
  intros Hok Hev Hp Hu. pose proof Hok as (HkU & HkV & L). pose proof HkU as (LU & HpU & HndU & HlU).
  pose proof HkV as (LV & HpV & HndV & HlV).
  assert (Hu0 : kn (s_ku s) (s_degU s) <= u <= kn (s_ku s) (s_nU s)).
  { destruct Hu as [?|(-> & _)]; [lra|]. pose proof (HndU (s_degU s) (s_nU s - 1)%nat ltac:(lia) ltac:(lia)). lra. }
  destruct Hu as [Hu|[Hu Hcl]].
  - destruct (insertU_ok eps s u (s_degU s) Hok Hu Hp) as (idx & k1 & n1 & E & K1 & A1 & A2 & A3 & A4 & A5 & A6 & J).
    destruct (J 0%nat ltac:(lia)) as (EJ & LJ & _).
    destruct (insert_index _ _ _ _ _ _ _ _ _ HkU (row_length _ _ _) Hu Hp EJ) as (U1 & ->).
    assert (Hi : (upper_bound k1 u - 1 - s_degU s < n1)%nat).
    { pose proof K1 as (L1 & Hp1 & _). destruct (Nat.lt_ge_cases n1 (upper_bound k1 u)) as [C|C]; [|lia].
      pose proof (ub_below eps k1 u n1 C). lra. }
    exists (upper_bound k1 u - 1 - s_degU s)%nat, k1, n1, (insF eps s u (s_degU s)). split; [|split; [exact Hi|]].
    + split; [exact K1|]. split; [exact A3|]. split; [exact A4|]. intros j Hj. destruct (J j Hj) as (X & Y & _). auto.
    + intros j c Hj. destruct (J j Hj) as (_ & _ & VJ).
      destruct (CV_eval eps (s_ku s) (s_nU s) (s_degU s) (row (s_poles s) (s_nU s) j) u 0 HkU (row_length _ _ _)
        (ev2_1 _ _ _ _ _ _ _ Hev) Hu0 ltac:(lia)) as (q & -> & Q). cbn [val]. rewrite Q, <- VJ by (auto; lia).
      apply iso_pole; auto; [lra|]. rewrite A5. lia.
  - assert (Hlen : forall i, (s_nU s <= i <= s_nU s + s_degU s)%nat -> kn (s_ku s) i = u).
    { intros i Hi. rewrite Hu. apply (Hcl i ltac:(lia)). }
    assert (UB : upper_bound (s_ku s) u = (s_nU s + s_degU s + 1)%nat).
    { apply (ub_char eps); auto; try lia. intros i Hi. rewrite <- (Hlen (s_nU s + s_degU s)%nat ltac:(lia)). apply HndU; lia. }
    assert (LB : lower_bound (s_ku s) u = s_nU s).
    { apply (lb_char eps); auto; try lia.
      - intros i Hi. pose proof (HndU i (s_nU s - 1)%nat ltac:(lia) ltac:(lia)). lra.
      - intros _. lra. }
    exists (s_nU s - 1)%nat, (s_ku s), (s_nU s), (row (s_poles s) (s_nU s)). split; [|split; [lia|]].
    + split; [exact HkU|]. split; [reflexivity|]. split; [reflexivity|]. intros j _. split; [|apply row_length].
      unfold insert_knots. rewrite subi_ok by (rewrite row_length; lia). cbn [bind]. rewrite UB, LB.
      replace (s_degU s <=? s_nU s + s_degU s + 1 - s_nU s)%nat with true by (symmetry; apply Nat.leb_le; lia).
      replace (s_nU s + s_degU s + 1 =? length (s_ku s))%nat with true by (symmetry; apply Nat.eqb_eq; lia).
      repeat f_equal. lia.
    + intros j c Hj.
      destruct (CV_eval eps (s_ku s) (s_nU s) (s_degU s) (row (s_poles s) (s_nU s) j) u 0 HkU (row_length _ _ _)
        (ev2_1 _ _ _ _ _ _ _ Hev) Hu0 ltac:(lia)) as (q & -> & Q). cbn [val]. rewrite Q.
      assert (Hs : span_at (s_ku s) (s_nU s) u (s_nU s - 1)).
      { right. split; [exact Hu|]. reflexivity. }
      rewrite (CV_at _ _ _ 0 _ u (s_nU s - 1) HkU ltac:(lia) Hs), PS_blo. cbn [ffall repeat app]. rewrite Nat.sub_0_r.
      rewrite <- (kargs_const (kn (s_ku s)) (s_nU s - 1) (s_degU s) u).
      * rewrite (blo_dual (s_ku s) (s_nU s) (s_degU s) (s_nU s - 1)) by (auto; try lia; replace (S (s_nU s - 1)) with (s_nU s) by lia; lra). ring.
      * intros x Hx. apply Hlen. lia.
Qed.

Lemma out_u_in (s : surf R) u : 0 <= eps -> surface_ok s -> natural_surface s ->
  kn (s_ku s) (s_degU s) <= u <= kn (s_ku s) (s_nU s) -> out_u s u = false.
Proof.
  intros He (HkU & _) (B1 & B2 & _) Hu. pose proof (knots_span _ _ _ _ HkU Hu). unfold out_u. nsimp. cbn [neps NumR]. rewrite B1, B2.
  destruct (Rltb_spec u (kn (s_ku s) 0 - eps)); [lra|]. destruct (Rltb_spec (kn (s_ku s) (s_nU s + s_degU s) + eps) u); [lra|]. reflexivity.
Qed.
Lemma end_in (k : list R) n p u : knots_ok k n p -> kn k p <= u < kn k n \/ u = kn k n /\ end_clamped k n p -> kn k p <= u <= kn k n.
Proof. intros (L & Hp & Hnd & Hl) [?|(-> & _)]; [lra|]. pose proof (Hnd p (n - 1)%nat ltac:(lia) ltac:(lia)). lra. Qed.

Lemma isoU_prop (s : surf R) (u : R) : 0 <= eps -> surface_ok s -> natural_surface s -> evaluable_surface eps s -> (1 <= s_degU s)%nat ->
  kn (s_ku s) (s_degU s) <= u < kn (s_ku s) (s_nU s) \/ u = kn (s_ku s) (s_nU s) /\ end_clamped (s_ku s) (s_nU s) (s_degU s) ->
  exists cv, isoU s u = Ok cv /\
    c_deg cv = s_degV s /\ c_knots cv = s_kv s /\ c_lo cv = s_v1 s /\ c_hi cv = s_v2 s /\ c_n cv = s_nV s /\
    forall v dv, kn (s_kv s) (s_degV s) <= v <= kn (s_kv s) (s_nV s) ->
      exists z z', surf_value s u v 0 dv = Ok z /\ value cv v dv = Ok z' /\ forall c, z' c = z c.
Proof.
  intros He Hok Hn Hev Hp Hu. pose proof Hok as (HkU & HkV & L). pose proof (end_in _ _ _ _ HkU Hu) as Hu0.
  unfold isoU. rewrite out_u_in by auto.
  destruct (iso_insert s u Hok Hev Hp Hu) as (i0 & k1 & n1 & F & HR & Hi & HV).
  rewrite (insertU_rows s u _ _ _ _ _ Hok HR). cbn [bind]. destruct HR as (K1 & _ & _ & J).
  replace (Z.of_nat i0 <? 0)%Z with false by (symmetry; apply Z.ltb_ge; lia). rewrite Nat2Z.id.
  apply (iso_column s u F k1 n1); auto. intros j Hj. apply J, Hj.
Qed.

Lemma isoV_eq (s s1 : surf R) (v : R) : 0 <= eps -> surface_ok s -> natural_surface s -> evaluable_surface eps s -> (1 <= s_degV s)%nat ->
  kn (s_kv s) (s_degV s) <= v < kn (s_kv s) (s_nV s) \/ v = kn (s_kv s) (s_nV s) /\ end_clamped (s_kv s) (s_nV s) (s_degV s) ->
  invertUV s = Ok s1 -> isoV s v = isoU s1 v.
Proof.
  intros He Hok Hn Hev Hp Hv E1.
  destruct (invert_prop eps s He Hok Hn) as (s1' & E1' & Hok1 & Hn1 & D1 & D2 & D3 & D4 & _ & _ & _).
  rewrite E1 in E1'. injection E1' as <-.
  assert (M1 : s_nU s1 = s_nV s) by (unfold s_nU, s_nV; rewrite D1, D3; reflexivity).
  assert (M2 : s_u1 s1 = s_v1 s /\ s_u2 s1 = s_v2 s).
  { destruct Hn1 as (-> & -> & _). destruct Hn as (_ & _ & -> & ->). rewrite M1, D1, D3. auto. }
  destruct (iso_insert s1 v Hok1) as (i0 & k1 & n1 & F & HR & Hi & _).
  { apply (ev_swap s); auto. } { rewrite D1. exact Hp. } { rewrite D1, D3, M1. exact Hv. }
  unfold isoV, isoU. replace (out_v s v) with (out_u s1 v) by (unfold out_u, out_v; destruct M2 as [-> ->]; reflexivity).
  rewrite out_u_in; auto.
  2:{ rewrite D1, D3, M1. apply end_in; [apply Hok|exact Hv]. }
  rewrite (insertU_rows s1 v _ _ _ _ _ Hok1 HR). cbn [bind]. rewrite D1 in HR.
  rewrite (insertV_rows s s1 v _ _ _ _ _ Hok Hn E1 HR). destruct HR as (K1 & _ & _ & J).
  destruct (rows_surface s1 F k1 n1 (s_u1 s1) (s_u2 s1) Hok1 K1 ltac:(intros j Hj; apply J, Hj)) as (Hok2 & N1 & N2 & HR).
  cbv zeta in *. set (s2 := with_u s1 _ _ _ _) in *.
  destruct (invert_ok eps s2 Hok2) as (T2 & E2 & EI2 & LT2 & R2 & C2 & _). rewrite EI2. cbn [bind].
  set (s3 := mks _ _ _ _ _ _ _ _ _).
  assert (Hok3 : surface_ok s3).
  { pose proof Hok2 as (X & Y & Z). split; [exact Y|split; [exact X|exact LT2]]. }
  replace (Z.of_nat i0 <? 0)%Z with false by (symmetry; apply Z.ltb_ge; lia). rewrite Nat2Z.id.
  rewrite (polesU_ok eps s3) by (auto; change (s_nV s3) with (s_nU s2); lia).
  rewrite (polesV_ok s2) by (auto; lia). cbn [bind].
  change (s_poles s3) with T2. change (s_nU s3) with (s_nV s2). rewrite R2 by lia.
  change (s_ku s3) with (s_kv s2). change (s_degU s3) with (s_degV s2). reflexivity.
Qed.

Lemma isoV_prop (s : surf R) (v : R) : 0 <= eps -> surface_ok s -> natural_surface s -> evaluable_surface eps s -> (1 <= s_degV s)%nat ->
  kn (s_kv s) (s_degV s) <= v < kn (s_kv s) (s_nV s) \/ v = kn (s_kv s) (s_nV s) /\ end_clamped (s_kv s) (s_nV s) (s_degV s) ->
  exists cu, isoV s v = Ok cu /\
    c_deg cu = s_degU s /\ c_knots cu = s_ku s /\ c_lo cu = s_u1 s /\ c_hi cu = s_u2 s /\ c_n cu = s_nU s /\
    forall u du, kn (s_ku s) (s_degU s) <= u <= kn (s_ku s) (s_nU s) ->
      exists z z', surf_value s u v du 0 = Ok z /\ value cu u du = Ok z' /\ forall c, z' c = z c.
Proof.
  intros He Hok Hn Hev Hp Hv.
  destruct (invert_prop eps s He Hok Hn) as (s1 & E1 & Hok1 & Hn1 & D1 & D2 & D3 & D4 & _ & _ & V1).
  rewrite (isoV_eq s s1) by auto.
  assert (M1 : s_nU s1 = s_nV s) by (unfold s_nU, s_nV; rewrite D1, D3; reflexivity).
  assert (M0 : s_nV s1 = s_nU s) by (unfold s_nU, s_nV; rewrite D2, D4; reflexivity).
  assert (M2 : s_v1 s1 = s_u1 s /\ s_v2 s1 = s_u2 s).
  { destruct Hn1 as (_ & _ & -> & ->). destruct Hn as (-> & -> & _). rewrite M0, D2, D4. auto. }
  destruct M2 as [M2 M3].
  destruct (isoU_prop s1 v He Hok1 Hn1) as (cu & E & A1 & A2 & A3 & A4 & A5 & A6).
  { apply (ev_swap s); auto. } { rewrite D1. exact Hp. } { rewrite D1, D3, M1. exact Hv. }
  exists cu. split; [exact E|]. split; [congruence|]. split; [congruence|]. split; [congruence|]. split; [congruence|]. split; [congruence|].
  intros u du Hu.
  destruct (V1 Hev u v du 0%nat) as (z & z1 & Z1 & Z2 & Z3).
  { split; [exact Hu|]. apply end_in; [apply Hok|exact Hv]. }
  destruct (A6 u du) as (y & z' & Y1 & Y2 & Y3). { rewrite D2, D4, M0. exact Hu. }
  assert (z1 = y) by congruence. subst y. exists z, z'. split; [exact Z1|]. split; [exact Y2|]. intros c. rewrite Y3, Z3. reflexivity.
Qed.

(** Within the tolerance below the first knot isoU leaves the pole array. *)
Lemma isoU_below (s : surf R) (u : R) : surface_ok s -> natural_surface s -> (1 <= s_degU s)%nat ->
  s_u1 s - eps <= u < s_u1 s -> isoU s u = Undef BadIndex.
Proof.
  intros Hok Hn Hp Hu. pose proof (urow_lt s Hok Hn). pose proof Hok as (HkU & HkV & L). pose proof HkU as (LU & HpU & HndU & HlU).
  pose proof HkV as (_ & HpV & _).
  unfold isoU, out_u. nsimp. cbn [neps NumR].
  destruct (Rltb_spec u (s_u1 s - eps)); [lra|]. destruct (Rltb_spec (s_u2 s + eps) u); [lra|]. cbn [orb].
  unfold insertKnotU. rewrite nPolesV_ok by auto. cbn [bind].
  destruct (s_nV s) as [|mm] eqn:EM; [lia|]. cbn [for_]. rewrite polesU_ok by (auto; lia). cbn [bind].
  rewrite (insert_below eps) by (auto; try (intros Z; apply (f_equal (@length _)) in Z; rewrite ?row_length in Z; simpl in Z; lia);
    destruct Hn as (B1 & _); lra). reflexivity.
Qed.
End AtR.
