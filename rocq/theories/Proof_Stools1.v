(** Joining surfaces: the rows. *)
From Coq Require Import List Arith ZArith Reals Lia Lra Bool.
From Verif Require Import Model_Base Spec_Base Spec_Basis Spec_Knots Spec_Eval Spec_Surface Spec_Elevate Spec_Unify Spec_Curve Spec_Gordon
  Model_Basis Model_Knots Model_Curve Model_Surface Model_Elevate Model_Unify Model_Interp Model_Gordon Model_Connect Model_Stools
  Proof_Base Proof_Basis Proof_Eval Proof_Insert Proof_Curve Proof_Trim Proof_PropBasis
  Proof_Knots Proof_Builders Proof_Elevate2 Proof_Elevate3 Proof_Elevate4 Proof_Unify Proof_Unify2 Proof_Unify3 Proof_Unify4 Proof_Unify5
  Proof_PropRemove2 Proof_Join Proof_Join2 Proof_Json
  Proof_Interp Proof_Surface Proof_SurfEdit Proof_Skin1 Proof_Gordon1 Proof_Gordon2 Proof_Gordon4 Proof_Connect4.
Import ListNotations.
Local Open Scope R_scope.

Section AtR.
Variable eps : R.
Local Hint Extern 0 (Num R) => exact (NumR eps) : typeclass_instances.
Hypothesis He : 0 < eps.

Lemma ckn_gk p k n : ckn_of eps p k n -> gk k n p.
Proof.
  intros (U & M & HK & -> & ->). pose proof (info_gk eps p (repeat (fun _ => 0) (poles_for p M), repeat_each U M, p) ltac:(lra)) as G.
  unfold knots_of, poles_of in G. cbn [fst snd] in G. rewrite repeat_length in G. apply G.
  split; [reflexivity|]. exists U, M. split; [exact HK|]. split; [reflexivity|]. apply repeat_length.
Qed.

Lemma ckn_support p k n : ckn_of eps p k n -> full_support k n p.
Proof.
  intros H. pose proof (ckn_gk p k n H) as (_ & _ & _ & G & _). destruct H as (U & M & HK & -> & ->).
  pose proof (ck_ckn eps p U M ltac:(lra) HK) as HC. pose proof HC as (L & L2 & HI & _ & _ & _).
  split; [rewrite <- Nat.add_1_r; exact G|]. intros i Hi. rewrite (ck_n p U M HC) in Hi.
  pose proof (ck_pre_m p U M HC) as Em.
  destruct (re_find M i ltac:(lia)) as (s & Hs & B1 & B2). rewrite <- pre_S in B2. rewrite L in Hs.
  assert (Hs' : (s < length U - 1)%nat).
  { destruct (Nat.lt_ge_cases s (length U - 1)) as [Q|Q]; [exact Q|]. pose proof (pre_mono M (length U - 1) s Q). lia. }
  pose proof (ck_mult_le p U M HC s Hs) as Ml. pose proof (ck_mult p U M HC (S s) ltac:(lia)) as Mp. pose proof (pre_S M s) as E1. pose proof (pre_S M (S s)) as E2.
  rewrite (ck_at p U M HC s i Hs ltac:(lia)).
  apply Rlt_le_trans with (kn U (S s)); [apply HI; lia|].
  rewrite <- (ck_at p U M HC (S s) (pre M (S s)) ltac:(lia) ltac:(lia)).
  destruct (ck_knots_ok p U M HC) as (LK & _ & ND & _). apply ND; [lia|]. rewrite LK, (ck_n p U M HC). lia.
Qed.

Lemma csurf_dom s u v : csurf eps s -> in_surface s u v <-> (s_u1 s <= u <= s_u2 s /\ s_v1 s <= v <= s_v2 s).
Proof.
  intros (Ok1 & (N1 & N2 & N3 & N4) & CU & CV & _ & _).
  destruct (ckn_gk _ _ _ CU) as ((LU & _) & _ & SU & _ & TU & _). destruct (ckn_gk _ _ _ CV) as ((LV & _) & _ & SV & _ & TV & _).
  unfold last_knot in TU, TV. unfold in_surface, in_rect. rewrite N1, N2, N3, N4, (SU (s_degU s)), (SV (s_degV s)), TU, TV by lia.
  rewrite LU, LV. replace (s_nU s + s_degU s + 1 - 1)%nat with (s_nU s + s_degU s)%nat by lia.
  replace (s_nV s + s_degV s + 1 - 1)%nat with (s_nV s + s_degV s)%nat by lia. tauto.
Qed.

Lemma csurf_bounds s : csurf eps s -> s_u1 s = first_knot (s_ku s) /\ s_u2 s = last_knot (s_ku s) /\
  s_v1 s = first_knot (s_kv s) /\ s_v2 s = last_knot (s_kv s) /\ s_u1 s < s_u2 s /\ s_v1 s < s_v2 s.
Proof.
  intros (Ok1 & (N1 & N2 & N3 & N4) & CU & CV & _ & _).
  destruct (ckn_gk _ _ _ CU) as ((LU & _) & _ & SU & _ & TU & LTU). destruct (ckn_gk _ _ _ CV) as ((LV & _) & _ & SV & _ & TV & LTV).
  unfold first_knot, last_knot in *. rewrite N1, N2, N3, N4. rewrite LU, LV in *.
  replace (s_nU s + s_degU s + 1 - 1)%nat with (s_nU s + s_degU s)%nat in * by lia.
  replace (s_nV s + s_degV s + 1 - 1)%nat with (s_nV s + s_degV s)%nat in * by lia. tauto.
Qed.

(** The same knots in two clamped vectors have the same degree. *)
Lemma ckn_degree p q k n m : ckn_of eps p k n -> ckn_of eps q k m -> p = q /\ n = m.
Proof.
  intros (U & M & HK & E & EN) (V & N & HL & E' & EM).
  pose proof (ck_ckn eps p U M ltac:(lra) HK) as HC. pose proof (ck_ckn eps q V N ltac:(lra) HL) as HD.
  destruct (re_ends p U M HC) as (F1 & _). destruct (re_ends q V N HD) as (F2 & _). rewrite <- E in F1. rewrite <- E' in F2.
  pose proof HC as (A1 & A2 & A3 & A4 & _). pose proof HD as (B1 & B2 & B3 & B4 & _).
  pose proof (count_re U M 0 A3 A1 ltac:(lia)) as C1. pose proof (count_re V N 0 B3 B1 ltac:(lia)) as C2.
  rewrite <- E, <- F1, A4 in C1. rewrite <- E', <- F2, B4 in C2.
  assert (P : p = q) by lia. split; [exact P|]. pose proof (ck_len p U M HC) as Q1. pose proof (ck_len q V N HD) as Q2.
  rewrite <- E, <- EN in Q1. rewrite <- E', <- EM in Q2. lia.
Qed.

(** Lengths: the distinct knots are among the given ones. *)
Lemma ckn_length p k n l : ckn_of eps p k n -> (p <= 12)%nat -> (forall x, In x k -> In x l) -> (length k <= 13 * length l)%nat.
Proof.
  intros (U & M & HK & -> & ->) Hp Hi. pose proof (ck_ckn eps p U M ltac:(lra) HK) as HC. pose proof HC as (L & _ & HI & _).
  assert (A : (length U <= length l)%nat).
  { apply NoDup_incl_length.
    - apply (NoDup_nth U 0). intros i j Hii Hjj E. destruct (Nat.lt_trichotomy i j) as [Q|[Q|Q]]; [|exact Q|]; exfalso.
      + pose proof (HI i j Q Hjj) as Z. unfold kn in Z. lra.
      + pose proof (HI j i Q Hii) as Z. unfold kn in Z. lra.
    - intros x Hx. apply Hi. destruct (In_nth U x 0 Hx) as (i & Hi' & <-).
      change (nth i U 0) with (kn U i). rewrite <- (ck_at p U M HC i (pre M i)) by (pose proof (ck_mult p U M HC i Hi'); rewrite ?pre_S; lia).
      unfold kn. apply nth_In. rewrite (re_length U M L). rewrite <- (pre_all M), L.
      pose proof (pre_mono M (S i) (length U) ltac:(lia)). pose proof (ck_mult p U M HC i Hi'). rewrite pre_S in H. lia. }
  rewrite (re_length U M L).
  assert (B : (list_sum M <= 13 * length M)%nat).
  { assert (G : forall x, In x M -> (x <= 13)%nat).
    { intros x Hx. destruct (In_nth M x 0%nat Hx) as (i & Hi' & <-). pose proof (ck_mult_le p U M HC i ltac:(lia)). lia. }
    clear - G. induction M as [|m M IH]; [simpl; lia|]. cbn [length]. change (list_sum (m :: M)) with (m + list_sum M)%nat.
    pose proof (G m (or_introl eq_refl)). specialize (IH (fun x Hx => G x (or_intror Hx))). lia. }
  lia.
Qed.

Lemma csurf_span s v : csurf eps s -> s_v1 s <= v <= s_v2 s -> kn (s_kv s) (s_degV s) <= v <= kn (s_kv s) (s_nV s).
Proof. intros H Hv. destruct (csurf_bounds s H) as (_ & _ & _ & _ & L & _). apply (csurf_dom s (s_u1 s) v H). lra. Qed.
Lemma csurf_span_u s u : csurf eps s -> s_u1 s <= u <= s_u2 s -> kn (s_ku s) (s_degU s) <= u <= kn (s_ku s) (s_nU s).
Proof. intros H Hv. destruct (csurf_bounds s H) as (_ & _ & _ & _ & _ & L). apply (csurf_dom s u (s_v1 s) H). lra. Qed.

(** The edges u = u2 and u = u1. *)
Lemma edge_end s v c l2 : csurf eps s -> s_v1 s <= v <= s_v2 s -> (s_degV s <= l2 < s_nV s)%nat -> span_at (s_kv s) (s_nV s) v l2 ->
  exists z, surf_value s (s_u2 s) v 0 0 = Ok z /\ z c = PS (s_kv s) (s_degV s) l2 0 (fun j => pole (s_poles s) c ((s_nU s - 1) + s_nU s * j)) v.
Proof.
  intros H Hv Hl Hs. destruct (csurf_bounds s H) as (_ & B2 & _ & _ & BL & _).
  assert (Hin : in_surface s (s_u2 s) v) by (apply (proj2 (csurf_dom s _ v H)); split; [lra|exact Hv]).
  destruct (csurf_value eps s _ _ 0 0 He H Hin) as (z & E & E' & _). exists z. split; [exact E|].
  pose proof H as (Hok & _ & CU & _). pose proof Hok as (K1 & K2 & LP).
  pose proof (surf_rows eps _ _ _ _ _ _ _ Hok (csurf_ev eps s H) (s_u2 s) v 0 0 c l2 (proj1 Hin) Hl Hs) as A.
  unfold SVal in A. rewrite E' in A. cbn [val Nat.leb] in A. rewrite A. apply PS_ext. intros j Hj.
  destruct (ckn_gk _ _ _ CU) as (_ & EC & _ & _ & T & _). rewrite B2, <- T.
  destruct (eval_value_end eps (s_ku s) (s_nU s) (s_degU s) (row (s_poles s) (s_nU s) j) K1 (row_length _ _ _) (ev2_1 _ _ _ _ _ _ _ (csurf_ev eps s H)) EC) as (q & -> & Q).
  cbn [val]. rewrite Q. destruct K1 as (_ & Hn & _). apply pole_row. lia.
Qed.
Lemma edge_start s v c l2 : csurf eps s -> s_v1 s <= v <= s_v2 s -> (s_degV s <= l2 < s_nV s)%nat -> span_at (s_kv s) (s_nV s) v l2 ->
  exists z, surf_value s (s_u1 s) v 0 0 = Ok z /\ z c = PS (s_kv s) (s_degV s) l2 0 (fun j => pole (s_poles s) c (0 + s_nU s * j)) v.
Proof.
  intros H Hv Hl Hs. destruct (csurf_bounds s H) as (B1 & _ & _ & _ & BL & _).
  assert (Hin : in_surface s (s_u1 s) v) by (apply (proj2 (csurf_dom s _ v H)); split; [lra|exact Hv]).
  destruct (csurf_value eps s _ _ 0 0 He H Hin) as (z & E & E' & _). exists z. split; [exact E|].
  pose proof H as (Hok & _ & CU & _). pose proof Hok as (K1 & K2 & LP).
  pose proof (surf_rows eps _ _ _ _ _ _ _ Hok (csurf_ev eps s H) (s_u1 s) v 0 0 c l2 (proj1 Hin) Hl Hs) as A.
  unfold SVal in A. rewrite E' in A. cbn [val Nat.leb] in A. rewrite A. apply PS_ext. intros j Hj.
  destruct (ckn_gk _ _ _ CU) as (_ & _ & SC & ST & _). rewrite B1. unfold first_knot.
  destruct (eval_value_start eps (s_ku s) (s_nU s) (s_degU s) (row (s_poles s) (s_nU s) j) K1 (row_length _ _ _) (ev2_1 _ _ _ _ _ _ _ (csurf_ev eps s H)) SC ST) as (q & -> & Q).
  cbn [val]. rewrite Q. destruct K1 as (_ & Hn & _). apply pole_row. lia.
Qed.

(** Surfaces that meet along the edge share its poles. *)
Lemma edge_poles s1 s2 (dim : nat) : csurf eps s1 -> csurf eps s2 -> s_kv s1 = s_kv s2 ->
  (forall v, s_v1 s1 <= v <= s_v2 s1 -> exists z z', surf_value s1 (s_u2 s1) v 0 0 = Ok z /\ surf_value s2 (s_u1 s2) v 0 0 = Ok z' /\
     forall c, (c < dim)%nat -> z c = z' c) ->
  forall j c, (j < s_nV s1)%nat -> (c < dim)%nat ->
  pole (s_poles s1) c ((s_nU s1 - 1) + s_nU s1 * j) = pole (s_poles s2) c (s_nU s2 * j).
Proof.
  intros H1 H2 Ek He' j c Hj Hc.
  pose proof H1 as ((_ & K1 & _) & _ & _ & CV1 & _). pose proof H2 as (_ & _ & _ & CV2 & _).
  assert (Q : s_degV s1 = s_degV s2 /\ s_nV s1 = s_nV s2) by (apply (ckn_degree _ _ (s_kv s1)); [exact CV1|rewrite Ek; exact CV2]).
  destruct Q as (Qd & Qn). destruct (csurf_bounds s1 H1) as (_ & _ & B3 & B4 & _). destruct (csurf_bounds s2 H2) as (_ & _ & B7 & B8 & _).
  set (A := map (fun j => (fun c => if (c <? dim)%nat then pole (s_poles s1) c ((s_nU s1 - 1) + s_nU s1 * j) else 0) : pt R) (seq 0 (s_nV s1))).
  set (B := map (fun j => (fun c => if (c <? dim)%nat then pole (s_poles s2) c (s_nU s2 * j) else 0) : pt R) (seq 0 (s_nV s1))).
  assert (PA : forall i c, (i < s_nV s1)%nat -> pole A c i = if (c <? dim)%nat then pole (s_poles s1) c ((s_nU s1 - 1) + s_nU s1 * i) else 0).
  { intros i c' Hi. unfold pole at 1, A. rewrite nth_map_seq by exact Hi. reflexivity. }
  assert (PB : forall i c, (i < s_nV s1)%nat -> pole B c i = if (c <? dim)%nat then pole (s_poles s2) c (s_nU s2 * i) else 0).
  { intros i c' Hi. unfold pole at 1, B. rewrite nth_map_seq by exact Hi. reflexivity. }
  assert (G := full_poles_unique (s_kv s1) (s_nV s1) (s_degV s1) A B K1 (ckn_support _ _ _ CV1)).
  assert (G0 : polec A c j = polec B c j).
  { apply G; [|exact Hj]. intros v c' Hv.
    destruct (span_pack eps _ _ _ v K1 Hv) as (l & _ & Hl & Hs & _). rewrite !(CV_at _ _ _ _ _ _ l) by auto.
    destruct (Nat.ltb_spec c' dim) as [Hd|Hd].
    - assert (Hv' : s_v1 s1 <= v <= s_v2 s1).
      { destruct (ckn_gk _ _ _ CV1) as (_ & _ & S & _ & T & _). unfold first_knot in B3. rewrite B3, B4, <- T, <- (S (s_degV s1)) by lia. exact Hv. }
      destruct (edge_end s1 v c' l H1 Hv' Hl Hs) as (z & Z1 & Z2).
      destruct (edge_start s2 v c' l H2) as (z' & Z1' & Z2'); [rewrite B7, B8, <- Ek, <- B3, <- B4; exact Hv'|lia|rewrite <- Ek, <- Qn; exact Hs|].
      destruct (He' v Hv') as (y & y' & Y1 & Y2 & Y3). rewrite Z1 in Y1. rewrite Z1' in Y2. injection Y1 as <-. injection Y2 as <-.
      specialize (Y3 c' Hd). rewrite Z2, Z2', <- Ek, <- Qd in Y3.
      etransitivity; [|etransitivity; [exact Y3|]]; apply PS_ext; intros i Hi; rewrite ?PA, ?PB by lia; apply Nat.ltb_lt in Hd; rewrite Hd; reflexivity.
    - apply PS_ext. intros i Hi. rewrite PA, PB by lia. apply Nat.ltb_ge in Hd. rewrite Hd. reflexivity. }
  change (pole A c j = pole B c j) in G0. rewrite PA, PB in G0 by exact Hj. apply Nat.ltb_lt in Hc. rewrite Hc in G0. exact G0.
Qed.

(** Transfer from the rows to the surface, on some coordinates. *)
Lemma row_transfer_on (D : nat -> Prop) ku n ku' n' p kv m q P P' u u' du dv v :
  Spec_Surface.grid_ok ku n p kv m q P -> Spec_Surface.grid_ok ku' n' p kv m q P' ->
  evaluable2 eps ku n p kv m q -> evaluable2 eps ku' n' p kv m q ->
  kn ku p <= u <= kn ku n -> kn ku' p <= u' <= kn ku' n' -> kn kv q <= v <= kn kv m ->
  (forall j c, (j < m)%nat -> D c ->
     val (eval_value u' ku' (row P' n' j) p du) c = val (eval_value u ku (row P n j) p du) c) ->
  exists z z', surf_eval u v ku kv P p q du dv = Ok z /\ surf_eval u' v ku' kv P' p q du dv = Ok z' /\
    forall c, D c -> z' c = z c.
Proof.
  intros Hg Hg' Hev Hev' Hu Hu' Hv H.
  destruct (surf_total eps ku kv n m p q P Hg Hev u v du dv (conj Hu Hv)) as (z & E).
  destruct (surf_total eps ku' kv n' m p q P' Hg' Hev' u' v du dv (conj Hu' Hv)) as (z' & E').
  exists z, z'. split; [exact E|]. split; [exact E'|]. intros c Hc. pose proof Hg as (_ & Hkv & _).
  destruct (span_pack eps kv m q v Hkv Hv) as (l2 & _ & Hl2 & Hs2 & _).
  pose proof (surf_rows eps ku kv n m p q P Hg Hev u v du dv c l2 Hu Hl2 Hs2) as A. unfold SVal in A. rewrite E in A. cbn [val] in A.
  pose proof (surf_rows eps ku' kv n' m p q P' Hg' Hev' u' v du dv c l2 Hu' Hl2 Hs2) as B. unfold SVal in B. rewrite E' in B. cbn [val] in B.
  rewrite A, B. destruct (dv <=? q)%nat; [|reflexivity]. apply PS_ext. intros j Hj. apply H; [lia|exact Hc].
Qed.
End AtR.
