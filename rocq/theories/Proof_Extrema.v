(** Closest points: what an honest minimiser makes of the objectives of gbs/extrema.h. *)
From Coq Require Import List Arith ZArith Reals Lia Lra Bool.
From Verif Require Import Model_Base Model_Knots Model_Math Model_Vec Model_Wrap Model_Analysis Model_Extrema
  Spec_Base Spec_Basis Spec_Build Spec_Motion Spec_Analysis Spec_Extrema
  Proof_Base Proof_Build Proof_Builders Proof_Builders2 Proof_Analysis2 Proof_Analysis4.
Import ListNotations.
Local Open Scope R_scope.

Section AtR.
Variable eps : R.
Local Hint Extern 0 (Num R) => exact (NumR eps) : typeclass_instances.

Lemma sqlen_nn dim (a : pt R) : 0 <= sqlen dim a.
Proof. induction dim as [|m IH]; cbn [sqlen]; [lra|]. pose proof (pow2_ge_0 (a m)). nra. Qed.
Lemma sqnorm_dist dim (p q : pt R) : sq_norm dim (psub p q) = sqdist dim p q.
Proof. rewrite (sq_norm_R eps). reflexivity. Qed.
Lemma sqdist_sym dim (p q : pt R) : sqdist dim p q = sqdist dim q p.
Proof. unfold sqdist. induction dim as [|m IH]; cbn [sqlen]; [reflexivity|]. rewrite IH. ring. Qed.
Lemma sqdist_nn dim (p q : pt R) : 0 <= sqdist dim p q.
Proof. apply sqlen_nn. Qed.

(** ** Single residuals *)
Definition single (f : list R -> result (list R)) (D : list R -> R -> Prop) : Prop :=
  forall x r, f x = Ok r <-> exists s, r = [s] /\ D x s.

Lemma solve_obj opt f g x0 lb hb tol x m D : single f D -> (forall y s, D y s -> 0 <= s) -> honest opt -> solve_D opt f g x0 lb hb tol = Ok (x, m) ->
  in_box lb hb x /\ exists s, D x s /\ sqrt m = s /\ m = s * s /\
    (global opt -> forall y t, in_box lb hb y -> D y t -> s <= t) /\ (descending opt -> forall t, D x0 t -> s <= t).
Proof.
  intros Sf Nn Ho H. unfold solve_D in H. destruct (Ho _ _ _ _ _ _ _ _ H) as (Hx & Hb). split; [exact Hb|].
  apply bind_inv in Hx as (r & Er & Em). apply Sf in Er as (s & -> & Ds). cbn [fold_left] in Em. nsimp. injection Em as Em.
  pose proof (Nn _ _ Ds) as Ps. exists s. split; [exact Ds|]. rewrite Rplus_0_l in Em. split; [rewrite <- Em; apply sqrt_square; exact Ps|]. split; [symmetry; exact Em|].
  split.
  - intros Hg y t Hy Dt. pose proof (Nn _ _ Dt) as Pt. assert (Et : f y = Ok [t]) by (apply Sf; eauto).
    assert (H1 : m <= t * t). { refine (Hg _ _ _ _ _ _ _ _ y _ _ H Hy _).
      { intros z v Ev. apply bind_inv in Ev as (r & Er & Ev). apply Sf in Er as (sz & -> & _). cbn [fold_left] in Ev. nsimp. injection Ev as <-. nra. } rewrite Et. cbn. nsimp. apply (f_equal Ok). ring. }
    nra.
  - intros Hd t Dt. pose proof (Nn _ _ Dt) as Pt. assert (Et : f x0 = Ok [t]) by (apply Sf; eauto).
    assert (H1 : m <= t * t). { apply (Hd _ _ _ _ _ _ _ _ _ H). rewrite Et. cbn. nsimp. apply (f_equal Ok). ring. }
    nra.
Qed.

Lemma box1 (a b : R) x : in_box [a] [b] x -> exists u, x = [u] /\ a <= u <= b.
Proof. intros (H1 & H2). inversion H1 as [|? u ? l Hu Hl]; subst. inversion Hl; subst. inversion H2; subst. eauto. Qed.
Lemma box2 (a b c d : R) x : in_box [a; c] [b; d] x -> exists u v, x = [u; v] /\ a <= u <= b /\ c <= v <= d.
Proof.
  intros (H1 & H2). inversion H1 as [|? u ? l Hu Hl]; subst. inversion Hl as [|? v ? l' Hv Hl']; subst. inversion Hl'; subst.
  inversion H2 as [|? ? ? ? Hu2 Hl2]; subst. inversion Hl2; subst. eauto 10.
Qed.
Lemma box3 (a b c d e f : R) x : in_box [a; c; e] [b; d; f] x -> exists u v w, x = [u; v; w] /\ a <= u <= b /\ c <= v <= d /\ e <= w <= f.
Proof.
  intros (H1 & H2). inversion H1 as [|? u ? l Hu Hl]; subst. inversion Hl as [|? v ? l' Hv Hl']; subst. inversion Hl' as [|? w ? l'' Hw Hl'']; subst. inversion Hl''; subst.
  inversion H2 as [|? ? ? ? Hu2 Hl2]; subst. inversion Hl2 as [|? ? ? ? Hv2 Hl3]; subst. inversion Hl3; subst. exists u, v, w. auto 10.
Qed.
Lemma box1_in (a b u : R) : a <= u <= b -> in_box [a] [b] [u].
Proof. intros (H1 & H2). split; repeat (apply Forall2_cons; [assumption|]); apply Forall2_nil. Qed.
Lemma box2_in (a b c d u v : R) : a <= u <= b -> c <= v <= d -> in_box [a; c] [b; d] [u; v].
Proof. intros (H1 & H2) (H3 & H4). split; repeat (apply Forall2_cons; [assumption|]); apply Forall2_nil. Qed.
Lemma box3_in (a b c d e f u v w : R) : a <= u <= b -> c <= v <= d -> e <= w <= f -> in_box [a; c; e] [b; d; f] [u; v; w].
Proof. intros (H1 & H2) (H3 & H4) (H5 & H6). split; repeat (apply Forall2_cons; [assumption|]); apply Forall2_nil. Qed.

(** ** A point and a curve *)
Section CurvePoint.
Variables (dim : nat) (crv : gcurve R) (pnt : pt R).
Definition Dcp (x : list R) (s : R) : Prop := exists u l p, x = u :: l /\ g_value crv u 0 = Ok p /\ s = sqdist dim p pnt.
Lemma cp_single : single (curve_point_f dim crv pnt) Dcp.
Proof.
  intros x r. unfold curve_point_f. split.
  - intros H. destruct x as [|u l]; [discriminate|]. cbn [get nth_error bind] in H. apply bind_inv in H as (p & Ep & H). injection H as <-.
    exists (sqdist dim p pnt). split; [rewrite sqnorm_dist; reflexivity|]. exists u, l, p. auto.
  - intros (s & -> & u & l & p & -> & Ep & ->). cbn [get nth_error bind]. rewrite Ep. cbn [bind]. rewrite sqnorm_dist. reflexivity.
Qed.
Lemma cp_nn x s : Dcp x s -> 0 <= s.
Proof. intros (u & l & p & _ & _ & ->). apply sqdist_nn. Qed.

Lemma curve_point_ok opt u0 tol u d : honest opt -> extrema_curve_point sqrt opt dim crv pnt u0 tol = Ok (u, d) ->
  g_lo crv <= u <= g_hi crv /\ exists p, g_value crv u 0 = Ok p /\ d = sqdist dim p pnt /\
    (global opt -> forall t q, g_lo crv <= t <= g_hi crv -> g_value crv t 0 = Ok q -> sqdist dim p pnt <= sqdist dim q pnt) /\
    (descending opt -> forall q, g_value crv u0 0 = Ok q -> sqdist dim p pnt <= sqdist dim q pnt).
Proof.
  intros Ho H. unfold extrema_curve_point in H. apply bind_inv in H as ((x & m) & Es & H).
  destruct (solve_obj _ _ _ _ _ _ _ _ _ _ cp_single cp_nn Ho Es) as (Hb & s & (u' & l & p & -> & Ep & ->) & Er & _ & Hg & Hd).
  destruct (box1 _ _ _ Hb) as (u'' & E & Hu). injection E as <- ->. cbn [get nth_error bind] in H. injection H as <- <-.
  split; [exact Hu|]. exists p. split; [exact Ep|]. split; [exact Er|]. split.
  - intros G t q Ht Eq. apply (Hg G [t]); [apply box1_in; exact Ht|]. exists t, [], q. auto.
  - intros G q Eq. apply (Hd G). exists u0, [], q. auto.
Qed.
End CurvePoint.

(** ** The smallest of a list *)
Lemma min_fold {A} (key : A -> result R) l : forall a b, foldM (fun b x => let* kx := key x in let* kb := key b in Ok (if nltb kx kb then x else b)) a l = Ok b ->
  In b (a :: l) /\ (l = [] \/ exists kb, key b = Ok kb) /\ forall x kx kb, In x (a :: l) -> key x = Ok kx -> key b = Ok kb -> kb <= kx.
Proof.
  induction l as [|y l IH]; intros a b H; cbn [foldM] in H.
  - injection H as <-. split; [left; reflexivity|]. split; [left; reflexivity|]. intros x kx kb [<- | []] E1 E2. rewrite E1 in E2. injection E2 as <-. lra.
  - apply bind_inv in H as (c & Ec & H). apply bind_inv in Ec as (ky & Ey & Ec). apply bind_inv in Ec as (ka & Ea & Ec). injection Ec as Ec.
    destruct (IH _ _ H) as (Hi & Hk & Hm).
    assert (Hc : exists kc, key c = Ok kc /\ kc <= ka /\ kc <= ky).
    { subst c. nsimp. destruct (Rltb_spec ky ka); [exists ky|exists ka]; (split; [assumption|split; lra]). }
    destruct Hc as (kc & Kc & L1 & L2).
    split; [|split].
    + destruct Hi as [<- | Hi]; [|right; right; exact Hi]. subst c. destruct (Rltb ky ka); [right; left|left]; reflexivity.
    + right. destruct Hk as [-> | Hk]; [|exact Hk]. cbn [foldM] in H. injection H as <-. eauto.
    + intros x kx kb Hx E1 E2. pose proof (Hm c kc kb (or_introl eq_refl) Kc E2) as L3.
      destruct Hx as [<- | [<- | Hx]].
      * rewrite Ea in E1. injection E1 as <-. lra.
      * rewrite Ey in E1. injection E1 as <-. lra.
      * apply (Hm x kx kb); [right; exact Hx| |]; assumption.
Qed.
Lemma min_element_ok {A} (key : A -> result R) l b : (2 <= length l)%nat -> min_element key l = Ok b ->
  In b l /\ exists kb, key b = Ok kb /\ forall x kx, In x l -> key x = Ok kx -> kb <= kx.
Proof.
  destruct l as [|a l]; [discriminate|]. intros L H. destruct (min_fold key l a b H) as (Hi & [-> | (kb & Ek)] & Hm); [cbn in L; lia|].
  split; [exact Hi|]. exists kb. split; [exact Ek|]. eauto.
Qed.
Lemma min_element_returns {A} (key : A -> result R) l : l <> [] -> (forall x, In x l -> exists k, key x = Ok k) -> exists b, min_element key l = Ok b.
Proof.
  destruct l as [|a l]; [congruence|]. intros _. cbn [min_element]. revert a. induction l as [|y l IH]; intros a Hk; cbn [foldM]; [eauto|].
  destruct (Hk y) as (ky & Ey); [right; left; reflexivity|]. destruct (Hk a) as (ka & Ea); [left; reflexivity|]. rewrite Ey, Ea. cbn [bind].
  apply IH. intros x [<- | Hx]; [destruct (nltb ky ka); eauto|]. apply Hk. right. right. exact Hx.
Qed.

Lemma range_members a b n l : make_range a b n = Ok l -> (2 <= n)%nat /\ length l = n /\ forall x, In x l <-> exists i, (i < n)%nat /\ x = spread a b n i.
Proof.
  intros E. assert (Hn : (2 <= n)%nat). { destruct (le_lt_dec 2 n); [assumption|]. rewrite (proj1 (range_spec eps a b n)) in E by assumption. discriminate. }
  split; [exact Hn|]. destruct (range_spread eps a b n Hn) as (l' & E' & L & K). rewrite E in E'. injection E' as <-. split; [exact L|]. intros x. split.
  - intros Hx. apply (In_nth _ _ 0) in Hx as (i & Hi & <-). exists i. split; [lia|]. apply K. lia.
  - intros (i & Hi & ->). rewrite <- (K i Hi). apply nth_In. lia.
Qed.

Lemma curve_point_bracket_ok opt dim (crv : gcurve R) (pnt : pt R) tol n u d : honest opt ->
  extrema_curve_point_bracket sqrt opt dim crv pnt tol n = Ok (u, d) ->
  g_lo crv <= u <= g_hi crv /\ exists p, g_value crv u 0 = Ok p /\ d = sqdist dim p pnt /\
    (global opt -> forall t q, g_lo crv <= t <= g_hi crv -> g_value crv t 0 = Ok q -> sqdist dim p pnt <= sqdist dim q pnt) /\
    (descending opt -> forall i q, (i < n)%nat -> g_value crv (spread (g_lo crv) (g_hi crv) n i) 0 = Ok q -> sqdist dim p pnt <= sqdist dim q pnt).
Proof.
  intros Ho H. unfold extrema_curve_point_bracket in H. apply bind_inv in H as (l & El & H). apply bind_inv in H as (u0 & Eu & H).
  destruct (range_members _ _ _ _ El) as (Hn & Ll & Hl).
  destruct (curve_point_ok _ _ _ _ _ _ _ _ Ho H) as (Hu & p & Ep & Ed & Hg & Hd). split; [exact Hu|]. exists p. do 3 (split; [assumption|]).
  intros D i q Hi Eq. apply min_element_ok in Eu as (_ & k0 & E0 & Hm); [|lia]. apply bind_inv in E0 as (q0 & E0 & Ek). injection Ek as <-.
  assert (Hi' : In (spread (g_lo crv) (g_hi crv) n i) l) by (apply Hl; eauto).
  specialize (Hd D q0 E0). specialize (Hm _ (sqdist dim pnt q) Hi'). rewrite Eq in Hm. cbn [bind] in Hm. rewrite !sqnorm_dist in Hm. specialize (Hm eq_refl).
  rewrite (sqdist_sym dim q pnt). rewrite (sqdist_sym dim pnt q0) in Hm. lra.
Qed.

(** ** A point and a surface *)
Section SurfPoint.
Variables (dim : nat) (srf : @bsurf R) (pnt : pt R).
Definition Dsp (x : list R) (s : R) : Prop := exists u v l p, x = u :: v :: l /\ b_value srf u v 0%nat 0%nat = Ok p /\ s = sqdist dim p pnt.
Lemma sp_single : single (surf_point_f dim srf pnt) Dsp.
Proof.
  intros x r. unfold surf_point_f. split.
  - intros H. destruct x as [|u [|v l]]; [discriminate|discriminate|]. cbn [get nth_error bind] in H. apply bind_inv in H as (p & Ep & H). injection H as <-.
    exists (sqdist dim p pnt). split; [rewrite sqnorm_dist; reflexivity|]. exists u, v, l, p. auto.
  - intros (s & -> & u & v & l & p & -> & Ep & ->). cbn [get nth_error bind]. rewrite Ep. cbn [bind]. rewrite sqnorm_dist. reflexivity.
Qed.
Lemma sp_nn x s : Dsp x s -> 0 <= s.
Proof. intros (u & v & l & p & _ & _ & ->). apply sqdist_nn. Qed.

Lemma surf_point_ok opt u0 v0 tol u v d : honest opt -> extrema_surf_pnt sqrt opt dim srf pnt u0 v0 tol = Ok (u, v, d) ->
  b_u1 srf <= u <= b_u2 srf /\ b_v1 srf <= v <= b_v2 srf /\ exists p, b_value srf u v 0%nat 0%nat = Ok p /\ d = sqdist dim p pnt /\
    (global opt -> forall a b q, b_u1 srf <= a <= b_u2 srf -> b_v1 srf <= b <= b_v2 srf -> b_value srf a b 0%nat 0%nat = Ok q -> sqdist dim p pnt <= sqdist dim q pnt) /\
    (descending opt -> forall q, b_value srf u0 v0 0%nat 0%nat = Ok q -> sqdist dim p pnt <= sqdist dim q pnt).
Proof.
  intros Ho H. unfold extrema_surf_pnt in H. apply bind_inv in H as ((x & m) & Es & H).
  destruct (solve_obj _ _ _ _ _ _ _ _ _ _ sp_single sp_nn Ho Es) as (Hb & s & (u' & v' & l & p & -> & Ep & ->) & Er & _ & Hg & Hd).
  destruct (box2 _ _ _ _ _ Hb) as (u'' & v'' & E & Hu & Hv). injection E as <- <- ->. cbn [get nth_error bind] in H. injection H as <- <- <-.
  split; [exact Hu|]. split; [exact Hv|]. exists p. split; [exact Ep|]. split; [exact Er|]. split.
  - intros G a b q Ha Hb' Eq. apply (Hg G [a; b]); [apply box2_in; assumption|]. exists a, b, [], q. auto.
  - intros G q Eq. apply (Hd G). exists u0, v0, [], q. auto.
Qed.
End SurfPoint.

Lemma gcoord_spread a b n i : (2 <= n)%nat -> gcoord a b n i = spread a b n i.
Proof. intros Hn. unfold gcoord, spread. rewrite minus_INR by lia. reflexivity. Qed.
Lemma range2_members a b c d n m l : make_range2 a b c d n m = Ok l -> (2 <= n)%nat /\ (2 <= m)%nat /\ (2 <= length l)%nat /\
  forall x, In x l <-> exists i j, (i < n)%nat /\ (j < m)%nat /\ x = (spread a b n i, spread c d m j).
Proof.
  intros E. destruct (range2_spec eps a b c d n m) as (H1 & H2).
  assert (Hn : (2 <= n)%nat) by (destruct (le_lt_dec 2 n); [assumption|]; rewrite H1 in E by lia; discriminate).
  assert (Hm : (2 <= m)%nat) by (destruct (le_lt_dec 2 m); [assumption|]; rewrite H1 in E by lia; discriminate).
  destruct (H2 Hn Hm) as (l' & E' & L & K). rewrite E in E'. injection E' as <-. split; [exact Hn|]. split; [exact Hm|]. split; [nia|].
  intros x. split.
  - intros Hx. apply (In_nth _ _ (0, 0)) in Hx as (k & Hk & <-). rewrite L in Hk.
    assert (Hd : (k / m < n)%nat) by (apply Nat.div_lt_upper_bound; lia). pose proof (Nat.mod_upper_bound k m ltac:(lia)) as Hr.
    exists (k / m)%nat, (k mod m)%nat. split; [exact Hd|]. split; [exact Hr|].
    specialize (K _ _ Hd Hr). rewrite !gcoord_spread in K by assumption. rewrite <- K. f_equal. rewrite (Nat.div_mod k m) at 1 by lia. lia.
  - intros (i & j & Hi & Hj & ->). specialize (K i j Hi Hj). rewrite !gcoord_spread in K by assumption. rewrite <- K. apply nth_In. rewrite L. nia.
Qed.
Lemma surf_point_bracket_ok opt dim (srf : @bsurf R) (pnt : pt R) tol nu nv u v d : honest opt ->
  extrema_surf_pnt_bracket sqrt opt dim srf pnt tol nu nv = Ok (u, v, d) ->
  b_u1 srf <= u <= b_u2 srf /\ b_v1 srf <= v <= b_v2 srf /\ exists p, b_value srf u v 0%nat 0%nat = Ok p /\ d = sqdist dim p pnt /\
    (global opt -> forall a b q, b_u1 srf <= a <= b_u2 srf -> b_v1 srf <= b <= b_v2 srf -> b_value srf a b 0%nat 0%nat = Ok q -> sqdist dim p pnt <= sqdist dim q pnt) /\
    (descending opt -> forall i j q, (i < nu)%nat -> (j < nv)%nat ->
       b_value srf (spread (b_u1 srf) (b_u2 srf) nu i) (spread (b_v1 srf) (b_v2 srf) nv j) 0%nat 0%nat = Ok q -> sqdist dim p pnt <= sqdist dim q pnt).
Proof.
  intros Ho H. unfold extrema_surf_pnt_bracket in H. apply bind_inv in H as (l & El & H). apply bind_inv in H as ((u0 & v0) & Eu & H).
  destruct (range2_members _ _ _ _ _ _ _ El) as (Hn & Hm & Ll & Hl).
  destruct (surf_point_ok _ _ _ _ _ _ _ _ _ _ Ho H) as (Hu & Hv & p & Ep & Ed & Hg & Hd). split; [exact Hu|]. split; [exact Hv|]. exists p. do 3 (split; [assumption|]).
  intros D i j q Hi Hj Eq. apply min_element_ok in Eu as (_ & k0 & E0 & Hmin); [|lia]. apply bind_inv in E0 as (q0 & E0 & Ek). injection Ek as <-. cbn [fst snd] in E0.
  assert (Hi' : In (spread (b_u1 srf) (b_u2 srf) nu i, spread (b_v1 srf) (b_v2 srf) nv j) l) by (apply Hl; eauto 10).
  specialize (Hd D q0 E0). specialize (Hmin _ (sqdist dim pnt q) Hi'). cbn [fst snd] in Hmin. rewrite Eq in Hmin. cbn [bind] in Hmin. rewrite !sqnorm_dist in Hmin. specialize (Hmin eq_refl).
  rewrite (sqdist_sym dim q pnt). rewrite (sqdist_sym dim pnt q0) in Hmin. lra.
Qed.

(** ** Two curves *)
Section CurveCurve.
Variables (dim : nat) (crv1 crv2 : gcurve R).
Definition Dcc (x : list R) (s : R) : Prop := exists u v l p q, x = u :: v :: l /\ g_value crv1 u 0 = Ok p /\ g_value crv2 v 0 = Ok q /\ s = sqdist dim p q.
Lemma cc_single : single (curve_curve_f dim crv1 crv2) Dcc.
Proof.
  intros x r. unfold curve_curve_f. split.
  - intros H. destruct x as [|u [|v l]]; [discriminate|discriminate|]. cbn [get nth_error bind] in H. apply bind_inv in H as (p & Ep & H). apply bind_inv in H as (q & Eq & H). injection H as <-.
    exists (sqdist dim p q). split; [rewrite sqnorm_dist; reflexivity|]. exists u, v, l, p, q. auto.
  - intros (s & -> & u & v & l & p & q & -> & Ep & Eq & ->). cbn [get nth_error bind]. rewrite Ep, Eq. cbn [bind]. rewrite sqnorm_dist. reflexivity.
Qed.
Lemma cc_nn x s : Dcc x s -> 0 <= s.
Proof. intros (u & v & l & p & q & _ & _ & _ & ->). apply sqdist_nn. Qed.

Lemma curve_curve_ok opt u0 v0 tol u v d : honest opt -> extrema_curve_curve sqrt opt dim crv1 crv2 u0 v0 tol = Ok (u, v, d) ->
  g_lo crv1 <= u <= g_hi crv1 /\ g_lo crv2 <= v <= g_hi crv2 /\ exists p q, g_value crv1 u 0 = Ok p /\ g_value crv2 v 0 = Ok q /\ d = sqdist dim p q /\
    (global opt -> forall a b p' q', g_lo crv1 <= a <= g_hi crv1 -> g_lo crv2 <= b <= g_hi crv2 -> g_value crv1 a 0 = Ok p' -> g_value crv2 b 0 = Ok q' ->
       sqdist dim p q <= sqdist dim p' q') /\
    (descending opt -> forall p' q', g_value crv1 u0 0 = Ok p' -> g_value crv2 v0 0 = Ok q' -> sqdist dim p q <= sqdist dim p' q').
Proof.
  intros Ho H. unfold extrema_curve_curve in H. apply bind_inv in H as ((x & m) & Es & H).
  destruct (solve_obj _ _ _ _ _ _ _ _ _ _ cc_single cc_nn Ho Es) as (Hb & s & (u' & v' & l & p & q & -> & Ep & Eq & ->) & Er & _ & Hg & Hd).
  destruct (box2 _ _ _ _ _ Hb) as (u'' & v'' & E & Hu & Hv). injection E as <- <- ->. cbn [get nth_error bind] in H. injection H as <- <- <-.
  split; [exact Hu|]. split; [exact Hv|]. exists p, q. split; [exact Ep|]. split; [exact Eq|]. split; [exact Er|]. split.
  - intros G a b p' q' Ha Hb' E1 E2. apply (Hg G [a; b]); [apply box2_in; assumption|]. exists a, b, [], p', q'. auto.
  - intros G p' q' E1 E2. apply (Hd G). exists u0, v0, [], p', q'. auto.
Qed.

Definition K (uv : R * R) : result R := let* p := g_value crv1 (fst uv) 0 in let* q := g_value crv2 (snd uv) 0 in Ok (sqdist dim p q).
Definition scan1 (u : R) (st : option R * (R * R)) (s2 : list R) := foldM (fun (st : option R * (R * R)) v =>
      let* p := g_value crv1 u 0 in
      let* q := g_value crv2 v 0 in
      let d := sq_norm dim (psub p q) in
      Ok (if match fst st with None => true | Some m => nltb d m end then (Some d, (u, v)) else st)) st s2.
Definition sane (st : option R * (R * R)) : Prop := forall m, fst st = Some m -> K (snd st) = Ok m.
Definition below (st : option R * (R * R)) (x : R) : Prop := exists m, fst st = Some m /\ m <= x.
Lemma scan1_ok u s2 : forall st st', scan1 u st s2 = Ok st' -> sane st -> sane st' /\ (forall x, below st x -> below st' x) /\
  forall v, In v s2 -> exists k, K (u, v) = Ok k /\ below st' k.
Proof.
  unfold scan1. induction s2 as [|v s2 IH]; intros st st' H Hs; cbn [foldM] in H.
  - injection H as <-. split; [exact Hs|]. split; [auto|]. intros v [].
  - apply bind_inv in H as (st1 & E1 & H). apply bind_inv in E1 as (p & Ep & E1). apply bind_inv in E1 as (q & Eq & E1). injection E1 as E1. rewrite sqnorm_dist in E1.
    assert (Ek : K (u, v) = Ok (sqdist dim p q)) by (unfold K; cbn [fst snd]; rewrite Ep, Eq; reflexivity).
    assert (S1 : sane st1 /\ (forall x, below st x -> below st1 x) /\ below st1 (sqdist dim p q)).
    { subst st1. unfold sane, below. destruct st as (o & uv). cbn [fst snd] in *. destruct o as [m|].
      - nsimp. destruct (Rltb_spec (sqdist dim p q) m); cbn [fst snd].
        + split; [intros m' Em; injection Em as <-; exact Ek|]. split; [|eexists; split; [reflexivity|lra]].
          intros x (m' & Em & L). injection Em as <-. eexists. split; [reflexivity|lra].
        + split; [exact Hs|]. split; [auto|]. eexists. split; [reflexivity|lra].
      - cbn [fst snd]. split; [intros m' Em; injection Em as <-; exact Ek|]. split; [|eexists; split; [reflexivity|lra]]. intros x (m' & Em & _). discriminate. }
    destruct S1 as (S1 & B1 & C1). destruct (IH _ _ H S1) as (S2 & B2 & C2). split; [exact S2|]. split; [auto|]. intros v' [<- | Hv]; [eauto|auto].
Qed.
Lemma scan2_ok s2 s1 : forall st st', foldM (fun st u => scan1 u st s2) st s1 = Ok st' -> sane st -> sane st' /\ (forall x, below st x -> below st' x) /\
  forall u v, In u s1 -> In v s2 -> exists k, K (u, v) = Ok k /\ below st' k.
Proof.
  induction s1 as [|u s1 IH]; intros st st' H Hs; cbn [foldM] in H.
  - injection H as <-. split; [exact Hs|]. split; [auto|]. intros u v [].
  - apply bind_inv in H as (st1 & E1 & H). destruct (scan1_ok _ _ _ _ E1 Hs) as (S1 & B1 & C1). destruct (IH _ _ H S1) as (S2 & B2 & C2).
    split; [exact S2|]. split; [auto|]. intros u' v [<- | Hu] Hv; [|auto]. destruct (C1 v Hv) as (k & Ek & Bk). eauto.
Qed.

Lemma curve_curve_bracket_ok opt tol nu nv u v d : honest opt -> extrema_curve_curve_bracket sqrt opt dim crv1 crv2 tol nu nv = Ok (u, v, d) ->
  g_lo crv1 <= u <= g_hi crv1 /\ g_lo crv2 <= v <= g_hi crv2 /\ exists p q, g_value crv1 u 0 = Ok p /\ g_value crv2 v 0 = Ok q /\ d = sqdist dim p q /\
    (global opt -> forall a b p' q', g_lo crv1 <= a <= g_hi crv1 -> g_lo crv2 <= b <= g_hi crv2 -> g_value crv1 a 0 = Ok p' -> g_value crv2 b 0 = Ok q' ->
       sqdist dim p q <= sqdist dim p' q') /\
    (descending opt -> forall i j p' q', (i < nu)%nat -> (j < nv)%nat -> g_value crv1 (spread (g_lo crv1) (g_hi crv1) nu i) 0 = Ok p' ->
       g_value crv2 (spread (g_lo crv2) (g_hi crv2) nv j) 0 = Ok q' -> sqdist dim p q <= sqdist dim p' q').
Proof.
  intros Ho H. unfold extrema_curve_curve_bracket in H. apply bind_inv in H as (s1 & E1 & H). apply bind_inv in H as (s2 & E2 & H). apply bind_inv in H as (st & Es & H).
  destruct st as (o & best). destruct (range_members _ _ _ _ E1) as (_ & _ & H1). destruct (range_members _ _ _ _ E2) as (_ & _ & H2).
  destruct (curve_curve_ok _ _ _ _ _ _ _ Ho H) as (Hu & Hv & p & q & Ep & Eq & Ed & Hg & Hd). do 2 (split; [assumption|]). exists p, q. do 4 (split; [assumption|]).
  intros D i j p' q' Hi Hj Ep' Eq'.
  destruct (scan2_ok s2 s1 _ _ Es) as (Sa & _ & C); [intros m Em; discriminate|].
  destruct (C (spread (g_lo crv1) (g_hi crv1) nu i) (spread (g_lo crv2) (g_hi crv2) nv j)) as (k & Ek & m & Em & Lm); [apply H1; eauto|apply H2; eauto|].
  unfold K in Ek. cbn [fst snd] in Ek. rewrite Ep', Eq' in Ek. cbn [bind] in Ek. injection Ek as <-.
  specialize (Sa m Em). unfold K in Sa. cbn [fst snd] in Sa. apply bind_inv in Sa as (p0 & Ep0 & Sa). apply bind_inv in Sa as (q0 & Eq0 & Sa). injection Sa as <-.
  specialize (Hd D _ _ Ep0 Eq0). lra.
Qed.
End CurveCurve.

(** ** A surface and a curve *)
Section SurfCurve.
Variables (dim : nat) (srf : @bsurf R) (crv : gcurve R).
Definition Dsc (x : list R) (s : R) : Prop := exists w u v l p q, x = w :: u :: v :: l /\ g_value crv w 0 = Ok p /\ b_value srf u v 0%nat 0%nat = Ok q /\ s = sqdist dim p q.
Lemma sc_single : single (surf_curve_f dim srf crv) Dsc.
Proof.
  intros x r. unfold surf_curve_f. split.
  - intros H. destruct x as [|w [|u [|v l]]]; try discriminate. cbn [get nth_error bind] in H. apply bind_inv in H as (p & Ep & H). apply bind_inv in H as (q & Eq & H). injection H as <-.
    exists (sqdist dim p q). split; [rewrite sqnorm_dist; reflexivity|]. exists w, u, v, l, p, q. auto.
  - intros (s & -> & w & u & v & l & p & q & -> & Ep & Eq & ->). cbn [get nth_error bind]. rewrite Ep, Eq. cbn [bind]. rewrite sqnorm_dist. reflexivity.
Qed.
Lemma sc_nn x s : Dsc x s -> 0 <= s.
Proof. intros (w & u & v & l & p & q & _ & _ & _ & ->). apply sqdist_nn. Qed.
Lemma surf_curve_ok opt w0 u0 v0 tol u v w d : honest opt -> extrema_surf_curve sqrt opt dim srf crv w0 u0 v0 tol = Ok (u, v, w, d) ->
  b_u1 srf <= u <= b_u2 srf /\ b_v1 srf <= v <= b_v2 srf /\ g_lo crv <= w <= g_hi crv /\
  exists p q, g_value crv w 0 = Ok p /\ b_value srf u v 0%nat 0%nat = Ok q /\ d = sqdist dim p q /\
    (global opt -> forall a b c p' q', b_u1 srf <= a <= b_u2 srf -> b_v1 srf <= b <= b_v2 srf -> g_lo crv <= c <= g_hi crv ->
       g_value crv c 0 = Ok p' -> b_value srf a b 0%nat 0%nat = Ok q' -> sqdist dim p q <= sqdist dim p' q') /\
    (descending opt -> forall p' q', g_value crv w0 0 = Ok p' -> b_value srf u0 v0 0%nat 0%nat = Ok q' -> sqdist dim p q <= sqdist dim p' q').
Proof.
  intros Ho H. unfold extrema_surf_curve in H. apply bind_inv in H as ((x & m) & Es & H).
  destruct (solve_obj _ _ _ _ _ _ _ _ _ _ sc_single sc_nn Ho Es) as (Hb & s & (w' & u' & v' & l & p & q & -> & Ep & Eq & ->) & Er & _ & Hg & Hd).
  destruct (box3 _ _ _ _ _ _ _ Hb) as (w'' & u'' & v'' & E & Hw & Hu & Hv). injection E as <- <- <- ->. cbn [get nth_error bind] in H. injection H as <- <- <- <-.
  do 3 (split; [assumption|]). exists p, q. do 3 (split; [assumption|]). split.
  - intros G a b c p' q' Ha Hb' Hc E1 E2. apply (Hg G [c; a; b]); [apply box3_in; assumption|]. exists c, a, b, [], p', q'. auto.
  - intros G p' q' E1 E2. apply (Hd G). exists w0, u0, v0, [], p', q'. auto.
Qed.
End SurfCurve.

(** The bracketed start has its parameters in the wrong places. *)
Lemma swapped opt dim (srf : @bsurf R) (crv : gcurve R) tol nu nv nw r : strict opt -> b_u1 srf < b_u2 srf -> b_u2 srf < g_lo crv ->
  extrema_surf_curve_bracket sqrt opt dim srf crv tol nu nv nw <> Ok r.
Proof.
  intros Hs Hu Hc H. unfold extrema_surf_curve_bracket in H. apply bind_inv in H as (l & El & H). apply bind_inv in H as (((a & b) & c) & Ea & H). cbn [fst snd] in H.
  destruct (range3_spec eps (b_u1 srf) (b_u2 srf) (b_v1 srf) (b_v2 srf) (g_lo crv) (g_hi crv) nu nv nw) as (R1 & R2).
  destruct (le_lt_dec 2 nu) as [Hnu|]; [|rewrite R1 in El by lia; discriminate]. destruct (le_lt_dec 2 nv) as [Hnv|]; [|rewrite R1 in El by lia; discriminate].
  destruct (le_lt_dec 2 nw) as [Hnw|]; [|rewrite R1 in El by lia; discriminate]. destruct (R2 Hnu Hnv Hnw) as (l' & E' & L & K). rewrite El in E'. injection E' as <-.
  apply min_element_ok in Ea as (Hin & _); [|rewrite L; nia]. apply (In_nth _ _ (0, 0, 0)) in Hin as (k & Hk & Ek). rewrite L in Hk.
  assert (Hr : (k mod nw < nw)%nat) by (apply Nat.mod_upper_bound; lia). assert (Hq : (k / nw < nu * nv)%nat) by (apply Nat.div_lt_upper_bound; nia).
  assert (Hr2 : (k / nw mod nv < nv)%nat) by (apply Nat.mod_upper_bound; lia). assert (Hq2 : (k / nw / nv < nu)%nat) by (apply Nat.div_lt_upper_bound; nia).
  specialize (K _ _ _ Hq2 Hr2 Hr). replace (k mod nw + nw * (k / nw mod nv + nv * (k / nw / nv)))%nat with k in K.
  2:{ rewrite (Nat.div_mod k nw) at 1 by lia. rewrite (Nat.div_mod (k / nw) nv) at 1 by lia. lia. }
  rewrite Ek in K. injection K as Ka _ _. rewrite gcoord_spread in Ka by assumption.
  pose proof (spread_in (b_u1 srf) (b_u2 srf) nu _ Hnu Hu Hq2) as Hi. rewrite <- Ka in Hi.
  unfold extrema_surf_curve, solve_D in H. rewrite Hs in H; [discriminate|]. intros Hb. destruct (box3 _ _ _ _ _ _ _ Hb) as (x & y & z & E & Hx & _). injection E as <- _ _. lra.
Qed.
End AtR.
