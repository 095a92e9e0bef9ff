(** Gradients, lines, coordinates, curvature and the rolling ball of C88. *)
From Coq Require Import List Arith ZArith Reals Lia Lra Bool.
From Verif Require Import Model_Base Model_Knots Model_Math Model_Vec Model_Wrap Model_Analysis Model_Extrema
  Spec_Base Spec_Basis Spec_Build Spec_Motion Spec_Analysis Spec_Offset Spec_Extrema
  Proof_Base Proof_Build Proof_Builders Proof_Builders2 Proof_Analysis2 Proof_Analysis4 Proof_Offset Proof_Extrema.
Import ListNotations.
Local Open Scope R_scope.

Section AtR.
Variable eps : R.
Local Hint Extern 0 (Num R) => exact (NumR eps) : typeclass_instances.

(** ** Gradients *)
Lemma dot_scal2 dim (c : R) (a b : pt R) : dot dim (pscal c a) b = c * dot dim b a.
Proof. induction dim as [|m IH]; cbn [dot]; nsimp; [ring|]. rewrite IH. unfold pscal. nsimp. ring. Qed.
Lemma dist_slope dim (C : R -> pt R) (D q : pt R) x : (forall i, (i < dim)%nat -> derivable_pt_lim (fun t => C t i) x (D i)) ->
  derivable_pt_lim (fun t => sqdist dim (C t) q ^ 2 + 0) x (2 * sqdist dim (C x) q * dot dim (pscal 2 D) (psub (C x) q)).
Proof.
  intros H. assert (H1 : derivable_pt_lim (fun t => sqdist dim (C t) q) x (2 * dot dim (psub (C x) q) D)).
  { apply (sqlen_derivable eps dim (fun t i => C t i - q i)). intros i Hi. apply (dlim_eq x _ (D i - 0)); [|ring].
    apply (derivable_pt_lim_minus (fun t => C t i) (fun _ => q i)); [apply H; exact Hi|apply derivable_pt_lim_const]. }
  rewrite dot_scal2. apply (dlim_eq x _ (INR 2 * sqdist dim (C x) q ^ Nat.pred 2 * (2 * dot dim (psub (C x) q) D) + 0)); [|cbn; ring].
  apply (derivable_pt_lim_plus (fun t => sqdist dim (C t) q ^ 2) (fun _ => 0)); [|apply derivable_pt_lim_const].
  apply (derivable_pt_lim_comp (fun t => sqdist dim (C t) q) (fun s => s ^ 2)); [exact H1|apply derivable_pt_lim_pow].
Qed.
Lemma near (a b x : R) : a < x < b -> exists delta, 0 < delta /\ forall t, Rabs (t - x) < delta -> a < t < b.
Proof.
  intros (H1 & H2). exists (Rmin (x - a) (b - x)). split; [apply Rmin_pos; lra|]. intros t Ht.
  pose proof (Rmin_l (x - a) (b - x)). pose proof (Rmin_r (x - a) (b - x)). apply Rabs_def2 in Ht. lra.
Qed.
Lemma two_R : two = 2.
Proof. unfold two. nsimp. lra. Qed.

Lemma curve_point_gradient dim (crv : gcurve R) (pnt : pt R) C a b u : smooth_curve dim (g_value crv) C 1 a b -> a < u < b ->
  exists r d, curve_point_f dim crv pnt [u] = Ok r /\ curve_point_g dim crv pnt [u] r = Ok [d] /\ slope (curve_point_f dim crv pnt) [u] 0 d.
Proof.
  intros Hs Hu. destruct (Hs u 0%nat Hu ltac:(lia)) as (E0 & D0). destruct (Hs u 1%nat Hu ltac:(lia)) as (E1 & _). specialize (D0 ltac:(lia)).
  unfold curve_point_f at 1, curve_point_g. cbn [get nth_error bind]. rewrite E0. cbn [bind]. eexists _, _. split; [reflexivity|]. cbn [get nth_error bind]. rewrite E1. cbn [bind]. split; [reflexivity|].
  exists (fun t => sqdist dim (C 0%nat t) pnt ^ 2 + 0). split.
  - destruct (near a b u Hu) as (delta & Hd & Hn). exists delta. split; [exact Hd|]. intros t Ht. cbn [nth] in Ht. destruct (Hs t 0%nat (Hn t Ht) ltac:(lia)) as (Et & _).
    exists [sqdist dim (C 0%nat t) pnt]. cbn [firstn skipn app fold_right]. split; [|reflexivity]. unfold curve_point_f. cbn [get nth_error bind]. rewrite Et. cbn [bind].
    rewrite (sqnorm_dist eps). reflexivity.
  - cbn [nth]. rewrite (sqnorm_dist eps), two_R. nsimp. apply dist_slope. exact D0.
Qed.
Lemma surf_point_gradient dim (srf : @bsurf R) (pnt : pt R) C D a b a' b' u v :
  smooth_curve dim (fun t d => b_value srf t v d 0%nat) C 1 a b -> smooth_curve dim (fun t d => b_value srf u t 0%nat d) D 1 a' b' -> a < u < b -> a' < v < b' ->
  exists r d e, surf_point_f dim srf pnt [u; v] = Ok r /\ surf_point_g dim srf pnt [u; v] r = Ok [d; e] /\
    slope (surf_point_f dim srf pnt) [u; v] 0 d /\ slope (surf_point_f dim srf pnt) [u; v] 1 e.
Proof.
  intros Hs Hs' Hu Hv. destruct (Hs u 0%nat Hu ltac:(lia)) as (E0 & D0). destruct (Hs u 1%nat Hu ltac:(lia)) as (E1 & _). specialize (D0 ltac:(lia)).
  destruct (Hs' v 0%nat Hv ltac:(lia)) as (E0' & D0'). destruct (Hs' v 1%nat Hv ltac:(lia)) as (E1' & _). specialize (D0' ltac:(lia)).
  unfold surf_point_f at 1, surf_point_g. cbn [get nth_error bind]. rewrite E0, E1, E1'. cbn [bind]. eexists _, _, _. split; [reflexivity|]. cbn [get nth_error bind]. split; [reflexivity|].
  assert (Eq : C 0%nat u = D 0%nat v) by congruence. split.
  - exists (fun t => sqdist dim (C 0%nat t) pnt ^ 2 + 0). split.
    + destruct (near a b u Hu) as (delta & Hd & Hn). exists delta. split; [exact Hd|]. intros t Ht. cbn [nth] in Ht. destruct (Hs t 0%nat (Hn t Ht) ltac:(lia)) as (Et & _).
      exists [sqdist dim (C 0%nat t) pnt]. cbn [firstn skipn app fold_right]. split; [|reflexivity]. unfold surf_point_f. cbn [get nth_error bind]. rewrite Et. cbn [bind].
      rewrite (sqnorm_dist eps). reflexivity.
    + cbn [nth]. rewrite (sqnorm_dist eps), two_R. nsimp. apply dist_slope. exact D0.
  - exists (fun t => sqdist dim (D 0%nat t) pnt ^ 2 + 0). split.
    + destruct (near a' b' v Hv) as (delta & Hd & Hn). exists delta. split; [exact Hd|]. intros t Ht. cbn [nth] in Ht. destruct (Hs' t 0%nat (Hn t Ht) ltac:(lia)) as (Et & _).
      exists [sqdist dim (D 0%nat t) pnt]. cbn [firstn skipn app fold_right]. split; [|reflexivity]. unfold surf_point_f. cbn [get nth_error bind]. rewrite Et. cbn [bind].
      rewrite (sqnorm_dist eps). reflexivity.
    + cbn [nth]. rewrite Eq, (sqnorm_dist eps), two_R. nsimp. apply dist_slope. exact D0'.
Qed.
Lemma curve_curve_gradient dim (crv1 crv2 : gcurve R) C D a b a' b' u v :
  smooth_curve dim (g_value crv1) C 1 a b -> smooth_curve dim (g_value crv2) D 1 a' b' -> a < u < b -> a' < v < b' ->
  exists r d e, curve_curve_f dim crv1 crv2 [u; v] = Ok r /\ curve_curve_g dim crv1 crv2 [u; v] r = Ok [d; e] /\
    slope (curve_curve_f dim crv1 crv2) [u; v] 0 d /\ slope (curve_curve_f dim crv1 crv2) [u; v] 1 (- e).
Proof.
  intros Hs Hs' Hu Hv. destruct (Hs u 0%nat Hu ltac:(lia)) as (E0 & D0). destruct (Hs u 1%nat Hu ltac:(lia)) as (E1 & _). specialize (D0 ltac:(lia)).
  destruct (Hs' v 0%nat Hv ltac:(lia)) as (E0' & D0'). destruct (Hs' v 1%nat Hv ltac:(lia)) as (E1' & _). specialize (D0' ltac:(lia)).
  unfold curve_curve_f at 1, curve_curve_g. cbn [get nth_error bind]. rewrite E0, E1, E0', E1'. cbn [bind]. eexists _, _, _. split; [reflexivity|]. cbn [get nth_error bind]. split; [reflexivity|].
  split.
  - exists (fun t => sqdist dim (C 0%nat t) (D 0%nat v) ^ 2 + 0). split.
    + destruct (near a b u Hu) as (delta & Hd & Hn). exists delta. split; [exact Hd|]. intros t Ht. cbn [nth] in Ht. destruct (Hs t 0%nat (Hn t Ht) ltac:(lia)) as (Et & _).
      exists [sqdist dim (C 0%nat t) (D 0%nat v)]. cbn [firstn skipn app fold_right]. split; [|reflexivity]. unfold curve_curve_f. cbn [get nth_error bind]. rewrite Et, E0'. cbn [bind].
      rewrite (sqnorm_dist eps). reflexivity.
    + cbn [nth]. rewrite (sqnorm_dist eps), two_R. nsimp. apply dist_slope. exact D0.
  - exists (fun t => sqdist dim (D 0%nat t) (C 0%nat u) ^ 2 + 0). split.
    + destruct (near a' b' v Hv) as (delta & Hd & Hn). exists delta. split; [exact Hd|]. intros t Ht. cbn [nth] in Ht. destruct (Hs' t 0%nat (Hn t Ht) ltac:(lia)) as (Et & _).
      exists [sqdist dim (C 0%nat u) (D 0%nat t)]. cbn [firstn skipn app fold_right]. split; [|rewrite (sqdist_sym dim (D 0%nat t)); reflexivity]. unfold curve_curve_f. cbn [get nth_error bind]. rewrite Et, E0. cbn [bind].
      rewrite (sqnorm_dist eps). reflexivity.
    + cbn [nth]. rewrite (sqnorm_dist eps), two_R. nsimp. apply (dlim_eq v _ (2 * sqdist dim (D 0%nat v) (C 0%nat u) * dot dim (pscal 2 (D 1%nat v)) (psub (D 0%nat v) (C 0%nat u)))); [apply dist_slope; exact D0'|].
      rewrite (sqdist_sym dim (D 0%nat v)). rewrite !dot_scal2.
      assert (Ed : dot dim (psub (D 0%nat v) (C 0%nat u)) (D 1%nat v) = - dot dim (psub (C 0%nat u) (D 0%nat v)) (D 1%nat v)).
      { clear. induction dim as [|m IH]; cbn [dot]; nsimp; [ring|]. rewrite IH. unfold psub. nsimp. ring. }
      rewrite Ed. ring.
Qed.
Lemma surf_curve_gradient_wrong : exists r d e f, surf_curve_f 3 flat above [0; 1; 1 / 2] = Ok r /\ surf_curve_g 3 flat above [0; 1; 1 / 2] r = Ok [d; e; f] /\
  ~ slope (surf_curve_f 3 flat above) [0; 1; 1 / 2] 1 e.
Proof.
  eexists _, _, _, _. split; [reflexivity|]. split; [reflexivity|]. rewrite (sqnorm_dist eps), two_R. intros (F & (delta & Hd & Ho) & HF).
  cbn [nth] in Ho, HF.
  assert (H1 : derivable_pt_lim (fun t => sqdist 3 (point3 t (1 / 2) 0) (point3 0 0 1) ^ 2 + 0) 1
     (2 * sqdist 3 (point3 1 (1 / 2) 0) (point3 0 0 1) * dot 3 (pscal 2 (point3 1 0 0)) (psub (point3 1 (1 / 2) 0) (point3 0 0 1)))).
  { apply (dist_slope 3 (fun t => point3 t (1 / 2) 0) (point3 1 0 0) (point3 0 0 1) 1). intros i Hi. destruct i as [|[|[|i]]]; [| | |lia]; cbn; [apply derivable_pt_lim_id|apply derivable_pt_lim_const|apply derivable_pt_lim_const]. }
  assert (H2 : derivable_pt_lim F 1 (2 * sqdist 3 (point3 1 (1 / 2) 0) (point3 0 0 1) * dot 3 (pscal 2 (point3 1 0 0)) (psub (point3 1 (1 / 2) 0) (point3 0 0 1)))).
  { intros e He. destruct (H1 e He) as (d1 & Hd1). assert (Hp : 0 < Rmin delta d1) by (apply Rmin_pos; [exact Hd|apply cond_pos]).
    assert (EF : forall t, Rabs (t - 1) < delta -> F t = sqdist 3 (point3 t (1 / 2) 0) (point3 0 0 1) ^ 2 + 0).
    { intros t Ht. destruct (Ho t Ht) as (r & Er & ->). unfold surf_curve_f in Er. cbn [firstn skipn app get nth_error bind above flat g_value b_value] in Er. injection Er as <-.
      rewrite (sqnorm_dist eps), (sqdist_sym 3). reflexivity. }
    exists (mkposreal _ Hp). intros h Hh Hb. cbn [pos] in Hb. rewrite EF, EF.
    - apply Hd1; [exact Hh|]. eapply Rlt_le_trans; [exact Hb|apply Rmin_r].
    - replace (1 - 1) with 0 by ring. rewrite Rabs_R0. exact Hd.
    - replace (1 + h - 1) with h by ring. eapply Rlt_le_trans; [exact Hb|apply Rmin_l]. }
  pose proof (uniqueness_limite _ _ _ _ HF H2) as E. revert E. unfold sqdist, pscal, psub. cbn [sqlen dot]. nsimp. cbn [point3]. lra.
Qed.

(** ** Lines *)
Lemma line_line_ok (P1 N1 P2 N2 : pt R) : N1 0%nat * N2 1%nat - N1 1%nat * N2 0%nat <> 0 ->
  exists a b, extrema_line_line (P1, N1) (P2, N2) = Ok (a, b) /\
    (forall i, (i < 2)%nat -> P1 i + a * N1 i = P2 i + b * N2 i) /\
    forall a' b', (forall i, (i < 2)%nat -> P1 i + a' * N1 i = P2 i + b' * N2 i) -> a' = a /\ b' = b.
Proof.
  intros H. unfold extrema_line_line, det, psub. nsimp. rewrite !(divc_ok eps) by lra. cbn [bind]. eexists _, _. split; [reflexivity|]. split.
  - intros i Hi. destruct i as [|[|i]]; [| |lia]; field; lra.
  - intros a' b' E. pose proof (E 0%nat ltac:(lia)) as E0. pose proof (E 1%nat ltac:(lia)) as E1.
    split; apply (Rmult_eq_reg_r (N1 0%nat * - N2 1%nat - - N2 0%nat * N1 1%nat)); try lra; unfold Rdiv; rewrite Rmult_assoc, Rinv_l by lra; nra.
Qed.
Lemma line_line_parallel (P1 N1 P2 N2 : pt R) : N1 0%nat * N2 1%nat - N1 1%nat * N2 0%nat = 0 -> extrema_line_line (P1, N1) (P2, N2) = Undef DivByZero.
Proof.
  intros H. unfold extrema_line_line, det, psub. nsimp. replace (N1 0%nat * - N2 1%nat - - N2 0%nat * N1 1%nat) with 0 by lra. rewrite (divc_zero eps). reflexivity.
Qed.

(** ** Coordinates *)
Lemma coordinate_ok newton dim (crv : gcurve R) i Xi u0 u : finds_root newton -> solve_coordinate newton dim crv i Xi u0 = Ok u ->
  (i < dim)%nat /\ g_lo crv <= u <= g_hi crv /\ exists p, g_value crv u 0 = Ok p /\ p i = Xi.
Proof.
  intros Hn H. unfold solve_coordinate in H. destruct (Nat.leb_spec dim i); [discriminate|]. split; [assumption|].
  rewrite two_R, (divc_ok eps) in H by lra. cbn [bind] in H. apply Hn in H as (Hu & d & e & E). split; [exact Hu|].
  apply bind_inv in E as (p & Ep & E). apply bind_inv in E as (d1 & _ & E). apply bind_inv in E as (d2 & _ & E). injection E as E _ _. nsimp. exists p. split; [exact Ep|]. lra.
Qed.
Lemma coordinate_range dim (crv : gcurve R) i Xi u0 newton brent : (dim <= i)%nat -> solve_coordinate newton dim crv i Xi u0 = Throw OutOfRangeError /\
  max_coordinate brent dim crv i = Throw OutOfRangeError /\ min_coordinate brent dim crv i = Throw OutOfRangeError.
Proof. intros H. unfold solve_coordinate, max_coordinate, min_coordinate. apply Nat.leb_le in H. rewrite H. auto. Qed.
Lemma min_ok brent dim (crv : gcurve R) i u m : best_scalar brent -> min_coordinate brent dim crv i = Ok (u, m) ->
  (forall t p, g_lo crv <= t <= g_hi crv -> g_value crv t 0 = Ok p -> 0 <= p i) ->
  g_lo crv <= u <= g_hi crv /\ exists p, g_value crv u 0 = Ok p /\ m = p i ^ 2 /\ forall t q, g_lo crv <= t <= g_hi crv -> g_value crv t 0 = Ok q -> p i <= q i.
Proof.
  intros Hb H Hp. unfold min_coordinate in H. destruct (Nat.leb_spec dim i); [discriminate|]. apply Hb in H as (Eu & Hu & Hm). assert (Nn : forall t v, (let* p := g_value crv t 0 in let x := p i in Ok (nmul x x)) = Ok v -> 0 <= v) by (intros t0 v0 Ev; apply bind_inv in Ev as (p0 & _ & Ev); injection Ev as <-; nsimp; nra). specialize (Hm Nn). clear Nn. split; [exact Hu|].
  apply bind_inv in Eu as (p & Ep & Em). injection Em as Em. nsimp. exists p. split; [exact Ep|]. split; [rewrite <- Em; ring|].
  intros t q Ht Eq. pose proof (Hp _ _ Hu Ep). pose proof (Hp _ _ Ht Eq). specialize (Hm t (q i * q i) Ht). rewrite Eq in Hm. specialize (Hm eq_refl). nra.
Qed.
Lemma inv_nn x v : (let* a := divc n1 x in divc a x) = Ok v -> 0 <= v.
Proof.
  intros H. destruct (Req_dec x 0) as [->|Hz]; [rewrite (divc_zero eps) in H; discriminate|]. rewrite (divc_ok eps) in H by exact Hz. cbn [bind] in H. rewrite (divc_ok eps) in H by exact Hz. injection H as <-. nsimp.
  replace (1 / x / x) with ((/ x) ^ 2) by (field; exact Hz). apply pow2_ge_0.
Qed.
Lemma max_ok brent dim (crv : gcurve R) i u m : best_scalar brent -> max_coordinate brent dim crv i = Ok (u, m) ->
  (forall t p, g_lo crv <= t <= g_hi crv -> g_value crv t 0 = Ok p -> 0 < p i) ->
  g_lo crv <= u <= g_hi crv /\ exists p, g_value crv u 0 = Ok p /\ m = / p i ^ 2 /\ forall t q, g_lo crv <= t <= g_hi crv -> g_value crv t 0 = Ok q -> q i <= p i.
Proof.
  intros Hb H Hp. unfold max_coordinate in H. destruct (Nat.leb_spec dim i); [discriminate|]. apply Hb in H as (Eu & Hu & Hm). assert (Nn : forall t v, (let* p := g_value crv t 0 in let x := p i in let* a := divc n1 x in divc a x) = Ok v -> 0 <= v) by (intros t0 v0 Ev; apply bind_inv in Ev as (p0 & _ & Ev); exact (inv_nn _ _ Ev)). specialize (Hm Nn). clear Nn. split; [exact Hu|].
  apply bind_inv in Eu as (p & Ep & Em). pose proof (Hp _ _ Hu Ep) as P1. rewrite (divc_ok eps) in Em by lra. cbn [bind] in Em. rewrite (divc_ok eps) in Em by lra. injection Em as Em. nsimp.
  exists p. split; [exact Ep|]. split; [rewrite <- Em; field; lra|].
  intros t q Ht Eq. pose proof (Hp _ _ Ht Eq) as P2. specialize (Hm t (1 / q i / q i) Ht). rewrite Eq in Hm. cbn [bind] in Hm. rewrite (divc_ok eps) in Hm by lra. cbn [bind] in Hm.
  rewrite (divc_ok eps) in Hm by lra. nsimp. specialize (Hm eq_refl). rewrite <- Em in Hm.
  destruct (Rle_lt_dec (q i) (p i)) as [L|L]; [exact L|exfalso].
  assert (1 / q i / q i < 1 / p i / p i); [|lra].
  replace (1 / q i / q i) with (/ (q i * q i)) by (field; lra). replace (1 / p i / p i) with (/ (p i * p i)) by (field; lra). apply Rinv_lt_contravar; [repeat apply Rmult_lt_0_compat; assumption|clear - P1 P2 L; nra].
Qed.
(** On a line from -2 to 1 the smallest coordinate is said to be 0. *)
Lemma min_wrong brent u m : best_scalar brent -> min_coordinate brent 1 slide 0 = Ok (u, m) -> u = 0.
Proof.
  intros Hb H. unfold min_coordinate in H. cbn [Nat.leb] in H. apply Hb in H as (Eu & Hu & Hm). assert (Nn : forall t v, (let* p := g_value slide t 0 in let x := p 0%nat in Ok (nmul x x)) = Ok v -> 0 <= v) by (intros t0 v0 Ev; apply bind_inv in Ev as (p0 & _ & Ev); injection Ev as <-; nsimp; nra). specialize (Hm Nn). clear Nn. cbn [slide g_value bind] in Eu, Hm. injection Eu as Eu. nsimp.
  specialize (Hm 0 (0 * 0)). cbn [slide g_lo g_hi] in Hm. assert (Hz : -2 <= 0 <= 1) by lra. specialize (Hm Hz eq_refl). nra.
Qed.
Lemma max_wrong brent u m : best_scalar brent -> max_coordinate brent 1 slide 0 = Ok (u, m) -> u = -2.
Proof.
  intros Hb H. unfold max_coordinate in H. cbn [Nat.leb] in H. apply Hb in H as (Eu & Hu & Hm). assert (Nn : forall t v, (let* p := g_value slide t 0 in let x := p 0%nat in let* a := divc n1 x in divc a x) = Ok v -> 0 <= v) by (intros t0 v0 Ev; apply bind_inv in Ev as (p0 & _ & Ev); exact (inv_nn _ _ Ev)). specialize (Hm Nn). clear Nn. cbn [slide g_value g_lo g_hi bind] in Eu, Hm, Hu.
  destruct (Req_dec u 0) as [->|Hz]; [rewrite (divc_zero eps) in Eu; discriminate|]. rewrite (divc_ok eps) in Eu by exact Hz. cbn [bind] in Eu. rewrite (divc_ok eps) in Eu by exact Hz. injection Eu as Eu. nsimp.
  specialize (Hm (-2) (1 / -2 / -2)). assert (H2 : -2 <= -2 <= 1) by lra. specialize (Hm H2). rewrite (divc_ok eps) in Hm by lra. cbn [bind] in Hm. rewrite (divc_ok eps) in Hm by lra. nsimp. specialize (Hm eq_refl).
  assert (Em : m * (u * u) = 1) by (rewrite <- Eu; field; exact Hz). assert (Hq : 1 / -2 / -2 = 1 / 4) by field. rewrite Hq in Hm.
  assert (0 <= u * u <= 4) by nra. assert (u * u = 4); nra.
Qed.

(** ** Curvature *)
Lemma curvature_value opt dim (crv : gcurve R) u1 u2 tol u k : honest opt -> max_curvature_pos sqrt opt dim crv u1 u2 tol = Ok (u, k) ->
  u1 <= u <= u2 /\ exists c, g_value crv u 2 = Ok c /\ 0 < sqlen dim c /\ k = sqlen dim c /\
    (global opt -> forall t c', u1 <= t <= u2 -> g_value crv t 2 = Ok c' -> sqlen dim c' <= sqlen dim c).
Proof.
  intros Ho H. unfold max_curvature_pos in H. rewrite two_R, (divc_ok eps) in H by lra. cbn [bind] in H. apply bind_inv in H as ((x & m) & Es & H).
  pose proof Es as Es'. unfold solve_D in Es. destruct (Ho _ _ _ _ _ _ _ _ Es) as (Hx & Hb). destruct (box1 _ _ _ Hb) as (u' & -> & Hu). cbn [get nth_error bind] in H.
  unfold max_curvature_f in Hx. cbn [get nth_error bind] in Hx. apply bind_inv in Hx as (r & Er & Em). apply bind_inv in Er as (c & Ec & Er). apply bind_inv in Er as (a & Ea & Er). injection Er as <-.
  rewrite (sq_norm_R eps) in Ea. destruct (Req_dec (sqlen dim c) 0) as [Hz|Hz]; [rewrite Hz, (divc_zero eps) in Ea; discriminate|]. rewrite (divc_ok eps) in Ea by exact Hz. injection Ea as Ea.
  cbn [fold_left] in Em. nsimp. injection Em as Em. rewrite Rplus_0_l in Em. pose proof (sqlen_nn dim c) as Pc. assert (Pc' : 0 < sqlen dim c) by lra.
  assert (Pa : 0 < a) by (rewrite <- Ea; apply Rdiv_lt_0_compat; lra). rewrite <- Em in H. rewrite sqrt_square in H by lra. rewrite (divc_ok eps) in H by lra. cbn [bind] in H. injection H as <- <-.
  split; [exact Hu|]. exists c. split; [exact Ec|]. split; [exact Pc'|]. split; [rewrite <- Ea; field; lra|].
  intros Hg t c' Ht Ec'. destruct (Rle_lt_dec (sqlen dim c') (sqlen dim c)) as [L|L]; [exact L|exfalso].
  assert (Hc' : sqlen dim c' <> 0) by lra.
  assert (L1 : m <= (1 / sqlen dim c') * (1 / sqlen dim c')).
  { refine (Hg _ _ _ _ _ _ _ _ [t] _ _ Es (box1_in _ _ _ Ht) _).
    { intros z v Ev. apply bind_inv in Ev as (r & Er & Ev). unfold max_curvature_f in Er. apply bind_inv in Er as (uz & _ & Er). apply bind_inv in Er as (cz & _ & Er).
      apply bind_inv in Er as (az & _ & Er). injection Er as <-. cbn [fold_left] in Ev. nsimp. injection Ev as <-. nra. }
    unfold max_curvature_f. cbn [get nth_error bind]. rewrite Ec'. cbn [bind]. rewrite (sq_norm_R eps). nsimp.
    rewrite (divc_ok eps) by exact Hc'. cbn. nsimp. apply (f_equal Ok). ring. }
  assert (L2 : 1 / sqlen dim c' < 1 / sqlen dim c).
  { unfold Rdiv. apply Rmult_lt_compat_l; [lra|]. apply Rinv_lt_contravar; nra. }
  assert (L3 : 0 < 1 / sqlen dim c') by (apply Rdiv_lt_0_compat; lra). rewrite Ea in L2. nra.
Qed.
Lemma curvature_wrong opt tol u k : honest opt -> global opt -> max_curvature_pos sqrt opt 2 rushing 0 1 tol = Ok (u, k) -> u = 1 /\ k = 36.
Proof.
  intros Ho Hg H. destruct (curvature_value _ _ _ _ _ _ _ _ Ho H) as (Hu & c & Ec & Pc & -> & Hm). cbn [rushing g_value] in Ec. injection Ec as <-.
  specialize (Hm Hg 1 _ ltac:(lra) eq_refl). cbn [sqlen] in *. assert (u = 1) by nra. subst u. split; [reflexivity|ring].
Qed.

(** ** The rolling ball *)
Lemma normal_axis_inv (g : gcurve R) u p n : normal_axis sqrt g u = Ok (p, n) -> g_value g u 0 = Ok p /\
  exists t, g_value g u 1 = Ok t /\ 0 < sqlen 2 t /\ t 0%nat * n 0%nat + t 1%nat * n 1%nat = 0 /\ sqlen 2 n = 1.
Proof.
  intros H. unfold normal_axis, line_at in H. apply bind_inv in H as ((p' & d) & El & H). apply bind_inv in El as (p0 & Ep & El). apply bind_inv in El as (d' & Ed & El). injection El as <- <-.
  destruct (g_value g u 1) as [t| | |] eqn:Et; try (unfold normal_direction2 in Ed; rewrite Et in Ed; discriminate).
  assert (Pt : 0 < sqlen 2 t).
  { destruct (Rle_lt_or_eq_dec _ _ (sqlen_nn 2 t)) as [L|L]; [exact L|exfalso]. unfold normal_direction2 in Ed. rewrite Et in Ed. cbn [bind] in Ed. rewrite (norm_R eps) in Ed.
    unfold pdiv in Ed. match type of Ed with context [sqrt (sqlen 2 ?m)] => assert (Em : sqlen 2 m = 0) by (rewrite L; cbn [sqlen]; nsimp; ring) end. rewrite Em, sqrt_0, (divc_zero eps) in Ed. discriminate. }
  destruct (normal2_ok eps g u t Et Pt) as (n' & En & Ln & On & _). rewrite Ed in En. injection En as <-.
  assert (Le : sqlen 2 (psub (padd p0 d') p0) = 1). { rewrite <- Ln. unfold psub, padd. cbn [sqlen]. nsimp. ring. }
  rewrite (norm_R eps), Le, sqrt_1, (pdiv_ok eps) in H by lra. cbn [bind] in H. injection H as <- <-. split; [exact Ep|]. exists t. split; [reflexivity|]. split; [exact Pt|].
  unfold psub, padd in *. cbn [sqlen] in *. nsimp. split; nra.
Qed.
Lemma normal_axis_returns (g : gcurve R) u p t : g_value g u 0 = Ok p -> g_value g u 1 = Ok t -> 0 < sqlen 2 t ->
  exists n, normal_axis sqrt g u = Ok (p, n) /\ t 0%nat * n 0%nat + t 1%nat * n 1%nat = 0 /\ sqlen 2 n = 1.
Proof.
  intros Ep Et Pt. destruct (normal2_ok eps g u t Et Pt) as (n' & En & Ln & On & _).
  unfold normal_axis, line_at. rewrite Ep. cbn [bind]. rewrite En. cbn [bind].
  assert (Le : sqlen 2 (psub (padd p n') p) = 1). { rewrite <- Ln. unfold psub, padd. cbn [sqlen]. nsimp. ring. }
  rewrite (norm_R eps), Le, sqrt_1, (pdiv_ok eps) by lra. cbn [bind]. eexists. split; [reflexivity|]. unfold psub, padd in *. cbn [sqlen] in *. nsimp. split; nra.
Qed.
Lemma perp_unit (t n : pt R) : 0 < sqlen 2 t -> t 0%nat * n 0%nat + t 1%nat * n 1%nat = 0 -> sqlen 2 n = 1 ->
  exists s, n 0%nat = - s * t 1%nat /\ n 1%nat = s * t 0%nat /\ s ^ 2 * (t 0%nat ^ 2 + t 1%nat ^ 2) = 1.
Proof.
  intros Pt On Ln. cbn [sqlen] in *. exists ((t 0%nat * n 1%nat - t 1%nat * n 0%nat) / (t 0%nat ^ 2 + t 1%nat ^ 2)).
    assert (E0 : n 0%nat = - ((t 0%nat * n 1%nat - t 1%nat * n 0%nat) / (t 0%nat ^ 2 + t 1%nat ^ 2)) * t 1%nat).
    { apply (Rmult_eq_reg_r (t 0%nat ^ 2 + t 1%nat ^ 2)); [|lra]. transitivity (- (t 0%nat * n 1%nat - t 1%nat * n 0%nat) * t 1%nat + t 0%nat * (t 0%nat * n 0%nat + t 1%nat * n 1%nat)); [ring|]. rewrite On. field. lra. }
    assert (E1 : n 1%nat = (t 0%nat * n 1%nat - t 1%nat * n 0%nat) / (t 0%nat ^ 2 + t 1%nat ^ 2) * t 0%nat).
    { apply (Rmult_eq_reg_r (t 0%nat ^ 2 + t 1%nat ^ 2)); [|lra]. transitivity ((t 0%nat * n 1%nat - t 1%nat * n 0%nat) * t 0%nat + t 1%nat * (t 0%nat * n 0%nat + t 1%nat * n 1%nat)); [ring|]. rewrite On. field. lra. }
    split; [exact E0|]. split; [exact E1|]. set (s := (t 0%nat * n 1%nat - t 1%nat * n 0%nat) / (t 0%nat ^ 2 + t 1%nat ^ 2)) in *. clearbody s. rewrite E0, E1 in Ln. lra.
Qed.
Lemma unit_sq (p n : pt R) a : sqlen 2 n = 1 -> (0 + (p 0%nat + a * n 0%nat - (p 0%nat + 0 * n 0%nat)) ^ 2) + (p 1%nat + a * n 1%nat - (p 1%nat + 0 * n 1%nat)) ^ 2 = a ^ 2.
Proof. cbn [sqlen]. intros H. replace (a ^ 2) with (a ^ 2 * (0 + n 0%nat ^ 2 + n 1%nat ^ 2)) by (rewrite H; ring). ring. Qed.
Lemma unit_dist (p n c : pt R) a : sqlen 2 n = 1 -> (forall i, (i < 2)%nat -> c i = p i + a * n i) -> sqdist 2 c p = a ^ 2.
Proof.
  intros H Hc. unfold sqdist. cbn [sqlen] in *. rewrite (Hc 0%nat), (Hc 1%nat) by lia. replace (a ^ 2) with (a ^ 2 * (0 + n 0%nat ^ 2 + n 1%nat ^ 2)) by (rewrite H; ring). ring.
Qed.
Lemma on_normal_axis (p t n c : pt R) : 0 < sqlen 2 t -> t 0%nat * n 0%nat + t 1%nat * n 1%nat = 0 -> sqlen 2 n = 1 -> on_normal p t c ->
  exists a, forall i, (i < 2)%nat -> c i = p i + a * n i.
Proof.
  intros Pt On Ln Hc. unfold on_normal in Hc. cbn [sqlen] in *. exists ((c 0%nat - p 0%nat) * n 0%nat + (c 1%nat - p 1%nat) * n 1%nat).
  assert (Ex := perp_unit t n Pt On Ln). cbn [sqlen] in Ex.
  destruct Ex as (s & E0 & E1 & Es). rewrite E0, E1. set (x := c 0%nat - p 0%nat) in *. set (y := c 1%nat - p 1%nat) in *.
  intros i Hi. destruct i as [|[|i]]; [| |lia].
  - replace (c 0%nat) with (p 0%nat + x) by (unfold x; ring). rewrite E0. clearbody x y.
    assert (x = s ^ 2 * (t 0%nat ^ 2 + t 1%nat ^ 2) * x) by (rewrite Es; ring).
    assert (s ^ 2 * (t 0%nat * (t 0%nat * x + t 1%nat * y)) = 0) by (rewrite Hc; ring). lra.
  - replace (c 1%nat) with (p 1%nat + y) by (unfold y; ring). rewrite E1. clearbody x y.
    assert (y = s ^ 2 * (t 0%nat ^ 2 + t 1%nat ^ 2) * y) by (rewrite Es; ring).
    assert (s ^ 2 * (t 1%nat * (t 0%nat * x + t 1%nat * y)) = 0) by (rewrite Hc; ring). lra.
Qed.
Lemma rolling_value (crv1 crv2 : gcurve R) u1 u2 m : rolling_f sqrt crv1 crv2 u1 [u2] = Ok m ->
  exists P1 N1 P2 N2 a b, normal_axis sqrt crv1 u1 = Ok (P1, N1) /\ normal_axis sqrt crv2 u2 = Ok (P2, N2) /\ extrema_line_line (P1, N1) (P2, N2) = Ok (a, b) /\
    m = Rabs (a ^ 2 - b ^ 2).
Proof.
  intros H. unfold rolling_f in H. cbn [get nth_error bind] in H. apply bind_inv in H as ((P1 & N1) & E1 & H). apply bind_inv in H as ((P2 & N2) & E2 & H). apply bind_inv in H as ((a & b) & El & H).
  injection H as H. exists P1, N1, P2, N2, a, b. split; [exact E1|]. split; [exact E2|]. split; [exact El|].
  destruct (normal_axis_inv _ _ _ _ E1) as (_ & _ & _ & _ & _ & L1). destruct (normal_axis_inv _ _ _ _ E2) as (_ & _ & _ & _ & _ & L2).
  rewrite <- H, nabs_R, !(sq_norm_R eps). f_equal. unfold on_axis, psub, padd, pscal. cbn [fst snd sqlen]. nsimp. rewrite !unit_sq by assumption. reflexivity.
Qed.
Lemma line_line_inv (P1 N1 P2 N2 : pt R) a b : extrema_line_line (P1, N1) (P2, N2) = Ok (a, b) ->
  N1 0%nat * N2 1%nat - N1 1%nat * N2 0%nat <> 0 /\ forall i, (i < 2)%nat -> P1 i + a * N1 i = P2 i + b * N2 i.
Proof.
  intros H. destruct (Req_dec (N1 0%nat * N2 1%nat - N1 1%nat * N2 0%nat) 0) as [Z|Z]; [rewrite line_line_parallel in H by exact Z; discriminate|].
  split; [exact Z|]. destruct (line_line_ok P1 N1 P2 N2 Z) as (a' & b' & E & Hi & _). rewrite E in H. injection H as <- <-. exact Hi.
Qed.
Lemma rolling_ball_ok opt optN tol_x tol_a (crv1 crv2 : gcurve R) u1 u2 c : best_without_gradient optN ->
  rolling_ball sqrt opt optN tol_x tol_a crv1 crv2 u1 = Ok (u2, c, false) ->
  g_lo crv2 <= u2 <= g_hi crv2 /\ exists p1 t1 p2 t2, g_value crv1 u1 0 = Ok p1 /\ g_value crv1 u1 1 = Ok t1 /\ g_value crv2 u2 0 = Ok p2 /\ g_value crv2 u2 1 = Ok t2 /\
    on_normal p1 t1 c /\ on_normal p2 t2 c /\
    forall v c' q t, g_lo crv2 <= v <= g_hi crv2 -> g_value crv2 v 0 = Ok q -> g_value crv2 v 1 = Ok t -> 0 < sqlen 2 t ->
      t1 0%nat * t 1%nat - t1 1%nat * t 0%nat <> 0 -> on_normal p1 t1 c' -> on_normal q t c' ->
      Rabs (sqdist 2 c p1 - sqdist 2 c p2) <= Rabs (sqdist 2 c' p1 - sqdist 2 c' q).
Proof.
  intros Hb H. unfold rolling_ball in H. rewrite two_R, (divc_ok eps) in H by lra. cbn [bind] in H. apply bind_inv in H as (p1' & _ & H). apply bind_inv in H as ((u20 & d0) & _ & H).
  apply bind_inv in H as (L1' & _ & H). apply bind_inv in H as (L2' & _ & H). destruct (nltb _ tol_a) in H.
  { apply bind_inv in H as (a0 & _ & H). apply bind_inv in H as (b0 & _ & H). discriminate. }
  apply bind_inv in H as ((x & m) & Ex & H). destruct (Hb _ _ _ _ _ _ _ Ex) as (Em & Hbox & Hmin). assert (Nn : forall z v, rolling_f sqrt crv1 crv2 u1 z = Ok v -> 0 <= v).
  { intros z v Ev. unfold rolling_f in Ev. apply bind_inv in Ev as (? & _ & Ev). apply bind_inv in Ev as (? & _ & Ev). apply bind_inv in Ev as (? & _ & Ev). apply bind_inv in Ev as ((? & ?) & _ & Ev). injection Ev as <-. rewrite nabs_R. apply Rabs_pos. }
  specialize (Hmin Nn). clear Nn. destruct (box1 _ _ _ Hbox) as (u & -> & Hu). cbn [get nth_error bind] in H.
  destruct (rolling_value _ _ _ _ _ Em) as (P1 & N1 & P2 & N2 & a & b & E1 & E2 & El & ->). rewrite E1, E2 in H. cbn [bind] in H. rewrite El in H. cbn [bind] in H. injection H as <- Hc.
  split; [exact Hu|]. destruct (normal_axis_inv _ _ _ _ E1) as (Ep1 & t1 & Et1 & Pt1 & O1 & U1). destruct (normal_axis_inv _ _ _ _ E2) as (Ep2 & t2 & Et2 & Pt2 & O2 & U2).
  destruct (line_line_inv _ _ _ _ _ _ El) as (Hdet & Hx). exists P1, t1, P2, t2. do 4 (split; [assumption|]).
  assert (C1 : forall i, (i < 2)%nat -> c i = P1 i + a * N1 i).
  { intros i Hi. rewrite <- Hc. unfold pscal, padd, on_axis. cbn [fst snd]. nsimp. unfold padd, pscal. nsimp. rewrite <- (Hx i Hi). field. }
  assert (C2 : forall i, (i < 2)%nat -> c i = P2 i + b * N2 i) by (intros i Hi; rewrite C1 by exact Hi; apply Hx; exact Hi).
  split; [unfold on_normal; rewrite (C1 0%nat), (C1 1%nat) by lia; transitivity (a * (t1 0%nat * N1 0%nat + t1 1%nat * N1 1%nat)); [ring|rewrite O1; ring]|].
  split; [unfold on_normal; rewrite (C2 0%nat), (C2 1%nat) by lia; transitivity (b * (t2 0%nat * N2 0%nat + t2 1%nat * N2 1%nat)); [ring|rewrite O2; ring]|].
  intros v c' q t Hv Eq Et Pt Hpar Hc1 Hc2. destruct (normal_axis_returns _ _ _ _ Eq Et Pt) as (n & En & On & Un).
  destruct (on_normal_axis _ _ _ _ Pt1 O1 U1 Hc1) as (a' & Ha'). destruct (on_normal_axis _ _ _ _ Pt On Un Hc2) as (b' & Hb').
  assert (Hd : N1 0%nat * n 1%nat - N1 1%nat * n 0%nat <> 0).
  { intros Z. apply Hpar. destruct (perp_unit _ _ Pt1 O1 U1) as (s1 & A0 & A1 & As). destruct (perp_unit _ _ Pt On Un) as (s2 & B0 & B1 & Bs).
    assert (S1 : s1 <> 0) by (intros ->; lra). assert (S2 : s2 <> 0) by (intros ->; lra). rewrite A0, A1, B0, B1 in Z.
    apply (Rmult_eq_reg_l (s1 * s2)); [lra|]. apply Rmult_integral_contrapositive. split; assumption. }
  destruct (line_line_ok P1 N1 q n Hd) as (a2 & b2 & El2 & _ & Hu2).
  destruct (Hu2 a' b') as (<- & <-); [intros i Hi; rewrite <- Ha', <- Hb' by exact Hi; reflexivity|].
  assert (Hm : rolling_f sqrt crv1 crv2 u1 [v] = Ok (Rabs (a' ^ 2 - b' ^ 2))).
  { unfold rolling_f. cbn [get nth_error bind]. rewrite E1, En. cbn [bind]. rewrite El2. cbn [bind]. apply (f_equal Ok). rewrite nabs_R, !(sq_norm_R eps). f_equal.
    unfold on_axis, psub, padd, pscal. cbn [fst snd sqlen]. nsimp. rewrite !unit_sq by assumption. reflexivity. }
  specialize (Hmin [v] _ (box1_in _ _ _ Hv) Hm).
  rewrite (unit_dist P1 N1 c a U1 C1), (unit_dist P2 N2 c b U2 C2), (unit_dist P1 N1 c' a' U1 Ha'), (unit_dist q n c' b' Un Hb'). exact Hmin.
Qed.

(** ** Newton *)
Lemma newton_wrong it : newton_solve square 4 (3 / 2) (1 / 1000) (1 / 10000) (S it) = Ok (27 / 11).
Proof.
  unfold newton_solve. remember it as k eqn:Ek. cbn [newton_loop square bind]. nsimp.
  assert (T10 : nofnat 10 = 10) by (rewrite (nofnat_R eps); cbn; lra). rewrite T10.
  destruct (Rltb_spec (1 / 10000) (1 / 10000 * 10)); [|lra]. destruct (Rltb_spec (1 / 1000) (1 / 1000 * 10)); [|lra]. cbn [andb].
  rewrite (divc_ok eps) by lra. cbn [bind]. destruct k as [|k].
  - cbn [newton_loop]. apply (f_equal Ok). field.
  - cbn [newton_loop]. nsimp. match goal with |- context [Rltb ?a ?b] => destruct (Rltb_spec a b) as [L|L] end.
    + exfalso. assert (E : 2 * (3 / 2) * (3 / 2 * (3 / 2) - 4) / (2 * (3 / 2 * (3 / 2) - 4) + 2 * (3 / 2) * (2 * (3 / 2))) = - 21 / 22) by field. rewrite E in L. lra.
    + cbn [andb]. apply (f_equal Ok). field.
Qed.
End AtR.
