(** C88: the bracketed searches return; minimisers that meet the hypotheses. *)
From Coq Require Import List Arith ZArith Reals Lia Lra Bool.
From Verif Require Import Model_Base Model_Knots Model_Math Model_Vec Model_Wrap Model_Analysis Model_Extrema
  Spec_Base Spec_Basis Spec_Build Spec_Motion Spec_Analysis Spec_Offset Spec_Extrema
  Proof_Base Proof_Build Proof_Analysis2 Proof_Analysis4 Proof_Extrema Proof_Extrema2.
Import ListNotations.
Local Open Scope R_scope.

Section AtR.
Variable eps : R.
Local Hint Extern 0 (Num R) => exact (NumR eps) : typeclass_instances.

Lemma solve_returns opt f g x0 lb hb tol : willing opt -> in_box lb hb x0 ->
  (forall y, in_box lb hb y -> exists r d, f y = Ok r /\ g y r = Ok d) -> exists x m, solve_D opt f g x0 lb hb tol = Ok (x, m).
Proof.
  intros Hw Hx Hf. unfold solve_D. apply Hw; [exact Hx|]. intros y Hy. destruct (Hf y Hy) as (r & d & Er & Ed). rewrite Er. cbn [bind]. eauto.
Qed.
Lemma curve_point_returns opt dim (crv : gcurve R) (pnt : pt R) tol n : willing opt -> honest opt -> (2 <= n)%nat -> g_lo crv < g_hi crv ->
  (forall t d, g_lo crv <= t <= g_hi crv -> (d <= 1)%nat -> exists p, g_value crv t d = Ok p) ->
  exists r, extrema_curve_point_bracket sqrt opt dim crv pnt tol n = Ok r.
Proof.
  intros Hw Ho Hn Hlo Hc. unfold extrema_curve_point_bracket. destruct (range_spread eps (g_lo crv) (g_hi crv) n Hn) as (l & El & Ll & _). rewrite El. cbn [bind].
  destruct (range_members eps _ _ _ _ El) as (_ & _ & Hl).
  assert (Hin : forall x, In x l -> g_lo crv <= x <= g_hi crv). { intros x Hx. apply Hl in Hx as (i & Hi & ->). apply spread_in; assumption. }
  destruct (min_element_returns eps (fun a => let* p := g_value crv a 0 in Ok (sq_norm dim (psub pnt p))) l) as (u0 & Eu).
  { intros ->. cbn in Ll. lia. } { intros x Hx. destruct (Hc x 0%nat (Hin x Hx) ltac:(lia)) as (p & Ep). rewrite Ep. cbn [bind]. eauto. }
  rewrite Eu. cbn [bind]. apply (min_element_ok eps) in Eu as (Hu & _); [|lia].
  unfold extrema_curve_point. destruct (solve_returns opt (curve_point_f dim crv pnt) (curve_point_g dim crv pnt) [u0] [g_lo crv] [g_hi crv] (nmul tol tol) Hw) as (x & m & Es).
  { apply box1_in, Hin, Hu. }
  { intros y Hy. destruct (box1 _ _ _ Hy) as (u & -> & Hr). destruct (Hc u 0%nat Hr ltac:(lia)) as (p & Ep). destruct (Hc u 1%nat Hr ltac:(lia)) as (d & Ed).
    unfold curve_point_f, curve_point_g. cbn [get nth_error bind]. rewrite Ep, Ed. cbn [bind]. eexists _, _. split; [reflexivity|]. cbn [get nth_error bind]. reflexivity. }
  rewrite Es. cbn [bind]. unfold solve_D in Es. destruct (Ho _ _ _ _ _ _ _ _ Es) as (_ & Hb). destruct (box1 _ _ _ Hb) as (u & -> & _). cbn [get nth_error bind]. eauto.
Qed.
Lemma curve_curve_returns opt dim (crv1 crv2 : gcurve R) tol nu nv : willing opt -> honest opt -> (2 <= nu)%nat -> (2 <= nv)%nat -> g_lo crv1 < g_hi crv1 -> g_lo crv2 < g_hi crv2 ->
  (forall t d, g_lo crv1 <= t <= g_hi crv1 -> (d <= 1)%nat -> exists p, g_value crv1 t d = Ok p) ->
  (forall t d, g_lo crv2 <= t <= g_hi crv2 -> (d <= 1)%nat -> exists p, g_value crv2 t d = Ok p) ->
  exists r, extrema_curve_curve_bracket sqrt opt dim crv1 crv2 tol nu nv = Ok r.
Proof.
  intros Hw Ho Hn Hm L1 L2 C1 C2. unfold extrema_curve_curve_bracket.
  destruct (range_spread eps (g_lo crv1) (g_hi crv1) nu Hn) as (l1 & E1 & N1 & _). rewrite E1. cbn [bind].
  destruct (range_spread eps (g_lo crv2) (g_hi crv2) nv Hm) as (l2 & E2 & N2 & _). rewrite E2. cbn [bind].
  destruct (range_members eps _ _ _ _ E1) as (_ & _ & H1). destruct (range_members eps _ _ _ _ E2) as (_ & _ & H2).
  assert (I1 : forall x, In x l1 -> g_lo crv1 <= x <= g_hi crv1). { intros x Hx. apply H1 in Hx as (i & Hi & ->). apply spread_in; assumption. }
  assert (I2 : forall x, In x l2 -> g_lo crv2 <= x <= g_hi crv2). { intros x Hx. apply H2 in Hx as (i & Hi & ->). apply spread_in; assumption. }
  pose (okst := fun st : option R * (R * R) => fst st = None \/ (In (fst (snd st)) l1 /\ In (snd (snd st)) l2)).
  assert (S1 : forall u s2 st, In u l1 -> incl s2 l2 -> okst st -> exists st', scan1 eps dim crv1 crv2 u st s2 = Ok st' /\ okst st' /\ (s2 <> [] -> fst st' <> None) /\ (fst st <> None -> fst st' <> None)).
  { intros u s2 st Hu. revert st. unfold scan1. induction s2 as [|v s2 IH]; intros st Hi Hst; cbn [foldM]; [exists st; split; [reflexivity|]; split; [exact Hst|]; split; [congruence|auto]|].
    destruct (C1 u 0%nat (I1 u Hu) ltac:(lia)) as (p & Ep). assert (Hv : In v l2) by (apply Hi; left; reflexivity). destruct (C2 v 0%nat (I2 v Hv) ltac:(lia)) as (q & Eq). rewrite Ep, Eq. cbn [bind].
    match goal with |- context [foldM _ ?s s2] => destruct (IH s) as (st' & Es & Ok' & _ & Hs) end.
    - intros x Hx. apply Hi. right. exact Hx.
    - destruct (match fst st with Some m => _ | None => true end); [right; cbn; auto|exact Hst].
    - exists st'. split; [rewrite Ep in Es; cbn [bind] in Es; exact Es|]. split; [exact Ok'|].
      assert (Z : fst st' <> None). { apply Hs. destruct st as (o & uv). cbn [fst]. destruct o as [m0|]; [|cbn; discriminate]. match goal with |- context [if ?b then _ else _] => destruct b end; cbn; discriminate. }
      auto. }
  assert (S2 : forall s1 st, incl s1 l1 -> okst st -> exists st', foldM (fun st u => scan1 eps dim crv1 crv2 u st l2) st s1 = Ok st' /\ okst st' /\ (s1 <> [] -> fst st' <> None) /\ (fst st <> None -> fst st' <> None)).
  { intros s1. induction s1 as [|u s1 IH]; intros st Hi Hst; cbn [foldM]; [exists st; split; [reflexivity|]; split; [exact Hst|]; split; [congruence|auto]|].
    destruct (S1 u l2 st) as (st1 & Es & O1 & Z1 & _); [apply Hi; left; reflexivity|apply incl_refl|exact Hst|]. rewrite Es. cbn [bind].
    destruct (IH st1) as (st2 & Es2 & O2 & _ & Z2); [intros x Hx; apply Hi; right; exact Hx|exact O1|]. exists st2. split; [exact Es2|]. split; [exact O2|].
    assert (Z : fst st2 <> None). { apply Z2, Z1. intros ->. cbn in N2. lia. } auto. }
  destruct (S2 l1 (None, (n0, n0)) (incl_refl _) (or_introl eq_refl)) as ((o & best) & Es & O & Z & _). unfold scan1 in Es. rewrite Es. cbn [bind].
  destruct O as [O | (B1 & B2)]; [exfalso; apply Z; [intros ->; cbn in N1; lia|exact O]|]. cbn [fst snd] in B1, B2.
  unfold extrema_curve_curve. destruct (solve_returns opt (curve_curve_f dim crv1 crv2) (curve_curve_g dim crv1 crv2) [fst best; snd best] [g_lo crv1; g_lo crv2] [g_hi crv1; g_hi crv2] (nmul tol tol) Hw) as (x & m & Ex).
  { apply box2_in; auto. }
  { intros y Hy. destruct (box2 _ _ _ _ _ Hy) as (u & v & -> & Hu & Hv). destruct (C1 u 0%nat Hu ltac:(lia)) as (p & Ep). destruct (C1 u 1%nat Hu ltac:(lia)) as (d & Ed).
    destruct (C2 v 0%nat Hv ltac:(lia)) as (q & Eq). destruct (C2 v 1%nat Hv ltac:(lia)) as (e & Ee).
    unfold curve_curve_f, curve_curve_g. cbn [get nth_error bind]. rewrite Ep, Ed, Eq, Ee. cbn [bind]. eexists _, _. split; [reflexivity|]. cbn [get nth_error bind]. reflexivity. }
  rewrite Ex. cbn [bind]. unfold solve_D in Ex. destruct (Ho _ _ _ _ _ _ _ _ Ex) as (_ & Hb). destruct (box2 _ _ _ _ _ Hb) as (u & v & -> & _). cbn [get nth_error bind]. eauto.
Qed.
Lemma surf_point_returns opt dim (srf : @bsurf R) (pnt : pt R) tol nu nv : willing opt -> honest opt -> (2 <= nu)%nat -> (2 <= nv)%nat -> b_u1 srf < b_u2 srf -> b_v1 srf < b_v2 srf ->
  (forall u v d e, b_u1 srf <= u <= b_u2 srf -> b_v1 srf <= v <= b_v2 srf -> (d + e <= 1)%nat -> exists p, b_value srf u v d e = Ok p) ->
  exists r, extrema_surf_pnt_bracket sqrt opt dim srf pnt tol nu nv = Ok r.
Proof.
  intros Hw Ho Hn Hm L1 L2 Hc. unfold extrema_surf_pnt_bracket. destruct (Proof_Builders.range2_spec eps (b_u1 srf) (b_u2 srf) (b_v1 srf) (b_v2 srf) nu nv) as (_ & R2). destruct (R2 Hn Hm) as (l & El & Ll & _). rewrite El. cbn [bind].
  destruct (range2_members eps _ _ _ _ _ _ _ El) as (_ & _ & Ll2 & Hl).
  assert (Hin : forall x, In x l -> b_u1 srf <= fst x <= b_u2 srf /\ b_v1 srf <= snd x <= b_v2 srf). { intros x Hx. apply Hl in Hx as (i & j & Hi & Hj & ->). cbn [fst snd]. split; apply spread_in; assumption. }
  destruct (min_element_returns eps (fun ab : R * R => let* p := b_value srf (fst ab) (snd ab) 0%nat 0%nat in Ok (sq_norm dim (psub pnt p))) l) as ((u0 & v0) & Eu).
  { intros ->. cbn in Ll2. lia. } { intros x Hx. destruct (Hin x Hx) as (Hx1 & Hx2). destruct (Hc _ _ 0%nat 0%nat Hx1 Hx2 ltac:(lia)) as (p & Ep). rewrite Ep. cbn [bind]. eauto. }
  rewrite Eu. cbn [bind]. apply (min_element_ok eps) in Eu as (Hu & _); [|lia]. destruct (Hin _ Hu) as (Hu1 & Hu2). cbn [fst snd] in Hu1, Hu2.
  unfold extrema_surf_pnt. destruct (solve_returns opt (surf_point_f dim srf pnt) (surf_point_g dim srf pnt) [u0; v0] [b_u1 srf; b_v1 srf] [b_u2 srf; b_v2 srf] (nmul tol tol) Hw) as (x & m & Es).
  { apply box2_in; assumption. }
  { intros y Hy. destruct (box2 _ _ _ _ _ Hy) as (u & v & -> & Hr & Hr'). destruct (Hc u v 0%nat 0%nat Hr Hr' ltac:(lia)) as (p & Ep). destruct (Hc u v 1%nat 0%nat Hr Hr' ltac:(lia)) as (d & Ed).
    destruct (Hc u v 0%nat 1%nat Hr Hr' ltac:(lia)) as (e & Ee).
    unfold surf_point_f, surf_point_g. cbn [get nth_error bind]. rewrite Ep, Ed, Ee. cbn [bind]. eexists _, _. split; [reflexivity|]. cbn [get nth_error bind]. reflexivity. }
  rewrite Es. cbn [bind]. unfold solve_D in Es. destruct (Ho _ _ _ _ _ _ _ _ Es) as (_ & Hb). destruct (box2 _ _ _ _ _ Hb) as (u & v & -> & _). cbn [get nth_error bind]. eauto.
Qed.
End AtR.

(** ** Minimisers that meet the hypotheses *)
Fixpoint le_list (a b : list R) : bool := match a, b with
  | [], [] => true | x :: a, y :: b => (if Rle_dec x y then true else false) && le_list a b | _, _ => false end.
Lemma le_list_ok a : forall b, le_list a b = true <-> Forall2 Rle a b.
Proof.
  induction a as [|x a IH]; intros [|y b]; cbn [le_list]; split; intros H; try discriminate; try (inversion H; fail).
  - constructor.
  - reflexivity.
  - apply andb_prop in H as (H1 & H2). destruct (Rle_dec x y); [|discriminate]. constructor; [assumption|]. apply IH. exact H2.
  - inversion H; subst. destruct (Rle_dec x y); [|contradiction]. apply IH. assumption.
Qed.
Definition boxed (lb hb x : list R) : bool := le_list lb x && le_list x hb.
Lemma boxed_ok lb hb x : boxed lb hb x = true <-> in_box lb hb x.
Proof. unfold boxed, in_box. rewrite andb_true_iff, !le_list_ok. reflexivity. Qed.

(** It stays at the start. *)
Definition stay : @minimiser R := fun f g x0 lb hb tol => if boxed lb hb x0 then let* m := f x0 in Ok (x0, m) else Throw InvalidArgument.
Lemma stay_ok : honest stay /\ descending stay /\ willing stay /\ strict stay.
Proof.
  unfold stay. split; [|split; [|split]].
  - intros f g x0 lb hb tol x m H. destruct (boxed lb hb x0) eqn:B; [|discriminate]. apply bind_inv in H as (m' & Em & H). injection H as <- <-. split; [exact Em|]. apply boxed_ok. exact B.
  - intros f g x0 lb hb tol x m m0 H E0. destruct (boxed lb hb x0) eqn:B; [|discriminate]. rewrite E0 in H. injection H as _ <-. lra.
  - intros f g x0 lb hb tol B Hf. destruct (Hf x0 B) as (m & d & Em & _). apply boxed_ok in B. rewrite B, Em. cbn [bind]. eauto.
  - intros f g x0 lb hb tol B. destruct (boxed lb hb x0) eqn:E; [|reflexivity]. apply boxed_ok in E. contradiction.
Qed.
(** It tries one place and returns it if the objective is zero there. *)
Definition guess (c : list R) : @minimiser R := fun f g x0 lb hb tol =>
  if boxed lb hb c then let* m := f c in if Req_EM_T m 0 then (let* m0 := f x0 in if Rle_dec 0 m0 then Ok (c, m) else Throw RuntimeError) else Throw RuntimeError else Throw RuntimeError.
Lemma guess_ok c : honest (guess c) /\ descending (guess c) /\ global (guess c).
Proof.
  unfold guess. split; [|split].
  - intros f g x0 lb hb tol x m H. destruct (boxed lb hb c) eqn:B; [|discriminate]. apply bind_inv in H as (m' & Em & H). destruct (Req_EM_T m' 0); [|discriminate].
    apply bind_inv in H as (m0 & _ & H). destruct (Rle_dec 0 m0); [|discriminate]. injection H as <- <-. split; [exact Em|]. apply boxed_ok. exact B.
  - intros f g x0 lb hb tol x m m0 H E0. destruct (boxed lb hb c) eqn:B; [|discriminate]. apply bind_inv in H as (m' & Em & H). destruct (Req_EM_T m' 0); [|discriminate].
    rewrite E0 in H. cbn [bind] in H. destruct (Rle_dec 0 m0); [|discriminate]. injection H as _ <-. lra.
  - intros f g x0 lb hb tol x m y m0 Nn H By E0. destruct (boxed lb hb c) eqn:B; [|discriminate]. apply bind_inv in H as (m' & Em & H). destruct (Req_EM_T m' 0); [|discriminate].
    apply bind_inv in H as (m1 & _ & H). destruct (Rle_dec 0 m1); [|discriminate]. injection H as _ <-. apply Nn in E0. lra.
Qed.
Local Hint Extern 0 (Num R) => exact (NumR 0) : typeclass_instances.
(** The point (1/2, 0, 1) is on the line [above]. *)
Lemma lit_found : extrema_curve_point sqrt (guess [1 / 2]) 3 above (point3 (1 / 2) 0 1) 0 (1 / 1000) = Ok (1 / 2, 0).
Proof.
  unfold extrema_curve_point, solve_D, guess, boxed, curve_point_f. cbn [le_list above g_lo g_hi g_value get nth_error bind]. rewrite !(sqnorm_dist 0). unfold sqdist. cbn [sqlen point3].
  destruct (Rle_dec 0 (1 / 2)); [|exfalso; lra]. destruct (Rle_dec (1 / 2) 1); [|exfalso; lra]. cbn [andb bind fold_left]. nsimp.
  destruct (Req_EM_T _ 0) as [E|E]; [|exfalso; apply E; ring]. destruct (Rle_dec 0 _) as [L|L].
  - cbn [bind get nth_error]. rewrite E, sqrt_0. reflexivity.
  - exfalso. apply L. match goal with |- 0 <= 0 + ?a * ?a => pose proof (Rle_0_sqr a) as Q; unfold Rsqr in Q; lra end.
Qed.
Lemma lit_smooth : smooth_curve 3 (g_value above) (fun d w => match d with 0%nat => point3 w 0 1 | 1%nat => point3 1 0 0 | _ => point3 0 0 0 end) 1 (-1) 2.
Proof.
  intros x d _ Hd. split; [reflexivity|]. intros H i Hi. assert (d = 0%nat) by lia. subst d. destruct i as [|[|[|i]]]; [| | |lia]; cbn; [apply derivable_pt_lim_id|apply derivable_pt_lim_const|apply derivable_pt_lim_const].
Qed.
Lemma lit_swapped : strict stay /\ b_u1 flat < b_u2 flat /\ b_u2 flat < g_lo (mkg 2 3 (g_value above)).
Proof. split; [apply stay_ok|]. cbn. lra. Qed.
(** A scalar search at a given place. *)
Definition try_at (c : R) : (R -> result R) -> R -> R -> result (R * R) := fun f lo hi =>
  if Rle_dec lo c then if Rle_dec c hi then let* m := f c in if Req_EM_T m 0 then Ok (c, m) else Throw RuntimeError else Throw RuntimeError else Throw RuntimeError.
Lemma try_at_ok c : best_scalar (try_at c).
Proof.
  intros f lo hi u m H. unfold try_at in H. destruct (Rle_dec lo c); [|discriminate]. destruct (Rle_dec c hi); [|discriminate]. apply bind_inv in H as (m' & Em & H).
  destruct (Req_EM_T m' 0); [|discriminate]. injection H as <- <-. split; [exact Em|]. split; [lra|]. intros Nn t m0 _ E0. apply Nn in E0. lra.
Qed.
Lemma lit_min : min_coordinate (try_at 0) 1 slide 0 = Ok (0, 0).
Proof.
  unfold min_coordinate, try_at. cbn [Nat.leb slide g_lo g_hi g_value bind]. destruct (Rle_dec (-2) 0); [|exfalso; lra]. destruct (Rle_dec 0 1); [|exfalso; lra]. nsimp.
  destruct (Req_EM_T (0 * 0) 0) as [E|E]; [rewrite E; reflexivity|exfalso; apply E; ring].
Qed.

(** A ball between the axes, touching the first at 1. *)
Definition axis_x : gcurve R := mkg 0 2 (fun u d => Ok (fun i => match i, d with 0%nat, 0%nat => u | 0%nat, 1%nat => 1 | _, _ => 0 end)).
Definition axis_y : gcurve R := mkg 0 2 (fun u d => Ok (fun i => match i, d with 1%nat, 0%nat => u | 1%nat, 1%nat => 1 | _, _ => 0 end)).
Definition guess_zero (c : list R) (f : list R -> result R) (x0 lb hb : list R) (tol : R) : result (list R * R) :=
  if boxed lb hb c then let* m := f c in if Req_EM_T m 0 then Ok (c, m) else Throw RuntimeError else Throw RuntimeError.
Lemma guess_zero_ok c : best_without_gradient (guess_zero c).
Proof.
  intros f x0 lb hb tol x m H. unfold guess_zero in H. destruct (boxed lb hb c) eqn:B; [|discriminate]. apply bind_inv in H as (m' & Em & H). destruct (Req_EM_T m' 0); [|discriminate].
  injection H as <- <-. split; [exact Em|]. split; [apply boxed_ok; exact B|]. intros Nn y m0 _ E0. apply Nn in E0. lra.
Qed.
Lemma lit_ball : exists c, rolling_ball sqrt stay (guess_zero [1]) (1 / 1000000) (1 / 1000) axis_x axis_y 1 = Ok (1, c, false).
Proof.
  destruct (normal_axis_returns 0 axis_x 1 _ _ eq_refl eq_refl) as (n1 & E1 & O1 & L1); [cbn; lra|]. destruct (normal_axis_returns 0 axis_y 1 _ _ eq_refl eq_refl) as (n2 & E2 & O2 & L2); [cbn; lra|].
  cbn [sqlen] in L1, L2. cbn in O1, O2. assert (A0 : n1 0%nat = 0) by lra. assert (B1 : n2 1%nat = 0) by lra. rewrite A0 in L1. rewrite B1 in L2.
  assert (Hd : n1 0%nat * n2 1%nat - n1 1%nat * n2 0%nat <> 0).
  { rewrite A0, B1. intros Z. assert (Z2 : n1 1%nat * n2 0%nat = 0) by lra. apply Rmult_integral in Z2 as [Z2 | Z2]; [rewrite Z2 in L1|rewrite Z2 in L2]; lra. }
  match type of E1 with _ = Ok (?p, _) => match type of E2 with _ = Ok (?q, _) => destruct (line_line_ok 0 p n1 q n2 Hd) as (a & b & El & Hi & _) end end.
  pose proof (Hi 0%nat ltac:(lia)) as H0. pose proof (Hi 1%nat ltac:(lia)) as H1. cbn beta iota in H0, H1. rewrite A0 in H0. rewrite B1 in H1.
  assert (Er : rolling_f sqrt axis_x axis_y 1 [1] = Ok 0).
  { unfold rolling_f. cbn [get nth_error bind]. rewrite E1, E2. cbn [bind]. rewrite El. cbn [bind]. apply (f_equal Ok). rewrite nabs_R, !(sq_norm_R 0). unfold on_axis, psub, padd, pscal. cbn [fst snd sqlen]. nsimp.
    rewrite A0, B1. match goal with |- Rabs ?e = 0 => replace e with 0; [apply Rabs_R0|] end. assert (a * n1 1%nat = 1) by lra. assert (b * n2 0%nat = 1) by lra.
    replace (1 + a * 0 - (1 + 0 * 0)) with 0 by ring. replace (0 + a * n1 1%nat - (0 + 0 * n1 1%nat)) with 1 by lra. replace (0 + b * n2 0%nat - (0 + 0 * n2 0%nat)) with 1 by lra.
    replace (1 + b * 0 - (1 + 0 * 0)) with 0 by ring. ring. }
  unfold rolling_ball. rewrite (two_R 0), (divc_ok 0) by lra. cbn [bind]. cbn [axis_x g_value bind].
  assert (Ec : exists d, extrema_curve_point sqrt stay 2 axis_y (fun i => match i with 0%nat => 1 | _ => 0 end) 1 (1 / 1000000) = Ok (1, d)).
  { unfold extrema_curve_point, solve_D, stay. replace (boxed [g_lo axis_y] [g_hi axis_y] [1]) with true; [|symmetry; apply boxed_ok, box1_in; cbn; lra].
    unfold curve_point_f. cbn [get nth_error axis_y g_value bind]. eauto. }
  destruct Ec as (d & Ec). match goal with |- context [extrema_curve_point sqrt stay 2 axis_y ?p 1 ?t] => change (extrema_curve_point sqrt stay 2 axis_y p 1 t) with (extrema_curve_point sqrt stay 2 axis_y (fun i => match i with 0%nat => 1 | _ => 0 end) 1 (1 / 1000000)) end.
  rewrite Ec. cbn [bind]. fold axis_x. rewrite E1, E2. cbn [bind snd]. cbn [dot]. nsimp. rewrite A0, B1.
  destruct (Rltb_spec (nabs (nabs (0 + 0 * n2 0%nat + n1 1%nat * 0) - 1)) (1 / 1000)) as [L|_].
  { exfalso. rewrite !nabs_R in L. replace (0 + 0 * n2 0%nat + n1 1%nat * 0) with 0 in L by ring. rewrite Rabs_R0 in L. replace (0 - 1) with (- (1)) in L by ring. rewrite Rabs_Ropp, Rabs_R1 in L. lra. }
  unfold guess_zero at 1. replace (boxed [g_lo axis_y] [g_hi axis_y] [1]) with true; [|symmetry; apply boxed_ok, box1_in; cbn; lra]. rewrite Er. cbn [bind]. destruct (Req_EM_T 0 0); [|contradiction].
  cbn [bind get nth_error]. rewrite E2. cbn [bind]. rewrite El. cbn [bind]. eauto.
Qed.
