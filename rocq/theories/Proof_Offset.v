(** Lemmas on offset curves and surfaces (C87). *)
From Coq Require Import List Arith ZArith Reals Lia Lra Bool.
From Verif Require Import Model_Base Model_Knots Model_Curve Model_Vec Model_Math Model_Wrap Model_Interp Model_Surface Model_Skin Model_Analysis Model_Offset
  Spec_Base Spec_Basis Spec_Build Spec_Knots Spec_Eval Spec_Class Spec_Interp Spec_Solve Spec_Surface Spec_Approx Spec_Analysis Spec_Offset
  Proof_Base Proof_Build Proof_Builders Proof_Curve Proof_Lsq Proof_Analysis Proof_Analysis4.
Import ListNotations.
Local Open Scope R_scope.

Section Scalar.
Variables (o o1 o2 y y1 y2 r r1 r2 : R -> R) (x : R).
Hypothesis Do : derivable_pt_lim o x (o1 x).
Hypothesis Dy : derivable_pt_lim y x (y1 x).
Hypothesis Dr : derivable_pt_lim r x (r1 x).
Hypothesis Pr : 0 < r x.
Let s (x : R) := sqrt (r x).

Lemma dlim_eq f l l' : derivable_pt_lim f x l -> l = l' -> derivable_pt_lim f x l'.
Proof. intros H <-. exact H. Qed.
Lemma s_pos : 0 < s x. Proof. apply sqrt_lt_R0. exact Pr. Qed.
Lemma s_sq : r x = s x * s x. Proof. unfold s. rewrite sqrt_sqrt; lra. Qed.
Lemma Ds : derivable_pt_lim s x (r1 x / (2 * s x)).
Proof.
  apply (dlim_eq _ (/ (2 * sqrt (r x)) * r1 x)); [|unfold s; unfold Rdiv; ring].
  apply (derivable_pt_lim_comp r sqrt); [exact Dr|apply derivable_pt_lim_sqrt; exact Pr].
Qed.

Lemma first_derivative : derivable_pt_lim (fun x => o x * y x / s x) x (o x * y1 x / s x + y x * (o1 x * r x - / 2 * o x * r1 x) / (r x * s x)).
Proof.
  pose proof s_pos as Hp. pose proof s_sq as Hq.
  eapply dlim_eq; [apply (derivable_pt_lim_div (fun x => o x * y x) s)|].
  - apply (derivable_pt_lim_mult o y); [exact Do|exact Dy].
  - exact Ds.
  - lra.
  - rewrite Hq. unfold Rsqr. field. lra.
Qed.

Hypothesis Do1 : derivable_pt_lim o1 x (o2 x).
Hypothesis Dy1 : derivable_pt_lim y1 x (y2 x).
Hypothesis Dr1 : derivable_pt_lim r1 x (r2 x).

Lemma second_derivative : derivable_pt_lim (fun x => o x * y1 x / s x + y x * (o1 x * r x - / 2 * o x * r1 x) / (r x * s x)) x
  ((o2 x * y x + 2 * o1 x * y1 x + o x * y2 x) / s x - (o1 x * y x * r1 x + o x * y1 x * r1 x + o x * y x * r2 x / 2) / s x / r x
   + 3 / 4 * o x * y x * r1 x * r1 x / s x / r x / r x).
Proof.
  pose proof s_pos as Hp. pose proof s_sq as Hq.
  eapply dlim_eq; [apply (derivable_pt_lim_plus (fun x => o x * y1 x / s x) (fun x => y x * (o1 x * r x - / 2 * o x * r1 x) / (r x * s x)))|].
  - apply (derivable_pt_lim_div (fun x => o x * y1 x) s); [apply (derivable_pt_lim_mult o y1); [exact Do|exact Dy1]|exact Ds|lra].
  - apply (derivable_pt_lim_div (fun x => y x * (o1 x * r x - / 2 * o x * r1 x)) (fun x => r x * s x)).
    + apply (derivable_pt_lim_mult y (fun x => o1 x * r x - / 2 * o x * r1 x)); [exact Dy|].
      apply (derivable_pt_lim_minus (fun x => o1 x * r x) (fun x => / 2 * o x * r1 x)).
      * apply (derivable_pt_lim_mult o1 r); [exact Do1|exact Dr].
      * apply (derivable_pt_lim_mult (fun x => / 2 * o x) r1); [|exact Dr1]. apply (derivable_pt_lim_scal o). exact Do.
    + apply (derivable_pt_lim_mult r s); [exact Dr|exact Ds].
    + apply Rmult_integral_contrapositive. lra.
  - cbv beta. rewrite Hq. unfold Rsqr. field. lra.
Qed.
End Scalar.

Section AtR.
Variable eps : R.
Local Hint Extern 0 (Num R) => exact (NumR eps) : typeclass_instances.

Lemma dot_derivable dim (A B : R -> pt R) (A' B' : pt R) x :
  (forall i, (i < dim)%nat -> derivable_pt_lim (fun x => A x i) x (A' i)) -> (forall i, (i < dim)%nat -> derivable_pt_lim (fun x => B x i) x (B' i)) ->
  derivable_pt_lim (fun x => dot dim (A x) (B x)) x (dot dim A' (B x) + dot dim (A x) B').
Proof.
  induction dim as [|m IH]; intros HA HB; cbn [dot]; nsimp.
  - rewrite Rplus_0_r. apply derivable_pt_lim_const.
  - eapply dlim_eq; [apply (derivable_pt_lim_plus (fun x => dot m (A x) (B x)) (fun x => A x m * B x m))|].
    + apply IH; auto.
    + apply (derivable_pt_lim_mult (fun x => A x m) (fun x => B x m)); auto.
    + ring.
Qed.

Lemma plane_ok (g : gcurve R) off (C : nat -> R -> pt R) (o : nat -> R -> R) a b :
  smooth_curve 2 (g_value g) C 3 a b -> smooth_scalar off o 2 a b -> (forall x, a < x < b -> 0 < sqlen 2 (C 1%nat x)) ->
  exists P : nat -> R -> pt R, smooth_curve 2 (offset2 sqrt g off) P 2 a b /\
    forall x, a < x < b -> let w := fun i => P 0%nat x i - C 0%nat x i in let t := C 1%nat x in
      t 0%nat * w 0%nat + t 1%nat * w 1%nat = 0 /\ sqlen 2 w = o 0%nat x ^ 2 /\
      t 0%nat * w 1%nat - t 1%nat * w 0%nat = o 0%nat x * sqrt (sqlen 2 t).
Proof.
  intros HC Ho Hp.
  set (r := fun x => sqlen 2 (C 1%nat x)). set (s := fun x => sqrt (r x)).
  set (r1 := fun x => 2 * dot 2 (C 1%nat x) (C 2%nat x)). set (r2 := fun x => 2 * (dot 2 (C 2%nat x) (C 2%nat x) + dot 2 (C 1%nat x) (C 3%nat x))).
  set (H0 := fun j x => o 0%nat x * C 1%nat x j / s x).
  set (H1 := fun j x => o 0%nat x * C 2%nat x j / s x + C 1%nat x j * (o 1%nat x * r x - / 2 * o 0%nat x * r1 x) / (r x * s x)).
  set (H2 := fun j x => (o 2%nat x * C 1%nat x j + 2 * o 1%nat x * C 2%nat x j + o 0%nat x * C 3%nat x j) / s x
    - (o 1%nat x * C 1%nat x j * r1 x + o 0%nat x * C 2%nat x j * r1 x + o 0%nat x * C 1%nat x j * r2 x / 2) / s x / r x
    + 3 / 4 * o 0%nat x * C 1%nat x j * r1 x * r1 x / s x / r x / r x).
  assert (DH : forall x j, a < x < b -> (j < 2)%nat -> derivable_pt_lim (H0 j) x (H1 j x) /\ derivable_pt_lim (H1 j) x (H2 j x)).
  { intros x j Hx Hj.
    assert (Dr : derivable_pt_lim r x (r1 x)).
    { apply (sqlen_derivable eps 2 (C 1%nat) (C 2%nat x)). intros i Hi. apply (proj2 (HC x 1%nat Hx ltac:(lia))); [lia|exact Hi]. }
    assert (Dr1 : derivable_pt_lim r1 x (r2 x)).
    { unfold r1, r2. apply (derivable_pt_lim_scal (fun x => dot 2 (C 1%nat x) (C 2%nat x))).
      apply (dot_derivable 2 (C 1%nat) (C 2%nat)); intros i Hi.
      - apply (proj2 (HC x 1%nat Hx ltac:(lia))); [lia|exact Hi].
      - apply (proj2 (HC x 2%nat Hx ltac:(lia))); [lia|exact Hi]. }
    pose proof (proj2 (Ho x 0%nat Hx ltac:(lia)) ltac:(lia)) as Do. pose proof (proj2 (Ho x 1%nat Hx ltac:(lia)) ltac:(lia)) as Do1.
    pose proof (proj2 (HC x 1%nat Hx ltac:(lia)) ltac:(lia) j Hj) as Dy. pose proof (proj2 (HC x 2%nat Hx ltac:(lia)) ltac:(lia) j Hj) as Dy1.
    split.
    - exact (first_derivative (o 0%nat) (o 1%nat) (fun x => C 1%nat x j) (fun x => C 2%nat x j) r r1 x Do Dy Dr (Hp x Hx)).
    - exact (second_derivative (o 0%nat) (o 1%nat) (o 2%nat) (fun x => C 1%nat x j) (fun x => C 2%nat x j) (fun x => C 3%nat x j) r r1 r2 x Do Dy Dr (Hp x Hx) Do1 Dy1 Dr1). }
  exists (fun d x i => match i with
    | 0%nat => C d x 0%nat - (match d with 0%nat => H0 | 1%nat => H1 | _ => H2 end) 1%nat x
    | 1%nat => C d x 1%nat + (match d with 0%nat => H0 | 1%nat => H1 | _ => H2 end) 0%nat x
    | _ => match d with 0%nat => C 0%nat x i + o 0%nat x * (1 / s x * 0) | _ => 0 end end).
  assert (SP : forall x, a < x < b -> 0 < s x) by (intros x Hx; apply sqrt_lt_R0, Hp, Hx).
  assert (SQ : forall x, a < x < b -> s x * s x = r x) by (intros x Hx; apply sqrt_sqrt; specialize (Hp x Hx); unfold r; lra).
  split.
  - intros x d Hx Hd. pose proof (SP x Hx) as Sx. pose proof (SQ x Hx) as Qx. pose proof (Hp x Hx) as Px. fold (r x) in Px.
    assert (D1 : dot 2 (pscal (nofnat 2) (C 1%nat x)) (C 2%nat x) = r1 x) by (unfold r1, pscal; cbn [dot nofnat]; nsimp; ring).
    split.
    + destruct d as [|[|[|d]]]; [| | |lia]; cbn [offset2].
      * destruct (HC x 0%nat Hx ltac:(lia)) as (E0 & _). destruct (HC x 1%nat Hx ltac:(lia)) as (E1 & _). destruct (Ho x 0%nat Hx ltac:(lia)) as (F0 & _).
        rewrite E0. cbn [bind]. unfold normal_direction2. rewrite E1. cbn [bind].
        set (n := fun i : nat => match i with 0%nat => nopp (C 1%nat x 1%nat) | 1%nat => C 1%nat x 0%nat | _ => n0 end).
        assert (En : norm sqrt 2 n = s x) by (rewrite (norm_R eps); unfold s, r; f_equal; unfold n; cbn [sqlen]; nsimp; ring).
        rewrite En, (pdiv_ok eps) by lra. cbn [bind]. rewrite F0. cbn [bind]. apply (f_equal (@Ok (pt R))). apply FunctionalExtensionality.functional_extensionality.
        intros [|[|i]]; unfold padd, pscal, n, H0; nsimp; [field; lra|field; lra|reflexivity].
      * destruct (HC x 1%nat Hx ltac:(lia)) as (E1 & _). destruct (HC x 2%nat Hx ltac:(lia)) as (E2 & _).
        destruct (Ho x 0%nat Hx ltac:(lia)) as (F0 & _). destruct (Ho x 1%nat Hx ltac:(lia)) as (F1 & _).
        rewrite E1, E2. cbn [bind]. rewrite F0, F1. cbn [bind]. rewrite (sq_norm_R eps). fold (r x). fold (s x). rewrite D1. cbn [nofnat]. nsimp.
        rewrite !(divc_ok eps) by (first [lra|apply Rmult_integral_contrapositive; lra]). cbn [bind]. apply (f_equal (@Ok (pt R))). apply FunctionalExtensionality.functional_extensionality.
        intros [|[|i]]; unfold H1; nsimp; [field; lra|field; lra|reflexivity].
      * destruct (HC x 1%nat Hx ltac:(lia)) as (E1 & _). destruct (HC x 2%nat Hx ltac:(lia)) as (E2 & _). destruct (HC x 3%nat Hx ltac:(lia)) as (E3 & _).
        destruct (Ho x 0%nat Hx ltac:(lia)) as (F0 & _). destruct (Ho x 1%nat Hx ltac:(lia)) as (F1 & _). destruct (Ho x 2%nat Hx ltac:(lia)) as (F2 & _).
        rewrite E1, E2, E3. cbn [bind]. rewrite F0, F1, F2. cbn [bind]. rewrite (sq_norm_R eps). fold (r x). fold (s x). rewrite D1.
        assert (D2 : nmul (nofnat 2) (nadd (dot 2 (C 2%nat x) (C 2%nat x)) (dot 2 (C 1%nat x) (C 3%nat x))) = r2 x) by (unfold r2; cbn [nofnat]; nsimp; ring).
        rewrite D2. cbn [nofnat]. nsimp.
        rewrite !(divc_ok eps) by lra. cbn [bind]. rewrite !(divc_ok eps) by lra. cbn [bind]. rewrite !(divc_ok eps) by lra. cbn [bind].
        apply (f_equal (@Ok (pt R))). apply FunctionalExtensionality.functional_extensionality.
        intros [|[|i]]; unfold H2; nsimp; [field; lra|field; lra|reflexivity].
    + intros Hd2 i Hi. destruct (DH x 0%nat Hx ltac:(lia)) as (A0 & A1). destruct (DH x 1%nat Hx ltac:(lia)) as (B0 & B1).
      destruct i as [|[|i]]; [| |lia]; destruct d as [|[|d]]; try lia.
      * apply (derivable_pt_lim_minus (fun x => C 0%nat x 0%nat) (H0 1%nat)); [apply (proj2 (HC x 0%nat Hx ltac:(lia))); lia|exact B0].
      * apply (derivable_pt_lim_minus (fun x => C 1%nat x 0%nat) (H1 1%nat)); [apply (proj2 (HC x 1%nat Hx ltac:(lia))); lia|exact B1].
      * apply (derivable_pt_lim_plus (fun x => C 0%nat x 1%nat) (H0 0%nat)); [apply (proj2 (HC x 0%nat Hx ltac:(lia))); lia|exact A0].
      * apply (derivable_pt_lim_plus (fun x => C 1%nat x 1%nat) (H1 0%nat)); [apply (proj2 (HC x 1%nat Hx ltac:(lia))); lia|exact A1].
  - intros x Hx. pose proof (SP x Hx) as Sx. pose proof (SQ x Hx) as Qx. cbn beta iota zeta. unfold H0. fold (r x). fold (s x).
    assert (Er : s x * s x = C 1%nat x 0%nat ^ 2 + C 1%nat x 1%nat ^ 2) by (rewrite Qx; unfold r; cbn [sqlen]; ring).
    split; [field; lra|]. split.
    + cbn [sqlen]. transitivity (o 0%nat x ^ 2 * (C 1%nat x 0%nat ^ 2 + C 1%nat x 1%nat ^ 2) / (s x * s x)); [field; lra|]. rewrite <- Er. field. lra.
    + transitivity (o 0%nat x * (C 1%nat x 0%nat ^ 2 + C 1%nat x 1%nat ^ 2) / s x); [field; lra|]. rewrite <- Er. field. lra.
Qed.
Lemma plane_throws (g : gcurve R) off u d : (3 <= d)%nat -> offset2 sqrt g off u d = Throw RuntimeError.
Proof. intros H. destruct d as [|[|[|d]]]; try lia. reflexivity. Qed.

(** ** In space *)
Lemma adim_ok dim (v : pt R) : 0 < sqlen dim v -> adim sqrt dim v = Ok (fun i => v i / sqrt (sqlen dim v)).
Proof.
  intros H. unfold adim. rewrite (norm_R eps). assert (0 < sqrt (sqlen dim v)) by (apply sqrt_lt_R0; exact H).
  destruct (neqb (sqrt (sqlen dim v)) n0) eqn:E; [apply (neqb_true eps) in E; nsimp; lra|]. reflexivity.
Qed.
Lemma adim_zero dim (v : pt R) : sqlen dim v = 0 -> adim sqrt dim v = Undef DivByZero.
Proof. intros H. unfold adim. rewrite (norm_R eps), H, sqrt_0. replace (neqb 0 n0) with true; [reflexivity|]. symmetry. apply (neqb_true eps). reflexivity. Qed.
Lemma cross_scaled (p q : pt R) x y i : cross (fun i => p i / x) (fun i => q i / y) i = (/ x * / y) * cross p q i.
Proof. destruct i as [|[|[|i]]]; cbn [cross]; nsimp; unfold Rdiv; ring. Qed.
Lemma cross_parts (p q : pt R) : 0 < sqlen 3 (cross p q) -> 0 < sqlen 3 p /\ 0 < sqlen 3 q.
Proof.
  intros H. split.
  - pose proof (sqlen_nonneg 3 p) as N. destruct (Req_dec (sqlen 3 p) 0) as [Z|]; [|lra]. exfalso. pose proof (sqlen_zero 3 p Z) as Zt.
    assert (sqlen 3 (cross p q) = 0); [|lra]. cbn [sqlen cross]. nsimp. rewrite !(Zt 0%nat), !(Zt 1%nat), !(Zt 2%nat) by lia. ring.
  - pose proof (sqlen_nonneg 3 q) as N. destruct (Req_dec (sqlen 3 q) 0) as [Z|]; [|lra]. exfalso. pose proof (sqlen_zero 3 q Z) as Zt.
    assert (sqlen 3 (cross p q) = 0); [|lra]. cbn [sqlen cross]. nsimp. rewrite !(Zt 0%nat), !(Zt 1%nat), !(Zt 2%nat) by lia. ring.
Qed.

Lemma space_ok (g : gcurve R) off (dir p t : pt R) u o : g_value g u 0 = Ok p -> g_value g u 1 = Ok t -> off u 0%nat = Ok o ->
  0 < sqlen 3 (cross dir t) ->
  exists q k, offset3 sqrt g off dir u 0 = Ok q /\ 0 < k /\ k ^ 2 * sqlen 3 (cross dir t) = 1 /\ forall i, q i = p i + o * (k * cross dir t i).
Proof.
  intros E0 E1 Eo Hc. destruct (cross_parts dir t Hc) as (Hd & Ht). unfold offset3. rewrite (adim_ok 3 dir Hd). cbn [bind]. rewrite E0, E1. cbn [bind].
  rewrite (adim_ok 3 t Ht). cbn [bind].
  assert (Sd : 0 < sqrt (sqlen 3 dir)) by (apply sqrt_lt_R0; exact Hd). assert (St : 0 < sqrt (sqlen 3 t)) by (apply sqrt_lt_R0; exact Ht).
  set (x := sqrt (sqlen 3 dir)) in *. set (y := sqrt (sqlen 3 t)) in *. set (c := cross dir t) in *.
  set (c' := cross _ _). set (l := / x * / y). assert (Pl : 0 < l) by (apply Rmult_lt_0_compat; apply Rinv_0_lt_compat; assumption).
  assert (Ec : forall i, c' i = l * c i) by (intros i; apply cross_scaled).
  assert (El : sqlen 3 c' = l ^ 2 * sqlen 3 c) by (rewrite <- sqlen_scal; apply sqlen_ext; intros i _; apply Ec).
  assert (Hc' : 0 < sqlen 3 c') by (rewrite El; apply Rmult_lt_0_compat; [apply pow_lt; exact Pl|exact Hc]).
  rewrite (adim_ok 3 c' Hc'). cbn [bind]. rewrite Eo. cbn [bind]. assert (Sc : 0 < sqrt (sqlen 3 c)) by (apply sqrt_lt_R0; exact Hc).
  assert (Es : sqrt (sqlen 3 c') = l * sqrt (sqlen 3 c)).
  { rewrite El, sqrt_mult by (try apply pow2_ge_0; lra). f_equal. rewrite <- Rsqr_pow2. apply sqrt_Rsqr. lra. }
  eexists. exists (/ sqrt (sqlen 3 c)). split; [reflexivity|]. split; [apply Rinv_0_lt_compat; exact Sc|]. split.
  - rewrite <- (sqrt_sqrt (sqlen 3 c)) at 2 by lra. field. lra.
  - intros i. unfold padd, pscal. nsimp. rewrite Es, Ec. field. lra.
Qed.

Lemma space_undefined (g : gcurve R) off (dir t c : pt R) u o : g_value g u 1 = Ok t -> g_value g u 2 = Ok c -> off u 0%nat = Ok o ->
  0 < sqlen 3 dir -> 0 < sqlen 3 t -> o = 0 \/ sqlen 3 (cross t c) = 0 -> offset3 sqrt g off dir u 1 = Undef DivByZero.
Proof.
  intros E1 E2 Eo Hd Ht Hz. unfold offset3. rewrite (adim_ok 3 dir Hd). cbn [bind]. rewrite E1, E2. cbn [bind]. rewrite Eo. cbn [bind].
  rewrite (norm_R eps). assert (St : 0 < sqrt (sqlen 3 t)) by (apply sqrt_lt_R0; exact Ht).
  rewrite (pdiv_ok eps) by (nsimp; repeat apply Rmult_integral_contrapositive_currified; lra). cbn [bind]. rewrite adim_zero; [reflexivity|].
  unfold pscal. nsimp. destruct Hz as [-> | Hz].
  - rewrite sqlen_scal. ring.
  - rewrite sqlen_scal, sqlen_scal, Hz. ring.
Qed.

Lemma circle_refuted o : o <> 0 -> exists P0 P1 : R -> pt R,
  (forall x, offset3 sqrt circle3 (constant o) (point3 0 0 1) x 0 = Ok (P0 x) /\ offset3 sqrt circle3 (constant o) (point3 0 0 1) x 1 = Ok (P1 x)) /\
  ~ derivable_pt_lim (fun x => P0 x 1%nat) 0 (P1 0 1%nat).
Proof.
  intros Ho.
  assert (H0 : forall x, exists q, offset3 sqrt circle3 (constant o) (point3 0 0 1) x 0 = Ok q /\ q 1%nat = (1 - o) * sin x).
  { intros x. destruct (space_ok circle3 (constant o) (point3 0 0 1) (point3 (cos x) (sin x) 0) (point3 (- sin x) (cos x) 0) x o eq_refl eq_refl eq_refl) as (q & k & E & Hk & Ek & Hq).
    - pose proof (sin2_cos2 x) as H. unfold Rsqr in H. cbn. nra.
    - exists q. split; [exact E|]. rewrite Hq. cbn in *. assert (k = 1); [|subst k; ring].
      pose proof (sin2_cos2 x) as H. unfold Rsqr in H. nra. }
  assert (H1 : forall x, offset3 sqrt circle3 (constant o) (point3 0 0 1) x 1 = Ok (fun i => point3 (- sin x) (cos x) 0 i + 0 * ((point3 0 0 o i) / sqrt (sqlen 3 (point3 0 0 o))))).
  { intros x. pose proof (sin2_cos2 x) as H. unfold Rsqr in H. unfold offset3. rewrite adim_ok by (cbn; lra). cbn [bind g_value circle3 constant].
    rewrite (norm_R eps). replace (sqlen 3 (point3 (- sin x) (cos x) 0)) with 1 by (cbn; nra). rewrite sqrt_1. nsimp.
    rewrite (pdiv_ok eps) by lra. cbn [bind].
    replace (pscal o (fun i => 1 / (1 * 1 * 1) * cross (point3 (- sin x) (cos x) 0) (point3 (- cos x) (- sin x) 0) i)) with (point3 0 0 o).
    - rewrite adim_ok by (cbn; nra). reflexivity.
    - apply FunctionalExtensionality.functional_extensionality. intros [|[|[|i]]]; unfold pscal; cbn; nsimp; [field|field| |field].
      replace (- sin x * - sin x - cos x * - cos x) with 1 by nra. field. }
  assert (Hch : exists P0 : R -> pt R, forall x, offset3 sqrt circle3 (constant o) (point3 0 0 1) x 0 = Ok (P0 x)).
  { exists (fun x => match offset3 sqrt circle3 (constant o) (point3 0 0 1) x 0 with Ok q => q | _ => fun _ => 0 end). intros x. destruct (H0 x) as (q & -> & _). reflexivity. }
  destruct Hch as (P0 & HP0). exists P0. eexists. split; [intros x; split; [apply HP0|apply H1]|].
  intros D. assert (D' : derivable_pt_lim (fun x => P0 x 1%nat) 0 ((1 - o) * cos 0)).
  { apply (derivable_pt_lim_ext (fun x => (1 - o) * sin x)); [|apply (derivable_pt_lim_scal sin), derivable_pt_lim_sin].
    intros x. destruct (H0 x) as (q & E & Hq). rewrite HP0 in E. injection E as ->. symmetry. exact Hq. }
  pose proof (uniqueness_limite _ _ _ _ D D') as U. cbn in U. rewrite cos_0 in U. lra.
Qed.

(** ** Surfaces *)
Lemma offset_point_ok f_ep (srf : gsurf R) u v p tu tv e : srf u v 0%nat 0%nat = Ok p -> srf u v 1%nat 0%nat = Ok tu -> srf u v 0%nat 1%nat = Ok tv -> f_ep u v = Ok e ->
  0 < sqlen 3 (cross tu tv) ->
  exists q k, offset_point sqrt f_ep srf (u, v) = Ok q /\ 0 < k /\ k ^ 2 * sqlen 3 (cross tu tv) = 1 /\ forall i, q i = p i + e * (k * cross tu tv i).
Proof.
  intros E0 E1 E2 E3 Hc. unfold offset_point. rewrite E0, E1, E2. cbn [bind]. rewrite (norm_R eps).
  assert (Sc : 0 < sqrt (sqlen 3 (cross tu tv))) by (apply sqrt_lt_R0; exact Hc). rewrite (pdiv_ok eps) by lra. cbn [bind]. rewrite E3. cbn [bind].
  eexists. exists (/ sqrt (sqlen 3 (cross tu tv))). split; [reflexivity|]. split; [apply Rinv_0_lt_compat; exact Sc|]. split.
  - rewrite <- (sqrt_sqrt (sqlen 3 (cross tu tv))) at 2 by lra. field. lra.
  - intros i. unfold padd, pscal. nsimp. field. lra.
Qed.
Lemma offset_point_inv f_ep (srf : gsurf R) u v q : offset_point sqrt f_ep srf (u, v) = Ok q ->
  exists p tu tv e, srf u v 0%nat 0%nat = Ok p /\ srf u v 1%nat 0%nat = Ok tu /\ srf u v 0%nat 1%nat = Ok tv /\ f_ep u v = Ok e /\ 0 < sqlen 3 (cross tu tv).
Proof.
  unfold offset_point. intros H. apply bind_inv in H as (p & E0 & H). apply bind_inv in H as (tu & E1 & H). apply bind_inv in H as (tv & E2 & H).
  apply bind_inv in H as (n & En & H). apply bind_inv in H as (e & E3 & H). exists p, tu, tv, e. repeat (split; [assumption|]).
  pose proof (sqlen_nonneg 3 (cross tu tv)) as N. destruct (Req_dec (sqlen 3 (cross tu tv)) 0) as [Z|]; [|lra]. exfalso.
  unfold pdiv, divc in En. rewrite (norm_R eps), Z, sqrt_0 in En. replace (neqb 0 n0) with true in En; [discriminate|]. symmetry. apply (neqb_true eps). reflexivity.
Qed.

Lemma grid_nth (u v : list R) i j a b : nth_error u i = Some a -> nth_error v j = Some b ->
  nth_error (flat_map (fun v_ => map (fun u_ => (u_, v_)) u) v) (j * length u + i) = Some (a, b).
Proof.
  intros Hi Hj. assert (Li : (i < length u)%nat) by (apply nth_error_Some; rewrite Hi; discriminate). revert j Hj.
  induction v as [|c v IH]; intros j Hj; [destruct j; discriminate|]. cbn [flat_map]. destruct j as [|j].
  - injection Hj as ->. rewrite nth_error_app1 by (rewrite map_length; cbn; lia). cbn [Nat.mul Nat.add]. apply (map_nth_error (fun u_ => (u_, b))). exact Hi.
  - rewrite nth_error_app2 by (rewrite map_length; cbn [Nat.mul]; lia). rewrite map_length.
    replace (S j * length u + i - length u)%nat with (j * length u + i)%nat by (cbn [Nat.mul]; lia). apply IH. exact Hj.
Qed.
Lemma grid_length (u v : list R) : length (flat_map (fun v_ => map (fun u_ => (u_, v_)) u) v) = (length u * length v)%nat.
Proof. induction v as [|c v IH]; cbn [flat_map length]; [lia|]. rewrite app_length, map_length, IH. lia. Qed.

Lemma offset_points_ok f_ep (srf : gsurf R) u v l : offset_points sqrt f_ep srf u v = Ok l ->
  length l = (length u * length v)%nat /\
  forall i j a b, nth_error u i = Some a -> nth_error v j = Some b ->
  exists q p tu tv e k, nth_error l (j * length u + i) = Some q /\
    srf a b 0%nat 0%nat = Ok p /\ srf a b 1%nat 0%nat = Ok tu /\ srf a b 0%nat 1%nat = Ok tv /\ f_ep a b = Ok e /\
    0 < k /\ k ^ 2 * sqlen 3 (cross tu tv) = 1 /\ forall c, q c = p c + e * (k * cross tu tv c).
Proof.
  unfold offset_points. intros H. apply mapM_get in H as (L & H). rewrite grid_length in L. split; [exact L|].
  intros i j a b Hi Hj. destruct (H _ _ (grid_nth u v i j a b Hi Hj)) as (q & Hq & Eq).
  destruct (offset_point_inv f_ep srf a b q Eq) as (p & tu & tv & e & E0 & E1 & E2 & E3 & Hc).
  destruct (offset_point_ok f_ep srf a b p tu tv e E0 E1 E2 E3 Hc) as (q' & k & Eq' & Hk & Ek & Hv). rewrite Eq in Eq'. injection Eq' as <-.
  exists q, p, tu, tv, e, k. auto 10.
Qed.
Lemma offset_points_returns f_ep (srf : gsurf R) u v :
  (forall a b, In a u -> In b v -> exists p tu tv e, srf a b 0%nat 0%nat = Ok p /\ srf a b 1%nat 0%nat = Ok tu /\ srf a b 0%nat 1%nat = Ok tv /\ f_ep a b = Ok e /\
     0 < sqlen 3 (cross tu tv)) -> exists l, offset_points sqrt f_ep srf u v = Ok l.
Proof.
  intros H. unfold offset_points.
  assert (G : forall l : list (R * R), (forall x, In x l -> exists q, offset_point sqrt f_ep srf x = Ok q) -> exists qs, mapM (offset_point sqrt f_ep srf) l = Ok qs).
  { intros l. induction l as [|x l IH]; intros Hl; [exists []; reflexivity|]. cbn [mapM]. destruct (Hl x (or_introl eq_refl)) as (q & ->). cbn [bind].
    destruct IH as (qs & ->); [intros y Hy; apply Hl; right; exact Hy|]. cbn [bind]. eexists. reflexivity. }
  apply G. intros (a, b) Hx. apply in_flat_map in Hx as (b' & Hb & Hx). apply in_map_iff in Hx as (a' & Ex & Ha). injection Ex as <- <-.
  destruct (H a' b' Ha Hb) as (p & tu & tv & e & E0 & E1 & E2 & E3 & Hc).
  destruct (offset_point_ok f_ep srf a' b' p tu tv e E0 E1 E2 E3 Hc) as (q & k & Eq & _). exists q. exact Eq.
Qed.

Lemma offset_approx_ok ldlt f_ep (s : surf R) n m nu nv r : let p := s_degU s in let q := s_degV s in let ku := s_ku s in let kv := s_kv s in
  exact_solver ldlt -> knots_ok ku n p -> knots_ok kv m q -> evaluable2 eps ku n p kv m q ->
  s_u1 s = kn ku p -> s_u2 s = kn ku n -> s_v1 s = kn kv q -> s_v2 s = kn kv m ->
  s_u1 s < s_u2 s -> s_v1 s < s_v2 s ->
  offset_approx sqrt ldlt f_ep s nu nv = Ok r ->
  s_degU r = p /\ s_degV r = q /\ s_ku r = ku /\ s_kv r = kv /\ length (s_poles r) = (n * m)%nat /\
  let u := fun i => spread (s_u1 s) (s_u2 s) nu i in let v := fun j => spread (s_v1 s) (s_v2 s) nv j in
  exists pts, offset_points sqrt f_ep (surf_value s) (map u (seq 0 nu)) (map v (seq 0 nv)) = Ok pts /\
  forall c P', (c < 3)%nat -> length P' = (n * m)%nat -> exists e e' : nat -> nat -> R,
    (forall i j, (i < nu)%nat -> (j < nv)%nat ->
       gap eps ku kv (s_poles r) p q (u i) (v j) 0 0 (nth (i + nu * j) pts (fun _ => 0)) c (e i j) /\
       gap eps ku kv P' p q (u i) (v j) 0 0 (nth (i + nu * j) pts (fun _ => 0)) c (e' i j)) /\
    sumn nv (fun j => sumn nu (fun i => e i j ^ 2)) <= sumn nv (fun j => sumn nu (fun i => e' i j ^ 2)).
Proof.
  intros p q ku kv Hs Hku Hkv Hev U1 U2 V1 V2 Hu Hv H. unfold offset_approx in H.
  apply bind_inv in H as (ul & Eu & H). apply bind_inv in H as (vl & Ev & H). apply bind_inv in H as (pts & Ep & H). apply bind_inv in H as (P & EP & H).
  assert (Nu : (2 <= nu)%nat) by (destruct (le_lt_dec 2 nu); [assumption|]; rewrite (proj1 (range_spec eps _ _ nu)) in Eu by assumption; discriminate).
  assert (Nv : (2 <= nv)%nat) by (destruct (le_lt_dec 2 nv); [assumption|]; rewrite (proj1 (range_spec eps _ _ nv)) in Ev by assumption; discriminate).
  assert (R1 : forall a b k l, (2 <= k)%nat -> make_range a b k = Ok l -> l = map (spread a b k) (seq 0 k)).
  { intros a b k l Hk El. destruct (range_spread eps a b k Hk) as (l' & El' & Ll & Kl). rewrite El in El'. injection El' as <-.
    apply (nth_ext _ _ 0 (spread a b k 0)); [rewrite map_length, seq_length; exact Ll|]. intros i Hi. rewrite (map_nth (spread a b k)), seq_nth by lia. apply Kl. lia. }
  apply R1 in Eu; [|exact Nu]. apply R1 in Ev; [|exact Nv]. subst ul vl.
  assert (Hin : forall a b k x, (2 <= k)%nat -> a < b -> In x (map (spread a b k) (seq 0 k)) -> a <= x <= b).
  { intros a b k x Hk Hab Hx. apply in_map_iff in Hx as (i & <- & Hi). apply in_seq in Hi. apply Proof_Analysis2.spread_in; auto. lia. }
  assert (Iu : forall x, In x (map (spread (s_u1 s) (s_u2 s) nu) (seq 0 nu)) -> kn ku p <= x <= kn ku n) by (intros x Hx; rewrite <- U1, <- U2; apply (Hin _ _ nu); auto).
  assert (Iv : forall x, In x (map (spread (s_v1 s) (s_v2 s) nv) (seq 0 nv)) -> kn kv q <= x <= kn kv m) by (intros x Hx; rewrite <- V1, <- V2; apply (Hin _ _ nv); auto).
  destruct (approx_grid_ok eps ku kv n m p q Hku Hkv Hev ldlt 3 pts _ _ P Hs Iu Iv EP) as (LP & _ & HP).
  assert (F : r = mks p q P ku kv (s_u1 r) (s_u2 r) (s_v1 r) (s_v2 r)).
  { unfold mk_surf in H. repeat (apply bind_inv in H as (? & _ & H)). destruct (_ =? _)%Z; [|discriminate].
    repeat (apply bind_inv in H as (? & _ & H)). destruct x3; [|discriminate]. apply bind_inv in H as (? & _ & H). destruct x3; [|discriminate]. injection H as <-. reflexivity. }
  rewrite F. cbn [s_degU s_degV s_ku s_kv s_poles]. do 5 (split; [first [reflexivity|exact LP]|]). exists pts. split; [exact Ep|].
  intros c P' Hc LP'. destruct (HP c P' Hc LP') as (e & e' & G & S). rewrite !map_length, !seq_length in *. exists e, e'. split; [|exact S].
  intros i j Hi Hj. specialize (G i j Hi Hj).
  rewrite !(nth_indep _ 0 (spread (s_u1 s) (s_u2 s) nu 0)) in G by (rewrite map_length, seq_length; exact Hi).
  rewrite !(map_nth (spread (s_u1 s) (s_u2 s) nu)) in G. rewrite !seq_nth in G by exact Hi.
  rewrite !(nth_indep _ 0 (spread (s_v1 s) (s_v2 s) nv 0)) in G by (rewrite map_length, seq_length; exact Hj).
  rewrite !(map_nth (spread (s_v1 s) (s_v2 s) nv)) in G. rewrite !seq_nth in G by exact Hj. exact G.
Qed.
End AtR.
