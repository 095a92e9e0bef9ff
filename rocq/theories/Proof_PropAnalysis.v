(** Hypotheses of C84-C86 are met: concrete curves. *)
From Coq Require Import List Arith Reals Lia Lra.
From Verif Require Import Model_Base Model_Curve Model_Vec Model_Wrap Model_Interp Model_Analysis
  Spec_Base Spec_Basis Spec_Build Spec_Interp Spec_Elevate Spec_Knots Spec_Solve Spec_Unify Spec_Analysis
  Proof_Base Proof_Build Proof_Gauss Proof_Elevate6 Proof_PropUnify Proof_Analysis4.
Import ListNotations.
Local Open Scope R_scope.

Lemma lit_sampling : (forall u, 0 <= u <= 1 -> exists p, g_value parabola u 0 = Ok p) /\
  filter (inside 0 1) [0; 1 / 3; 1; 2] = [1 / 3] /\
  straight 2 (fun u => g_value (plot (fun x => 3 * x + 1)) u 0) /\ ~ straight 2 (fun u => g_value parabola u 0).
Proof.
  split; [intros; eexists; reflexivity|]. split.
  { cbn [filter]. unfold inside. repeat (destruct (Rlt_dec _ _); try lra). reflexivity. }
  split.
  - exists (point2 0 1), (point2 1 3). intros u p E. injection E as <-. exists u. intros [|[|i]] Hi; cbn; lra || lia.
  - intros (o & d & H). destruct (H 0 _ eq_refl) as (t0 & H0). destruct (H 1 _ eq_refl) as (t1 & H1). destruct (H 2 _ eq_refl) as (t2 & H2).
    pose proof (H0 0%nat ltac:(lia)) as A0. pose proof (H0 1%nat ltac:(lia)) as B0. pose proof (H1 0%nat ltac:(lia)) as A1. pose proof (H1 1%nat ltac:(lia)) as B1.
    pose proof (H2 0%nat ltac:(lia)) as A2. pose proof (H2 1%nat ltac:(lia)) as B2. cbn in *.
    assert (D1 : (t1 - t0) * d 0%nat = 1) by lra. assert (D2 : (t2 - t0) * d 0%nat = 2) by lra.
    assert (E1 : (t1 - t0) * d 1%nat = 1) by lra. assert (E2 : (t2 - t0) * d 1%nat = 4) by lra.
    assert (Q : ((t1 - t0) * d 0%nat) * ((t2 - t0) * d 1%nat) = ((t1 - t0) * d 1%nat) * ((t2 - t0) * d 0%nat)) by ring.
    rewrite D1, D2, E1, E2 in Q. lra.
Qed.

Lemma lit_bspline : clamped_object (1 / 10) lit_curve /\ (c_deg lit_curve <= 24)%nat /\
  clamped_knots (1 / 10) (c_deg lit_curve) [0; 1; 2] [3; 1; 3]%nat /\ c_knots lit_curve = repeat_each [0; 1; 2] [3; 1; 3]%nat.
Proof. split; [exact lit_curve_object|]. split; [simpl; lia|]. split; [exact lit_k1|reflexivity]. Qed.

Lemma lit_directions u : exists t c : pt R, g_value parabola u 1 = Ok t /\ g_value parabola u 2 = Ok c /\ 0 < sqlen 2 t /\
  0 < sqlen 3 (@cross R (NumR 0) t c) /\ t 2%nat = 0 /\ c 2%nat = 0 /\ t 0%nat * c 1%nat - t 1%nat * c 0%nat = 2.
Proof.
  exists (point2 1 (2 * u)), (point2 0 2). split; [reflexivity|]. split; [reflexivity|]. cbn.
  assert (0 <= u * u) by (pose proof (Rle_0_sqr u); unfold Rsqr in *; lra). split; [nra|]. split; [nra|]. split; [reflexivity|]. split; [reflexivity|]. ring.
Qed.

Lemma root1 (x : R) : 0 <= x -> sqrt (sqlen 1 (fun _ => x)) = x.
Proof. intros H. cbn [sqlen]. replace (0 + x ^ 2) with (x * x) by ring. apply sqrt_square. exact H. Qed.

Lemma lit_lengths : let C1 := (fun x (_ : nat) => 2 * x : R) in
  (forall x, 1 <= x <= 2 -> g_value (power 2) x 1 = Ok (C1 x) /\ g_value (power 2) x 2 = Ok (fun _ => 2) /\ 0 < sqlen 1 (C1 x)) /\
  (forall x i, 1 < x < 2 -> (i < 1)%nat -> derivable_pt_lim (fun x => C1 x i) x 2) /\
  integrates trapezium (fun x => sqrt (sqlen 1 (C1 x))) 1 2.
Proof.
  intros C1. split; [|split].
  - intros x Hx. unfold power, C1. cbn [g_value Nat.sub]. repeat split.
    + f_equal. apply FunctionalExtensionality.functional_extensionality. intros _. simpl. ring.
    + f_equal. apply FunctionalExtensionality.functional_extensionality. intros _. simpl. ring.
    + cbn [sqlen]. nra.
  - intros x i _ _. unfold C1. assert (H : derivable_pt_lim (fun x => 2 * x) x (2 * 1)) by (apply (derivable_pt_lim_scal id); apply derivable_pt_lim_id). rewrite Rmult_1_r in H. exact H.
  - intros f Hf. exists (fun x => x ^ 2 - 1). split; [ring|]. intros x Hx. split.
    + unfold trapezium. rewrite (Hf 1), (Hf x) by lra. cbn [bind]. unfold C1. rewrite !root1 by lra. f_equal. field.
    + intros _. unfold C1. rewrite root1 by lra. replace (2 * x) with (INR 2 * x ^ (pred 2) - 0) by (simpl; ring).
      apply (derivable_pt_lim_minus (fun x => x ^ 2) (fun _ => 1)); [apply derivable_pt_lim_pow|apply derivable_pt_lim_const].
Qed.

Lemma lit_measures : measures (fun a b => @length_ R (NumR 0) sqrt 1 trapezium (power 2) a b 0) (fun a b => b ^ 2 - a ^ 2) 1 2.
Proof.
  repeat split.
  - intros a b H1 H2 H3. cbn [length_]. unfold trapezium, power. cbn [g_value bind]. rewrite !(norm_R 0).
    rewrite !root1 by (simpl; lra). f_equal. simpl. field.
  - intros a b H1 H2 H3. nra.
  - intros. ring.
Qed.

Lemma lit_uneven : let len := fun a b => @length_ R (NumR 0) sqrt 1 trapezium (power 3) a b 0 in let L := fun a b => 3 * (a ^ 2 + b ^ 2) / 2 * (b - a) in
  (forall a b, 0 <= a -> a <= b -> b <= 1 -> len a b = Ok (L a b)) /\ (forall a b, 0 <= a -> a < b -> b <= 1 -> 0 < L a b) /\
  let a := spread 0 1 2 0 in let b := spread 0 1 2 1 in
  1 / 5 < Rabs (L a ((a + b) / 2) + L ((a + b) / 2) b - L a b) / L a b.
Proof.
  intros len L. split; [|split].
  - intros a b H1 H2 H3. unfold len. cbn [length_]. unfold trapezium, power. cbn [g_value bind]. rewrite !(norm_R 0).
    assert (0 <= a * a) by nra. assert (0 <= b * b) by nra. rewrite !root1 by (simpl; nra). unfold L. f_equal. simpl. field.
  - intros a b H1 H2 H3. unfold L. assert (0 <= a ^ 2) by nra. assert (0 < b ^ 2) by nra. apply Rmult_lt_0_compat; lra.
  - cbv zeta. replace (spread 0 1 2 0) with 0 by (unfold spread; simpl; field). replace (spread 0 1 2 1) with 1 by (unfold spread; simpl; field).
    unfold L. replace (_ + _ - _) with (- (3 / 8)) by field. rewrite Rabs_Ropp, Rabs_right by lra. lra.
Qed.
Lemma lit_solver : complete_solver gauss.
Proof. exact gauss_complete. Qed.
