(** Literal cases behind Prop_Gordon.v. *)
From Coq Require Import List Arith ZArith Reals Lia Lra.
From Verif Require Import Model_Base Spec_Base Spec_Basis Spec_Knots Spec_Eval Spec_Surface Spec_Elevate Spec_Unify Spec_Interp Spec_Solve Spec_Gordon
  Model_Curve Model_Knots Model_Surface Model_Interp Model_Unify Model_Math Model_Gordon Proof_Base Proof_Basis Proof_Eval Proof_Curve Proof_PropBasis Proof_Builders Proof_SurfEdit2 Proof_Gauss Proof_Elevate6 Proof_PropUnify
  Proof_PropSkin Proof_Gordon8.
Import ListNotations.
Local Open Scope R_scope.

(** Two surfaces of degrees 2 and 1 on [0,2]x[0,1] and [0,4]x[0,2]. *)
Definition lit_s0 : @sinfo R :=
  ([[pt2 0 0; pt2 1 2; pt2 3 0; pt2 4 1]; [pt2 0 5; pt2 1 6; pt2 3 7; pt2 4 8]],
   [0; 0; 0; 1; 2; 2; 2], [0; 0; 1; 1], 2%nat, 1%nat).
Definition lit_s1 : @sinfo R :=
  ([[pt2 0 0; pt2 1 1; pt2 2 5; pt2 3 3]; [pt2 0 1; pt2 1 3; pt2 2 6; pt2 3 4]; [pt2 0 2; pt2 1 4; pt2 2 8; pt2 3 9]],
   [0; 0; 0; 3; 4; 4; 4], [0; 0; 1; 2; 2], 2%nat, 1%nat).

Lemma lit_ss : 0 < 1 / 10 /\ Forall (clamped_sinfo (1 / 10) 2 1) [lit_s0; lit_s1] /\
  knots_apart (1 / 10) (u_knots lit_s0) (map u_info [lit_s0; lit_s1]) /\
  knots_apart (1 / 10) (v_knots lit_s0) (map v_info [lit_s0; lit_s1]).
Proof.
  split; [lra|]. split.
  { constructor; [|constructor; [|constructor]]; (split; [reflexivity|]); (split; [reflexivity|]).
    - exists [0; 1; 2], [3; 1; 3]%nat, [0; 1], [2; 2]%nat. split; [exact lit_k1|]. split; [reflexivity|]. split.
      { split; [reflexivity|]. split; [simpl; lia|]. split; [intros i Hi; cbn in Hi; destruct i as [|i]; unfold kn; cbn; try lra; lia|].
        split; [reflexivity|]. split; [reflexivity|]. intros i Hi. simpl in Hi. lia. }
      split; [reflexivity|]. split; [reflexivity|]. intros r [<-|[<-|[]]]; reflexivity.
    - destruct lit_curve2_ok as ((_ & U & M & CK & EK & _) & _). exists [0; 3; 4], [3; 1; 3]%nat, [0; 1; 2], [2; 1; 2]%nat.
      split.
      { split; [reflexivity|]. split; [simpl; lia|]. split; [intros i Hi; cbn in Hi; destruct i as [|[|i]]; unfold kn; cbn; try lra; lia|].
        split; [reflexivity|]. split; [reflexivity|]. intros i Hi. simpl in Hi. assert (i = 1%nat) as -> by lia. simpl. lia. }
      split; [reflexivity|]. split.
      { split; [reflexivity|]. split; [simpl; lia|]. split; [intros i Hi; cbn in Hi; destruct i as [|[|i]]; unfold kn; cbn; try lra; lia|].
        split; [reflexivity|]. split; [reflexivity|]. intros i Hi. simpl in Hi. assert (i = 1%nat) as -> by lia. simpl. lia. }
      split; [reflexivity|]. split; [reflexivity|]. intros r [<-|[<-|[<-|[]]]]; reflexivity. }
  split.
  - assert (H : forall c x, In c (map u_info [lit_s0; lit_s1]) -> In x (knots_of c) ->
      In (rescale (u_knots lit_s0) (knots_of c) x) [0; 1; 3 / 2; 2]).
    { intros c x [<-|[<-|[]]]; unfold knots_of, u_info, rescale, first_knot, last_knot, kn; cbn;
        intros [<-|[<-|[<-|[<-|[<-|[<-|[<-|[]]]]]]]]; simpl;
        first [left; field|right; left; field|right; right; left; field|right; right; right; left; field]. }
    intros c c' x y Hc Hc' Hx Hy. pose proof (H c x Hc Hx) as A. pose proof (H c' y Hc' Hy) as B.
    revert A B. generalize (rescale (u_knots lit_s0) (knots_of c) x), (rescale (u_knots lit_s0) (knots_of c') y).
    intros a b A B. simpl in A, B. destruct A as [<-|[<-|[<-|[<-|[]]]]]; destruct B as [<-|[<-|[<-|[<-|[]]]]];
      first [left; lra|right; unfold Rabs; destruct Rcase_abs; lra].
  - assert (H : forall c x, In c (map v_info [lit_s0; lit_s1]) -> In x (knots_of c) ->
      In (rescale (v_knots lit_s0) (knots_of c) x) [0; 1 / 2; 1]).
    { intros c x [<-|[<-|[]]]; unfold knots_of, v_info, rescale, first_knot, last_knot, kn; cbn;
        [intros [<-|[<-|[<-|[<-|[]]]]]|intros [<-|[<-|[<-|[<-|[<-|[]]]]]]]; simpl;
        first [left; field|right; left; field|right; right; left; field]. }
    intros c c' x y Hc Hc' Hx Hy. pose proof (H c x Hc Hx) as A. pose proof (H c' y Hc' Hy) as B.
    revert A B. generalize (rescale (v_knots lit_s0) (knots_of c) x), (rescale (v_knots lit_s0) (knots_of c') y).
    intros a b A B. simpl in A, B. destruct A as [<-|[<-|[<-|[]]]]; destruct B as [<-|[<-|[<-|[]]]];
      first [left; lra|right; unfold Rabs; destruct Rcase_abs; lra].
Qed.

(** A parabola and a segment, joined by two segments. *)
Definition lit_u0 : curve R := mk 2 [pt2 0 0; pt2 1 (-1); pt2 2 0] [0; 0; 0; 1; 1; 1] 0 1.
Definition lit_u1 : curve R := mk 1 [pt2 0 2; pt2 2 2] [0; 0; 1; 1] 0 1.
Definition lit_v0 : curve R := mk 1 [pt2 0 0; pt2 0 2] [0; 0; 1; 1] 0 1.
Definition lit_v1 : curve R := mk 1 [pt2 2 0; pt2 2 2] [0; 0; 1; 1] 0 1.
(** The search of crossings on the parabola and on the first segment across. *)
Definition lit_extrema : @extrema_t R := fun c c' =>
  match c_poles c' with
  | P :: _ => Ok ((if Nat.eqb (c_deg c) 2 then P 0%nat else P 1%nat) / 2, 0, 0)
  | [] => Throw InvalidArgument
  end.

Lemma lit_ends (c : curve R) p n : c_deg c = p -> length (c_poles c) = n -> (p <= 24)%nat -> clamped_object (1 / 10) c ->
  knots_ok (c_knots c) n p -> (forall i, (i <= p)%nat -> kn (c_knots c) i = 0) -> (forall i, (n <= i <= n + p)%nat -> kn (c_knots c) i = 1) ->
  n = S p -> c_lo c = 0 -> c_hi c = 1 ->
  (exists x, @value R (NumR (1 / 10)) c 0 0 = Ok x /\ forall i, x i = nth 0 (c_poles c) (fun _ => 0) i) /\
  (exists x, @value R (NumR (1 / 10)) c 1 0 = Ok x /\ forall i, x i = nth (n - 1) (c_poles c) (fun _ => 0) i).
Proof.
  intros Hp Hn H24 Hc Hk K0 K1 Hnp Hlo Hhi. split.
  - rewrite (value_guard_eval (1 / 10)) by lra. rewrite Hp.
    destruct (eval_value_start (1 / 10) (c_knots c) n p (c_poles c) Hk Hn) as (x & E & V); [left; exact H24|intros i Hi; rewrite !K0 by lia; reflexivity|rewrite K0, K1 by lia; lra|].
    rewrite K0 in E by lia. exists x. split; [exact E|exact V].
  - rewrite (value_guard_eval (1 / 10)) by lra. rewrite Hp.
    destruct (eval_value_end (1 / 10) (c_knots c) n p (c_poles c) Hk Hn) as (x & E & V); [left; exact H24|intros i Hi; rewrite !K1 by lia; reflexivity|].
    rewrite K1 in E by lia. exists x. split; [exact E|exact V].
Qed.

Ltac bez n := let i := fresh "i" in split; [reflexivity|]; split; [cbn; lia|]; split;
  [intros i j Hij Hj; cbn in Hj; do 6 (destruct i as [|i]; [do 6 (destruct j as [|j]; [unfold kn; cbn; first [lra|lia]|]); lia|]); lia|unfold kn; cbn; lra].

Lemma lit_gordon_ends c : In c [lit_u0; lit_u1; lit_v0; lit_v1] -> clamped_object (1 / 10) c /\
  (exists x, @value R (NumR (1 / 10)) c 0 0 = Ok x /\ forall i, x i = nth 0 (c_poles c) (fun _ => 0) i) /\
  (exists x, @value R (NumR (1 / 10)) c 1 0 = Ok x /\ forall i, x i = nth (c_deg c) (c_poles c) (fun _ => 0) i).
Proof.
  intros [<-|[<-|[<-|[<-|[]]]]].
  - assert (H : clamped_object (1 / 10) lit_u0) by two_knots. split; [exact H|].
    apply (lit_ends lit_u0 2 3); try reflexivity; [lia|exact H|bez 6| |]; intros i Hi; [destruct i as [|[|[|i]]]|destruct i as [|[|[|[|[|[|i]]]]]]]; unfold kn; cbn; try lra; lia.
  - assert (H : clamped_object (1 / 10) lit_u1) by two_knots. split; [exact H|].
    apply (lit_ends lit_u1 1 2); try reflexivity; [lia|exact H|bez 4| |]; intros i Hi; [destruct i as [|[|[|i]]]|destruct i as [|[|[|[|[|[|i]]]]]]]; unfold kn; cbn; try lra; lia.
  - assert (H : clamped_object (1 / 10) lit_v0) by two_knots. split; [exact H|].
    apply (lit_ends lit_v0 1 2); try reflexivity; [lia|exact H|bez 4| |]; intros i Hi; [destruct i as [|[|[|i]]]|destruct i as [|[|[|[|[|[|i]]]]]]]; unfold kn; cbn; try lra; lia.
  - assert (H : clamped_object (1 / 10) lit_v1) by two_knots. split; [exact H|].
    apply (lit_ends lit_v1 1 2); try reflexivity; [lia|exact H|bez 4| |]; intros i Hi; [destruct i as [|[|[|i]]]|destruct i as [|[|[|[|[|[|i]]]]]]]; unfold kn; cbn; try lra; lia.
Qed.

Lemma lit_family : family (1 / 10) [lit_u0; lit_u1] 0 1 /\ family (1 / 10) [lit_v0; lit_v1] 0 1.
Proof.
  split; (split; [cbn; lia|]); (split; [cbn; lia|]); intros c Hc.
  - split; [apply lit_gordon_ends; cbn in Hc |- *; tauto|]. destruct Hc as [<-|[<-|[]]]; cbn; repeat split; lia.
  - split; [apply lit_gordon_ends; cbn in Hc |- *; tauto|]. destruct Hc as [<-|[<-|[]]]; cbn; repeat split; lia.
Qed.
Lemma lit_params : crossing_params [0; 1] 2 0 1.
Proof.
  split; [reflexivity|]. split; [|split; reflexivity]. intros i j Hij Hj. cbn in Hj. assert (i = 0%nat /\ j = 1%nat) as [-> ->] by lia. unfold kn. cbn. lra.
Qed.
Lemma lit_found : found lit_extrema 0 lit_u0 [lit_v0; lit_v1] [0; 1] /\ found lit_extrema 0 lit_v0 [lit_u0; lit_u1] [0; 1].
Proof.
  split; (constructor; [|constructor; [|constructor]]); exists 0, 0; (split; [|lra]); unfold lit_extrema; cbn; (f_equal; f_equal; f_equal; field).
Qed.
Lemma lit_meets i j cu cv : nth_error [lit_u0; lit_u1] i = Some cu -> nth_error [lit_v0; lit_v1] j = Some cv ->
  meet (1 / 10) 2 cu (nth j [0; 1] 0) cv (nth i [0; 1] 0).
Proof.
  intros Hi Hj. assert (Iu : In cu [lit_u0; lit_u1; lit_v0; lit_v1]) by (apply nth_error_In in Hi; cbn in *; tauto).
  assert (Iv : In cv [lit_u0; lit_u1; lit_v0; lit_v1]) by (apply nth_error_In in Hj; cbn in *; tauto).
  destruct (lit_gordon_ends cu Iu) as (_ & (a0 & A0 & V0) & (a1 & A1 & V1)). destruct (lit_gordon_ends cv Iv) as (_ & (b0 & B0 & W0) & (b1 & B1 & W1)).
  destruct i as [|[|i]]; cbn [nth_error nth] in *; [| |destruct i; discriminate]; injection Hi as <-; (destruct j as [|[|j]]; cbn [nth_error nth] in *; [| |destruct j; discriminate]); injection Hj as <-.
  - exists a0, b0. split; [exact A0|]. split; [exact B0|]. intros c Hc. rewrite V0, W0. destruct c as [|[|c]]; cbn; try lra; lia.
  - exists a1, b0. split; [exact A1|]. split; [exact B0|]. intros c Hc. rewrite V1, W0. destruct c as [|[|c]]; cbn; try lra; lia.
  - exists a0, b1. split; [exact A0|]. split; [exact B1|]. intros c Hc. rewrite V0, W1. destruct c as [|[|c]]; cbn; try lra; lia.
  - exists a1, b1. split; [exact A1|]. split; [exact B1|]. intros c Hc. rewrite V1, W1. destruct c as [|[|c]]; cbn; try lra; lia.
Qed.
Lemma lit_avg : exists k, @build_simple_mult_flat_knots R (NumR (1 / 10)) [0; 1] 1 = Ok k /\
  forall l, (forall x, In x l -> x = 0 \/ x = 1) -> far_apart (1 / 10) (l ++ k).
Proof.
  destruct (build_simple_spec (1 / 10) [0; 1] 1) as (k & E & (L & _ & K0 & K1 & _) & _); [lia|cbn; lia|apply lit_params|].
  exists k. split; [exact E|]. intros l Hl.
  assert (Hk : forall x, In x (l ++ k) -> x = 0 \/ x = 1).
  { intros x Hx. apply in_app_or in Hx as [Hx|Hx]; [apply Hl; exact Hx|]. apply (In_nth _ _ 0) in Hx as (i & Hi & <-). rewrite L in Hi. cbn [length] in Hi.
    change (nth i k 0) with (kn k i). destruct (Nat.le_gt_cases i 1); [left; rewrite K0 by lia; reflexivity|right; rewrite K1 by (cbn; lia); reflexivity]. }
  intros x y Hx Hy. destruct (Hk x Hx) as [->| ->]; destruct (Hk y Hy) as [->| ->]; first [left; lra|right; unfold Rabs; destruct Rcase_abs; lra].
Qed.

Lemma lit_gordon : 0 < 1 / 10 /\ complete_solver gauss /\ family (1 / 10) [lit_u0; lit_u1] 0 1 /\ family (1 / 10) [lit_v0; lit_v1] 0 1 /\
  crossing_params [0; 1] 2 0 1 /\ found lit_extrema 0 lit_u0 [lit_v0; lit_v1] [0; 1] /\ found lit_extrema 0 lit_v0 [lit_u0; lit_u1] [0; 1] /\
  (exists k, @build_simple_mult_flat_knots R (NumR (1 / 10)) [0; 1] 1 = Ok k /\
     far_apart (1 / 10) (concat (map c_knots [lit_u0; lit_u1]) ++ k) /\ far_apart (1 / 10) (concat (map c_knots [lit_v0; lit_v1]) ++ k)) /\
  (forall i j cu cv, nth_error [lit_u0; lit_u1] i = Some cu -> nth_error [lit_v0; lit_v1] j = Some cv ->
     meet (1 / 10) 2 cu (nth j [0; 1] 0) cv (nth i [0; 1] 0)) /\
  exists s, @gordon R (NumR (1 / 10)) gauss lit_extrema taxicab 2 0 [lit_u0; lit_u1] [lit_v0; lit_v1] = Ok s.
Proof.
  destruct lit_avg as (k & Ek & HF).
  assert (F1 : far_apart (1 / 10) (concat (map c_knots [lit_u0; lit_u1]) ++ k)) by (apply HF; cbn; intros x Hx; repeat (destruct Hx as [Hx|Hx]; [lra|]); contradiction).
  assert (F2 : far_apart (1 / 10) (concat (map c_knots [lit_v0; lit_v1]) ++ k)) by (apply HF; cbn; intros x Hx; repeat (destruct Hx as [Hx|Hx]; [lra|]); contradiction).
  assert (Hg : complete_solver gauss) by apply gauss_complete.
  destruct lit_family as [A B]. destruct lit_found as [C D].
  split; [lra|]. split; [exact Hg|]. split; [exact A|]. split; [exact B|]. split; [exact lit_params|]. split; [exact C|]. split; [exact D|].
  split; [exists k; auto|]. split; [exact lit_meets|].
  apply (gordon_returns (1 / 10) gauss lit_extrema taxicab 2 0 lit_u0 [lit_u1] lit_v0 [lit_v1] [0; 1] [0; 1] k k 0 1 0 1); auto; try lra; try lia; try apply lit_params; [|vm_compute; reflexivity].
  intros i j cu cv Hi Hj. destruct (lit_meets i j cu cv Hi Hj) as (x & y & Ex & Ey & V). exists x, y. split; [exact Ex|]. split; [exact Ey|].
  unfold taxicab. rewrite !V by lia. unfold Rminus. rewrite !Rplus_opp_r, Rabs_R0. lra.
Qed.
