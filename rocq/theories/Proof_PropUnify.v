(** Literal cases behind Prop_Unify.v. *)
From Coq Require Import List Arith ZArith QArith Reals Lia Lra Bool.
From Verif Require Import Model_Base Spec_Base Spec_Basis Spec_Knots Spec_Eval Spec_Class Spec_Rational Spec_Elevate Spec_Unify
  Model_Basis Model_Knots Model_Curve Model_Rational Model_Elevate Model_Unify
  Proof_Base Proof_SurfEdit2 Proof_Curve Proof_Elevate6 Proof_Unify4 Proof_Unify5 Proof_Join2 Proof_Join3.
Import ListNotations.
Local Open Scope R_scope.

(** A second quadratic curve, a line starting where lit_curve ends, a rational quadratic curve
    of the line, and a polynomial curve of the line. *)
Definition lit_curve2 : curve R := mk 2 [pt2 0 0; pt2 1 1; pt2 2 5; pt2 3 3] [0; 0; 0; 3; 4; 4; 4] 0 4.
Definition lit_line : curve R := mk 1 [pt2 4 1; pt2 6 6] [5; 5; 6; 6] 5 6.
Definition lit_rat : curve R := mk 2 [pt2 0 1; pt2 2 2; pt2 4 2] [0; 0; 0; 1; 1; 1] 0 1.
Definition lit_line1 : curve R := mk 1 [pt2 2 0; pt2 5 0] [5; 5; 6; 6] 5 6.

Lemma lit_curve2_ok : clamped_object (1 / 10) lit_curve2.
Proof.
  split; [|split; reflexivity]. split; [reflexivity|]. exists [0; 3; 4], [3; 1; 3]%nat.
  split; [|split; reflexivity].
  split; [reflexivity|]. split; [simpl; lia|]. split; [intros i Hi; cbn in Hi; destruct i as [|[|i]]; unfold kn; cbn; try lra; lia|]. split; [reflexivity|]. split; [reflexivity|].
  intros i Hi. simpl in Hi. assert (i = 1%nat) as -> by lia. simpl. lia.
Qed.
Lemma lit_curve_object : clamped_object (1 / 10) lit_curve.
Proof.
  split; [|split; reflexivity]. split; [reflexivity|]. exists [0; 1; 2], [3; 1; 3]%nat. split; [exact lit_k1|split; reflexivity].
Qed.
Ltac two_knots := split; [|split; reflexivity]; split; [reflexivity|];
  match goal with |- context [knots_of (info_of ?c)] =>
    let k := eval cbv in (c_deg c) in
    exists [first_knot (c_knots c); last_knot (c_knots c)], [S k; S k] end;
  split; [|split; reflexivity];
  split; [reflexivity|]; split; [simpl; lia|]; split; [intros i Hi; cbn in Hi; destruct i as [|i]; unfold first_knot, last_knot, kn; cbn; try lra; lia|];
  split; [reflexivity|]; split; [reflexivity|]; intros i Hi; simpl in Hi; lia.
Lemma lit_line_ok : clamped_object (1 / 10) lit_line. Proof. two_knots. Qed.
Lemma lit_rat_ok : clamped_object (1 / 10) lit_rat. Proof. two_knots. Qed.
Lemma lit_line1_ok : clamped_object (1 / 10) lit_line1. Proof. two_knots. Qed.

Lemma lit_apart : knots_apart (1 / 10) (c_knots lit_curve) (map info_of [lit_curve; lit_curve2]).
Proof.
  assert (H : forall c x, In c (map info_of [lit_curve; lit_curve2]) -> In x (knots_of c) ->
    In (rescale (c_knots lit_curve) (knots_of c) x) [0; 1; 3 / 2; 2]).
  { intros c x [<-|[<-|[]]]; unfold knots_of, info_of, rescale, first_knot, last_knot, kn; cbn;
      intros [<-|[<-|[<-|[<-|[<-|[<-|[<-|[]]]]]]]]; simpl;
      first [left; field|right; left; field|right; right; left; field|right; right; right; left; field]. }
  intros c c' x y Hc Hc' Hx Hy. pose proof (H c x Hc Hx) as A. pose proof (H c' y Hc' Hy) as B.
  revert A B. generalize (rescale (c_knots lit_curve) (knots_of c) x), (rescale (c_knots lit_curve) (knots_of c') y).
  intros a b A B. simpl in A, B. destruct A as [<-|[<-|[<-|[<-|[]]]]]; destruct B as [<-|[<-|[<-|[<-|[]]]]];
    first [left; lra|right; unfold Rabs; destruct Rcase_abs; lra].
Qed.

Lemma lit_unify : 0 < 1 / 10 /\ Forall (fun c => c_deg c = 2%nat /\ clamped_object (1 / 10) c) [lit_curve; lit_curve2] /\
  Forall (clamped_info (1 / 10) 2) (map info_of [lit_curve; lit_curve2]) /\
  knots_apart (1 / 10) (c_knots lit_curve) (map info_of [lit_curve; lit_curve2]) /\
  max_multiplicity (c_knots lit_curve) (map info_of [lit_curve; lit_curve2]) (3 / 2) = 1%nat.
Proof.
  split; [lra|]. split.
  { constructor; [|constructor; [|constructor]]; (split; [reflexivity|]). - apply lit_curve_object. - apply lit_curve2_ok. }
  split.
  { constructor; [|constructor; [|constructor]]. - apply lit_curve_object. - apply lit_curve2_ok. }
  split; [exact lit_apart|].
  unfold max_multiplicity. cbn [map info_of knots_of list_max fold_right].
  assert (A : count_occ Req_EM_T (map (rescale (c_knots lit_curve) (knots_of (info_of lit_curve))) (knots_of (info_of lit_curve))) (3 / 2) = 0%nat).
  { apply count_occ_not_In. unfold knots_of, info_of, rescale, first_knot, last_knot, kn; cbn. intros X.
    repeat (destruct X as [X|X]; [field_simplify in X; lra|]). exact X. }
  assert (B : count_occ Req_EM_T (map (rescale (c_knots lit_curve) (knots_of (info_of lit_curve2))) (knots_of (info_of lit_curve2))) (3 / 2) = 1%nat).
  { replace (map _ _) with [0; 0; 0; 3 / 2; 2; 2; 2]
      by (unfold knots_of, info_of, rescale, first_knot, last_knot, kn; cbn; repeat (f_equal; [field|]); f_equal; field).
    cbn [count_occ]. destruct (Req_EM_T 0 (3 / 2)); [lra|]. destruct (Req_EM_T 2 (3 / 2)); [lra|].
    destruct (Req_EM_T (3 / 2) (3 / 2)) as [_|X]; [reflexivity|exfalso; apply X; reflexivity]. }
  rewrite A, B. reflexivity.
Qed.

Lemma lit_degrees : 0 < 1 / 10 /\ [info_of lit_curve; info_of lit_line] <> [] /\
  (forall c, In c [info_of lit_curve; info_of lit_line] -> clamped_info (1 / 10) (snd c) c /\ (snd c <= 12)%nat).
Proof.
  split; [lra|]. split; [discriminate|]. intros c [<-|[<-|[]]]; (split; [|simpl; lia]). - apply lit_curve_object. - apply lit_line_ok.
Qed.

Lemma lit_join : 0 < 1 / 10 /\ clamped_object (1 / 10) lit_curve /\ clamped_object (1 / 10) lit_line /\
  (1 <= max (c_deg lit_curve) (c_deg lit_line) <= 12)%nat /\
  (exists q1 q2, @value R (NumR (1 / 10)) lit_curve (c_hi lit_curve) 0 = Ok q1 /\ @value R (NumR (1 / 10)) lit_line (c_lo lit_line) 0 = Ok q2 /\ forall i, q1 i = q2 i).
Proof.
  split; [lra|]. split; [apply lit_curve_object|]. split; [apply lit_line_ok|]. split; [simpl; lia|].
  destruct (object_end (1 / 10) lit_curve ltac:(lra) lit_curve_object ltac:(simpl; lia)) as (q1 & E1 & H1).
  destruct (object_start (1 / 10) lit_line ltac:(lra) lit_line_ok ltac:(simpl; lia)) as (q2 & E2 & H2).
  exists q1, q2. rewrite !(value_guard_eval (1 / 10)) by (simpl; lra). split; [exact E1|]. split; [exact E2|].
  intros i. rewrite H1, H2. reflexivity.
Qed.

Lemma lit_join_rational : 0 < 1 / 10 /\ clamped_object (1 / 10) lit_rat /\ clamped_object (1 / 10) lit_line1 /\
  (1 <= max (c_deg lit_rat) (c_deg lit_line1) <= 12)%nat /\
  (true = true -> last (c_poles lit_rat) (fun _ => 0) 1%nat <> 0) /\
  (false = true -> nth 0 (c_poles lit_line1) (fun _ => 0) 1%nat <> 0) /\
  (exists q1 q2, curve_value (1 / 10) 1 true lit_rat (c_hi lit_rat) 0 = Ok q1 /\
     curve_value (1 / 10) 1 false lit_line1 (c_lo lit_line1) 0 = Ok q2 /\ forall i, (i < 1)%nat -> q1 i = q2 i).
Proof.
  split; [lra|]. split; [apply lit_rat_ok|]. split; [apply lit_line1_ok|]. split; [simpl; lia|].
  split; [intros _; simpl; lra|]. split; [discriminate|].
  destruct (object_end (1 / 10) lit_rat ltac:(lra) lit_rat_ok ltac:(simpl; lia)) as (q1 & E1 & H1).
  destruct (object_start (1 / 10) lit_line1 ltac:(lra) lit_line1_ok ltac:(simpl; lia)) as (q2 & E2 & H2).
  exists (@weight_projection R (NumR (1 / 10)) 1 q1), q2. unfold curve_value. rewrite !(value_guard_eval (1 / 10)) by (simpl; lra).
  split; [|split; [exact E2|]].
  - unfold rational_value. match goal with |- context [@out_of_bounds R _ ?cc ?xx] => destruct (oob_spec (1 / 10) cc xx) as [Ho|_] end; [simpl in Ho; lra|].
    unfold eval_rational_value. cbn [eval_rational_rec Nat.eqb]. rewrite E1. reflexivity.
  - intros i Hi. assert (i = 0%nat) as -> by lia. rewrite H2. unfold weight_projection. rewrite neqb_dec, !H1. cbn.
    destruct (Req_EM_T 2 0); [lra|]. rewrite !H1. cbn. lra.
Qed.

(** Two knots closer than the tolerance stay different. *)
Definition half_eps : Q := 50 # 4503599627370496.
Lemma close_knots : exists (P0 P1 P0' P1' : list (pt Q)) k0' k1',
  @unify_knots Q NumQ [(P0, [0; 0; 1 # 2; 1; 1]%Q, 1%nat); (P1, [0; 0; (1 # 2) + half_eps; 1; 1]%Q, 1%nat)]
    = Ok [(P0', k0', 1%nat); (P1', k1', 1%nat)] /\
  length P0 = 3%nat /\ length P1 = 3%nat /\ exists x y, nth_error k0' 2 = Some x /\ nth_error k1' 2 = Some y /\ ~ (x == y)%Q.
Proof.
  exists (repeat (@pzero Q NumQ) 3), (repeat (@pzero Q NumQ) 3). do 4 eexists. split; [vm_compute; reflexivity|].
  split; [reflexivity|]. split; [reflexivity|]. do 2 eexists. split; [reflexivity|]. split; [reflexivity|]. intros X. vm_compute in X. discriminate.
Qed.
(** A piecewise constant curve never receives a knot. *)
Lemma degree_zero : exists (P0 P1 P0' P1' : list (pt Q)) k0' k1',
  @unify_knots Q NumQ [(P0, [0; 1]%Q, 0%nat); (P1, [0; 1 # 2; 1]%Q, 0%nat)] = Ok [(P0', k0', 0%nat); (P1', k1', 0%nat)] /\
  length P0 = 1%nat /\ length P1 = 2%nat /\ length k0' <> length k1'.
Proof.
  exists (repeat (@pzero Q NumQ) 1), (repeat (@pzero Q NumQ) 2). do 4 eexists. split; [vm_compute; reflexivity|].
  split; [reflexivity|]. split; [reflexivity|]. discriminate.
Qed.

(** A curve trimmed without rebuilding it is joined as if it were not trimmed. *)
Definition q1 (x : Q) : pt Q := fun _ => x.
Lemma join_trimmed : exists c c1 c2 c' e s v w,
  @mk_curve Q NumQ [q1 0; q1 2] [0; 0; 2; 2]%Q 1 = Ok c /\ @trim_curve Q NumQ c 0%Q 1%Q false = Ok c1 /\
  @mk_curve Q NumQ [q1 1; q1 5] [0; 0; 1; 1]%Q 1 = Ok c2 /\
  @value Q NumQ c1 (c_hi c1) 0 = Ok e /\ @value Q NumQ c2 (c_lo c2) 0 = Ok s /\ (e 0%nat == s 0%nat)%Q /\
  @join Q NumQ c1 c2 = Ok c' /\
  @value Q NumQ c1 (1 # 2)%Q 0 = Ok v /\ @value Q NumQ c' (1 # 2)%Q 0 = Ok w /\ ~ (v 0%nat == w 0%nat)%Q.
Proof.
  do 8 eexists. split; [vm_compute; reflexivity|]. split; [reflexivity|]. split; [vm_compute; reflexivity|].
  split; [vm_compute; reflexivity|]. split; [vm_compute; reflexivity|]. split; [vm_compute; reflexivity|]. split; [vm_compute; reflexivity|].
  split; [vm_compute; reflexivity|]. split; [vm_compute; reflexivity|]. intros X. vm_compute in X. discriminate.
Qed.
(** Degree 13 against degree 1. *)
Lemma join_overflow : exists c1 c2,
  @mk_curve Q NumQ (repeat (q1 1) 14) (repeat 0 14 ++ repeat 1 14)%Q 13 = Ok c1 /\
  @mk_curve Q NumQ [q1 1; q1 5] [0; 0; 1; 1]%Q 1 = Ok c2 /\ @join Q NumQ c1 c2 = Undef IntOverflow.
Proof. do 2 eexists. split; [vm_compute; reflexivity|]. split; vm_compute; reflexivity. Qed.
