(** The three loft functions. *)
From Coq Require Import List Arith ZArith Reals Lia Lra Bool.
From Verif Require Import Model_Base Model_Knots Model_Math Model_Basis Model_Rational Model_Curve Model_Interp Model_Surface Model_Unify Model_Skin
  Spec_Base Spec_Basis Spec_Eval Spec_Knots Spec_Interp Spec_Surface Spec_Elevate Spec_Unify Spec_Skin Proof_Base Proof_Eval Proof_Curve
  Proof_Builders2 Proof_Elevate2 Proof_Unify Proof_Unify3 Proof_Unify4 Proof_Unify5 Proof_Interp Proof_Interp2 Proof_Interp3 Proof_Interp4 Proof_Surface Proof_SurfEdit Proof_SurfEdit2
  Proof_Tfi Proof_Skin1 Proof_Skin2 Proof_Skin3 Proof_Skin5 Proof_Skin6 Proof_Skin7.
Import ListNotations.
Local Open Scope R_scope.

Section AtR.
Variable eps : R.
Local Hint Extern 0 (Num R) => exact (NumR eps) : typeclass_instances.

Lemma clamp_degree_eq q n : (0 < n)%nat -> clamp_degree q n = Nat.min q (n - 1).
Proof. intros H. unfold clamp_degree. destruct n; [lia|]. f_equal. lia. Qed.

Lemma loft_knots_ok lu dim c0 rest (cs := c0 :: rest) (v kv : list R) q s : 0 < eps -> exact_solver lu -> (0 < dim)%nat ->
  loftable eps c0 cs -> length v = length cs -> knots_ok kv (length v) (Nat.min q (length cs - 1)) ->
  (forall x, In x v -> kn kv (Nat.min q (length cs - 1)) <= x <= kn kv (length v)) ->
  loft_knots lu dim cs v kv q = Ok s -> evaluable_surface eps s ->
  s_degU s = list_max (map c_deg cs) /\ s_degV s = Nat.min q (length cs - 1) /\ s_kv s = kv /\
  s_u1 s = c_lo c0 /\ s_u2 s = c_hi c0 /\ s_v1 s = first_knot kv /\ s_v2 s = last_knot kv /\
  forall j c, nth_error cs j = Some c -> carries eps dim s c0 c (nth j v 0).
Proof.
  intros He Hex Hdim Hl Hlv Hkv Hv E Hev. unfold loft_knots in E. cbv zeta in E. rewrite clamp_degree_eq in E by (cbn [cs length]; lia).
  apply bind_inv in E as (((P & ku) & p) & EI & E).
  destruct (loft_finish eps lu dim c0 rest v kv _ P ku p s He Hex Hdim Hl Hkv Hv EI E Hev) as (A1 & A2 & _ & A3 & A4 & A5 & A6 & _ & _ & V).
  repeat (split; [assumption|]). split; [apply (mk_surf_inv eps) in E; subst s; reflexivity|]. repeat (split; [assumption|]).
  intros j c Hj x d Hx. destruct (V j c Hj x d Hx) as (_ & z & z' & Z1 & _ & Z2 & _ & Z3). exists z, z'. auto.
Qed.

Lemma loft_ok lu dim c0 rest (cs := c0 :: rest) (v : list R) q s : 0 < eps -> exact_solver lu -> (0 < dim)%nat ->
  loftable eps c0 cs -> length v = length cs -> (1 <= q)%nat -> (2 <= length cs)%nat -> strictly_increasing v ->
  loft lu dim cs v q = Ok s -> evaluable_surface eps s ->
  s_degU s = list_max (map c_deg cs) /\ s_degV s = Nat.min q (length cs - 1) /\
  s_u1 s = c_lo c0 /\ s_u2 s = c_hi c0 /\ s_v1 s = kn v 0 /\ s_v2 s = kn v (length v - 1) /\
  forall j c, nth_error cs j = Some c -> carries eps dim s c0 c (nth j v 0).
Proof.
  subst cs. intros He Hex Hdim Hl Hlv Hq Hn Hs E Hev. unfold loft in E. cbv zeta in E. rewrite clamp_degree_eq in E by lia.
  apply bind_inv in E as (kv & EK & E).
  destruct (simple_knots eps v (Nat.min q (length (c0 :: rest) - 1)) kv ltac:(lia) ltac:(lia) Hs EK) as (Hkv & _ & _ & K0 & K1 & Hv).
  destruct (loft_knots_ok lu dim c0 rest v kv q s He Hex Hdim Hl Hlv Hkv Hv) as (A1 & A2 & _ & A3 & A4 & A5 & A6 & V).
  { unfold loft_knots. cbv zeta. rewrite clamp_degree_eq by (cbn [length]; lia). exact E. } { exact Hev. }
  repeat (split; [assumption|]). unfold first_knot, last_knot in *. split; [congruence|]. split; [congruence|]. exact V.
Qed.

(** Rational sections: the values, projected, agree. *)
Lemma rational_finish lu dim c0 rest (cs := c0 :: rest) (v kv : list R) q P ku p s : 0 < eps -> exact_solver lu ->
  loftable eps c0 cs -> knots_ok kv (length v) q ->
  (forall x, In x v -> kn kv q <= x <= kn kv (length v)) ->
  loft_info lu (S dim) (curves_info cs) v kv q = Ok (P, ku, p) -> mk_surf P ku kv p q = Ok s -> evaluable_surface eps s ->
  forall j c, nth_error cs j = Some c -> carries_rational eps dim s c0 c (nth j v 0).
Proof.
  intros He Hex Hl Hkv Hv EI E Hev j c Hj x Hx.
  destruct (loft_finish eps lu (S dim) c0 rest v kv q P ku p s He Hex ltac:(lia) Hl Hkv Hv EI E Hev) as (_ & _ & _ & _ & _ & _ & _ & HO & HN & V).
  destruct (V j c Hj x 0%nat Hx) as (IN & z & z' & _ & Z1 & Z2 & Z2' & Z3).
  exists (weight_projection dim z), (weight_projection dim z'). split; [|split].
  - unfold rational_value. destruct (oob_spec eps c x); [lra|]. unfold eval_rational_value, eval_rational_rec. rewrite Z1. reflexivity.
  - unfold surf_rational_value. unfold surf_value in Z2. destruct (out_u s _); [discriminate|]. destruct (out_v s _); [discriminate|].
    cbn [andb Nat.eqb]. rewrite Z2'. reflexivity.
  - intros i Hi. unfold weight_projection.
    assert (Z4 : forall i, (i < S dim)%nat -> z' i = z i) by (intros i0 Hi0; pose proof (Z3 i0 Hi0) as H; cbn [pow] in H; lra).
    rewrite (Z4 dim) by lia. destruct (neqb (z dim) n0); [reflexivity|]. rewrite (Z4 i) by lia. reflexivity.
Qed.

Lemma loft_rational_ok lu dim c0 rest (cs := c0 :: rest) (v : list R) q s : 0 < eps -> exact_solver lu ->
  loftable eps c0 cs -> length v = length cs -> (1 <= q)%nat -> (2 <= length cs)%nat -> strictly_increasing v ->
  loft lu (S dim) cs v q = Ok s -> evaluable_surface eps s ->
  forall j c, nth_error cs j = Some c -> carries_rational eps dim s c0 c (nth j v 0).
Proof.
  subst cs. intros He Hex Hl Hlv Hq Hn Hs E Hev. unfold loft in E. cbv zeta in E. rewrite clamp_degree_eq in E by lia.
  apply bind_inv in E as (kv & EK & E). apply bind_inv in E as (((P & ku) & p) & EI & E).
  destruct (simple_knots eps v (Nat.min q (length (c0 :: rest) - 1)) kv ltac:(lia) ltac:(lia) Hs EK) as (Hkv & _ & _ & K0 & K1 & Hv).
  exact (rational_finish lu dim c0 rest v kv _ P ku p s He Hex Hl Hkv Hv EI E Hev).
Qed.

Lemma loft_knots_rational_ok lu dim c0 rest (cs := c0 :: rest) (v kv : list R) q s : 0 < eps -> exact_solver lu ->
  loftable eps c0 cs -> length v = length cs -> knots_ok kv (length v) (Nat.min q (length cs - 1)) ->
  (forall x, In x v -> kn kv (Nat.min q (length cs - 1)) <= x <= kn kv (length v)) ->
  loft_knots lu (S dim) cs v kv q = Ok s -> evaluable_surface eps s ->
  forall j c, nth_error cs j = Some c -> carries_rational eps dim s c0 c (nth j v 0).
Proof.
  intros He Hex Hl Hlv Hkv Hv E Hev. unfold loft_knots in E. cbv zeta in E. rewrite clamp_degree_eq in E by (cbn [cs length]; lia).
  apply bind_inv in E as (((P & ku) & p) & EI & E).
  exact (rational_finish lu dim c0 rest v kv _ P ku p s He Hex Hl Hkv Hv EI E Hev).
Qed.
End AtR.
