(** The theorems of C83 in their final form. *)
From Coq Require Import List Arith ZArith Reals Lia Lra Bool.
From Verif Require Import Model_Base Spec_Base Spec_Basis Spec_Knots Spec_Eval Spec_Surface Spec_Interp Spec_Solve Spec_Elevate Spec_Unify Spec_Curve Spec_Gordon Spec_Connect Spec_Stools
  Model_Basis Model_Knots Model_Curve Model_Surface Model_Elevate Model_Unify Model_Interp Model_Gordon Model_Connect Model_Stools
  Proof_Base Proof_Basis Proof_Eval Proof_Insert Proof_Curve Proof_Trim Proof_PropBasis Proof_Ctor
  Proof_Knots Proof_Builders Proof_Elevate2 Proof_Elevate3 Proof_Elevate4 Proof_Unify Proof_Unify2 Proof_Unify3 Proof_Unify4 Proof_Unify5
  Proof_Join Proof_Join2 Proof_Json Proof_SurfEdit2
  Proof_Interp Proof_Interp3 Proof_Surface Proof_SurfEdit Proof_Skin1 Proof_Gordon1 Proof_Gordon2 Proof_Gordon4 Proof_Connect4 Proof_Connect5 Proof_Stools1 Proof_Stools2 Proof_Stools3 Proof_Stools4 Proof_Stools5.
Import ListNotations.
Local Open Scope R_scope.

Theorem join_final : forall eps dim s1 s2, 0 < eps -> clamped_surface eps s1 -> clamped_surface eps s2 -> s_kv s1 = s_kv s2 ->
  (1 <= Nat.max (s_degU s1) (s_degU s2))%nat -> countable (length (s_ku s1) + length (s_ku s2)) (length (s_kv s1)) ->
  meet_along eps dim s1 s2 ->
  let L := s_u2 s1 - s_u1 s2 in
  exists s, @surf_join R (NumR eps) s1 s2 = Ok s /\ clamped_surface eps s /\
    s_degU s = Nat.max (s_degU s1) (s_degU s2) /\ s_degV s = s_degV s1 /\ s_kv s = s_kv s1 /\
    s_u1 s = s_u1 s1 /\ s_u2 s = s_u2 s2 + L /\
    (forall u v du dv, s_v1 s1 <= v <= s_v2 s1 -> s_u1 s1 <= u < s_u2 s1 \/ u = s_u2 s1 /\ du = 0%nat -> same_at eps dim s1 u v s u v du dv) /\
    (forall u v du dv, s_v1 s1 <= v <= s_v2 s1 -> s_u1 s2 <= u <= s_u2 s2 -> same_at eps dim s2 u v s (u + L) v du dv).
Proof.
  intros eps dim s1 s2 He. intros H1 H2 H3 H4 H5 H6 L. apply (cs_clamped eps He) in H1. apply (cs_clamped eps He) in H2. setoid_rewrite <- (cs_clamped eps He). apply (surf_join_ok eps He); assumption.
Qed.

Theorem refuses_final : forall eps s1 s2, 0 < eps -> clamped_surface eps s1 -> clamped_surface eps s2 -> length (s_kv s1) <> length (s_kv s2) ->
  countable (length (s_ku s1) + length (s_ku s2)) (length (s_kv s1) + length (s_kv s2)) ->
  @surf_join R (NumR eps) s1 s2 = Throw RuntimeError.
Proof.
  intros eps s1 s2 He. setoid_rewrite <- (cs_clamped eps He). intros H1 H2 Hl Hz. unfold countable in Hz.
  pose proof H1 as (_ & _ & CU1 & CV1 & D1 & D1'). pose proof H2 as (_ & _ & CU2 & CV2 & D2 & D2').
  unfold surf_join. rewrite (as_bssurf_ok eps He s1) by (auto; nia). cbn [bind]. rewrite (as_bssurf_ok eps He s2) by (auto; nia). cbn [bind].
  unfold elevate_to.
  destruct (elevU eps (s_degU s2 - s_degU s1) s1 (s_degU s1) He H1 ltac:(lia)) as (t1 & -> & T1 & Dt1 & Vt1 & Kt1 & It1 & Gt1). cbn [bind].
  destruct (elevU eps (s_degU t1 - s_degU s2) s2 (s_degU s2) He H2 ltac:(lia)) as (t2 & -> & T2 & Dt2 & Vt2 & Kt2 & It2 & Gt2). cbn [bind].
  unfold same_v_knots. rewrite Kt1, Kt2. destruct (Nat.eqb_spec (length (s_kv s2)) (length (s_kv s1))); [congruence|]. reflexivity.
Qed.

Theorem split_u_final : forall eps s u, 0 < eps -> clamped_surface eps s -> (1 <= s_degU s)%nat -> s_u1 s < u < s_u2 s ->
  exists a b, @split_u R (NumR eps) s u = Ok (a, b) /\
    s_u1 a = s_u1 s /\ s_u2 a = u /\ s_u1 b = u /\ s_u2 b = s_u2 s /\
    s_kv a = s_kv s /\ s_kv b = s_kv s /\ s_v1 a = s_v1 s /\ s_v2 a = s_v2 s /\ s_v1 b = s_v1 s /\ s_v2 b = s_v2 s /\
    s_degU a = s_degU s /\ s_degU b = s_degU s /\ s_degV a = s_degV s /\ s_degV b = s_degV s /\
    forall dim x v du dv, s_v1 s <= v <= s_v2 s ->
      (s_u1 s <= x < u \/ x = u /\ du = 0%nat -> same_at eps dim s x v a x v du dv) /\
      (u <= x < s_u2 s \/ x = s_u2 s /\ du = 0%nat -> same_at eps dim s x v b x v du dv).
Proof.
  intros eps s u He. setoid_rewrite <- (cs_clamped eps He). intros. apply (split_u_ok eps He); assumption.
Qed.

Theorem split_v_final : forall eps s v0, 0 < eps -> clamped_surface eps s -> (1 <= s_degV s)%nat -> s_v1 s < v0 < s_v2 s ->
  exists a b, @split_v R (NumR eps) s v0 = Ok (a, b) /\
    s_v1 s - eps < s_v1 a <= s_v1 s /\ v0 <= s_v2 a < v0 + eps /\ v0 - eps < s_v1 b <= v0 /\ s_v2 s <= s_v2 b < s_v2 s + eps /\
    (eps <= s_v2 s - v0 -> s_v2 a = v0) /\ (eps <= v0 - s_v1 s -> s_v1 b = v0) /\
    s_ku a = s_ku s /\ s_ku b = s_ku s /\ s_u1 a = s_u1 s /\ s_u2 a = s_u2 s /\ s_u1 b = s_u1 s /\ s_u2 b = s_u2 s /\
    s_degU a = s_degU s /\ s_degU b = s_degU s /\ s_degV a = s_degV s /\ s_degV b = s_degV s /\
    forall dim u x du dv, s_u1 s <= u <= s_u2 s ->
      (s_v1 s <= x < v0 \/ x = v0 /\ dv = 0%nat -> same_at eps dim s u x a u x du dv) /\
      (v0 <= x < s_v2 s \/ x = s_v2 s /\ dv = 0%nat -> same_at eps dim s u x b u x du dv).
Proof.
  intros eps s u He. setoid_rewrite <- (cs_clamped eps He). intros. apply (split_v_ok eps He); assumption.
Qed.

Theorem extention_final : forall eps lu norm dim np s c L (natural : bool) mc, 0 < eps ->
  complete_solver lu -> clamped_surface eps s -> (1 <= s_degU s)%nat -> along_v s c -> (2 <= np)%nat -> mean_length eps norm s c np L ->
  eps * INR (s_degU s) < L -> countable (length (s_ku s)) (length (s_kv s)) ->
  exists e, @extention_to_curve R (NumR eps) lu norm dim np s c natural mc = Ok e /\ clamped_surface eps e /\ (1 <= s_degU e <= s_degU s)%nat /\
    s_kv e = s_kv s /\ s_degV e = s_degV s /\ s_u1 e = s_u2 s /\ s_u2 e = s_u2 s + L /\ s_v1 e = s_v1 s /\ s_v2 e = s_v2 s /\
    (forall v du dv, s_v1 s <= v <= s_v2 s -> (du <= continuity (s_degU s) mc)%nat -> same_at eps dim s (s_u2 s) v e (s_u1 e) v du dv) /\
    edge_is eps dim e (s_u2 e) c /\
    (natural = true -> (2 < s_degU s)%nat -> edge_zero eps dim e (s_u2 e) 2).
Proof.
  intros eps lu norm dim np s c L natural mc He. setoid_rewrite <- (cs_clamped eps He). intros. destruct (extention_ok eps He lu norm dim np s c L natural mc) as (e & X1 & X2 & X3 & X4 & X5 & X6 & X7 & X8 & X9 & _ & X10); try assumption. exists e. repeat (split; [assumption|]). exact X10.
Qed.

Theorem short_final : forall eps lu norm dim np s c L (natural : bool) mc, 0 < eps ->
  complete_solver lu -> clamped_surface eps s -> (1 <= s_degU s)%nat -> (length (c_poles c) + s_degV s + 1 < length (s_kv s))%nat ->
  (2 <= np)%nat -> mean_length eps norm s c np L -> eps * INR (s_degU s) < L ->
  @extention_to_curve R (NumR eps) lu norm dim np s c natural mc = Undef BadIndex.
Proof.
  intros eps lu norm dim np s c L natural mc He. setoid_rewrite <- (cs_clamped eps He). intros Hco H Hp Hc Hnp HL Hg.
  destruct (csurf_bounds eps He s H) as (B1 & B2 & B3 & B4 & B5 & B6). pose proof H as (Oks & _ & CU & CV & D1 & D2). pose proof Oks as (KU & KV & LP).
  assert (Lc : (length (c_poles c) < s_nV s)%nat) by (destruct KV as (Z & _); lia).
  assert (Hlt : s_u2 s < s_u2 s + L) by (pose proof (pos_INR (s_degU s)); pose proof (Rmult_le_pos eps (INR (s_degU s)) ltac:(lra) ltac:(lra)); lra).
  unfold extention_to_curve. destruct KU as (LU & HU & _). rewrite back_kn by lia. cbn [bind].
  rewrite (mean_ok eps He norm s c np L H Hnp HL). cbn [bind]. nsimp.
  change (kn (s_ku s) (length (s_ku s) - 1)) with (last_knot (s_ku s)). rewrite <- B2.
  unfold extention_to_curve_at. rewrite (nPolesU_ok s Oks), (nPolesV_ok s Oks). cbn [bind].
  replace (s_nV s) with (length (c_poles c) + S (s_nV s - S (length (c_poles c))))%nat at 1 by lia. rewrite for_app.
  match goal with |- context [for_ 0 (length (c_poles c)) ?b ?i0] =>
    destruct (for_inv (fun i st => True) b 0 (length (c_poles c)) i0) as (st & -> & _) end.
  { exact I. }
  { intros j st Hj _. rewrite (row_slice _ (s_nU s) (s_nV s)) by (auto; lia). cbn [bind].
    destruct (row_object eps He s j H ltac:(lia)) as (Er & Ho). rewrite Er. cbn [bind].
    rewrite (get_nth (c_poles c) j (fun _ => 0)) by lia. cbn [bind].
    destruct (object_jet eps (mk (s_degU s) (row (s_poles s) (s_nU s) j) (s_ku s) (s_u1 s) (s_u2 s)) (s_u2 s) (continuity (s_degU s) mc) He Ho ltac:(cbn; lia) ltac:(cbn; lra)) as (a & Ha).
    destruct (ext_at_ok eps lu dim (mk (s_degU s) (row (s_poles s) (s_nU s) j) (s_ku s) (s_u1 s) (s_u2 s)) (nth j (c_poles c) (fun _ => 0)) (s_u2 s) (s_u2 s + L) natural mc a Hco He ltac:(cbn; lia) Hlt Ha) as (e & E & _).
    unfold pt in E |- *. rewrite E. cbn [bind]. eexists. split; [reflexivity|exact I]. }
  cbn [bind for_]. rewrite Nat.add_0_l. rewrite (row_slice _ (s_nU s) (s_nV s)) by (auto; lia). cbn [bind].
  destruct (row_object eps He s (length (c_poles c)) H Lc) as (Er & _). rewrite Er. cbn [bind].
  replace (get (c_poles c) (length (c_poles c))) with (@Undef (pt R) BadIndex); [reflexivity|].
  unfold get. rewrite (proj2 (nth_error_None (c_poles c) (length (c_poles c)))) by lia. reflexivity.
Qed.

Theorem extended_to_curve_final : forall eps lu norm dim np s c L (natural : bool) mc, 0 < eps ->
  complete_solver lu -> clamped_surface eps s -> (1 <= s_degU s)%nat -> along_v s c -> (2 <= np)%nat -> mean_length eps norm s c np L ->
  eps * INR (s_degU s) < L -> countable (3 * length (s_ku s)) (length (s_kv s)) ->
  exists r, @extended_to_curve R (NumR eps) lu norm dim np s c natural mc = Ok r /\ clamped_surface eps r /\ s_degU r = s_degU s /\
    s_kv r = s_kv s /\ s_degV r = s_degV s /\ s_u1 r = s_u1 s /\ s_u2 r = s_u2 s + L /\ s_v1 r = s_v1 s /\ s_v2 r = s_v2 s /\
    (forall u v du dv, s_v1 s <= v <= s_v2 s -> s_u1 s <= u < s_u2 s \/ u = s_u2 s /\ (du <= continuity (s_degU s) mc)%nat ->
       same_at eps dim s u v r u v du dv) /\
    edge_is eps dim r (s_u2 r) c /\
    (natural = true -> (2 < s_degU s)%nat -> edge_zero eps dim r (s_u2 r) 2).
Proof.
  intros eps lu norm dim np s c L natural mc He. setoid_rewrite <- (cs_clamped eps He). intros. apply (extended_ok eps He); assumption.
Qed.

Theorem extended_length_final : forall eps lu ldlt norm dim np s l c L (natural : bool) mc, 0 < eps ->
  complete_solver lu -> exact_solver ldlt -> clamped_surface eps s -> (1 <= s_degU s)%nat -> (1 <= s_degV s)%nat -> (2 <= np)%nat ->
  @offset_curve R (NumR eps) ldlt norm dim s l = Ok c -> mean_length eps norm s c np L ->
  eps * INR (s_degU s) < L -> countable (3 * length (s_ku s)) (length (s_kv s)) ->
  exists r, @surf_extended R (NumR eps) lu ldlt norm dim np s l natural mc = Ok r /\ clamped_surface eps r /\ s_degU r = s_degU s /\
    s_kv r = s_kv s /\ s_degV r = s_degV s /\ s_u1 r = s_u1 s /\ s_u2 r = s_u2 s + L /\ s_v1 r = s_v1 s /\ s_v2 r = s_v2 s /\
    (forall u v du dv, s_v1 s <= v <= s_v2 s -> s_u1 s <= u < s_u2 s \/ u = s_u2 s /\ (du <= continuity (s_degU s) mc)%nat ->
       same_at eps dim s u v r u v du dv) /\
    edge_is eps dim r (s_u2 r) c /\
    (natural = true -> (2 < s_degU s)%nat -> edge_zero eps dim r (s_u2 r) 2) /\
    forall v, v = s_v1 s \/ v = s_v2 s -> exists a t z,
      @surf_value R (NumR eps) s (s_u2 s) v 0 0 = Ok a /\ @surf_value R (NumR eps) s (s_u2 s) v 1 0 = Ok t /\ norm t <> 0 /\
      @surf_value R (NumR eps) r (s_u2 r) v 0 0 = Ok z /\ forall i, (i < dim)%nat -> z i = a i + l * (t i / norm t).
Proof.
  intros eps lu ldlt norm dim np s l c L natural mc He. setoid_rewrite <- (cs_clamped eps He). intros. apply (extended_length_ok eps He); assumption.
Qed.

Theorem extended_sides_final : forall eps lu ldlt norm dim np s s' l c L location (natural : bool) mc, 0 < eps ->
  complete_solver lu -> exact_solver ldlt -> clamped_surface eps s -> (1 <= s_degU s)%nat -> (1 <= s_degV s)%nat -> (2 <= np)%nat ->
  turned eps location s s' -> @offset_curve R (NumR eps) ldlt norm dim s' l = Ok c -> mean_length eps norm s' c np L ->
  eps * INR (s_degU s') < L -> countable (3 * length (s_ku s)) (3 * length (s_kv s)) ->
  exists r, @surf_extended_at R (NumR eps) lu ldlt norm dim np s l location natural mc = Ok r /\ clamped_surface eps r /\
    (s_u1 r, s_u2 r, (s_v1 r, s_v2 r)) = new_bounds location s L /\
    (forall u v, s_u1 s <= u <= s_u2 s -> s_v1 s <= v <= s_v2 s ->
       same_at eps dim s u v r (fst (place location L u v)) (snd (place location L u v)) 0 0) /\
    (forall t, fst (side_range location s) <= t <= snd (side_range location s) ->
       exists z z', @surf_value R (NumR eps) r (fst (new_side location s L t)) (snd (new_side location s L t)) 0 0 = Ok z /\
         @value R (NumR eps) c t 0 = Ok z' /\ forall i, (i < dim)%nat -> z i = z' i).
Proof.
  intros eps lu ldlt norm dim np s s' l c L location natural mc He. setoid_rewrite <- (cs_clamped eps He). intros. apply (extended_at_ok eps He lu ldlt norm dim np s s' l c L location natural mc); assumption.
Qed.
