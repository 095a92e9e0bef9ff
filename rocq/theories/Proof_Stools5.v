(** Surfaces extended on any side. *)
From Coq Require Import List Arith ZArith Reals Lia Lra Bool.
From Verif Require Import Model_Base Spec_Base Spec_Basis Spec_Knots Spec_Eval Spec_Surface Spec_Interp Spec_Solve Spec_Elevate Spec_Unify Spec_Curve Spec_Gordon Spec_Connect Spec_Stools
  Model_Basis Model_Knots Model_Curve Model_Surface Model_Elevate Model_Unify Model_Interp Model_Gordon Model_Connect Model_Stools
  Proof_Base Proof_Basis Proof_Eval Proof_Insert Proof_Curve Proof_Trim Proof_PropBasis Proof_Ctor
  Proof_Knots Proof_Builders Proof_Elevate2 Proof_Elevate3 Proof_Elevate4 Proof_Unify Proof_Unify2 Proof_Unify3 Proof_Unify4 Proof_Unify5
  Proof_Join Proof_Join2 Proof_Json Proof_SurfEdit2
  Proof_Interp Proof_Interp3 Proof_Surface Proof_SurfEdit Proof_Skin1 Proof_Gordon1 Proof_Gordon2 Proof_Gordon4 Proof_Connect4 Proof_Connect5 Proof_Stools1 Proof_Stools2 Proof_Stools3 Proof_Stools4.
Import ListNotations.
Local Open Scope R_scope.

Section AtR.
Variable eps : R.
Local Hint Extern 0 (Num R) => exact (NumR eps) : typeclass_instances.
Hypothesis He : 0 < eps.

Lemma csurf_reverse s : csurf eps s -> exists s', reverseU s = Ok s' /\ csurf eps s' /\ s_degU s' = s_degU s /\ s_degV s' = s_degV s /\ s_kv s' = s_kv s /\
  length (s_ku s') = length (s_ku s) /\ s_u1 s' = s_u1 s /\ s_u2 s' = s_u2 s /\ s_v1 s' = s_v1 s /\ s_v2 s' = s_v2 s /\
  (forall u v dv, s_u1 s <= u <= s_u2 s -> s_v1 s <= v <= s_v2 s ->
    exists z z', surf_value s u v 0 dv = Ok z /\ surf_value s' (s_u1 s + s_u2 s - u) v 0 dv = Ok z' /\ forall c, z' c = z c) /\
  forall v, s_v1 s <= v <= s_v2 s ->
    exists z z', surf_value s (s_u1 s) v 1 0 = Ok z /\ surf_value s' (s_u2 s) v 1 0 = Ok z' /\ forall c, z' c = - z c.
Proof.
  intros H. destruct (csurf_bounds eps He s H) as (B1 & B2 & B3 & B4 & B5 & B6). pose proof H as (Oks & Ns & CU & CV & D1 & D2).
  destruct (ckn_gk eps He _ _ _ CU) as (KU & _ & Sf & St & Tt & _). pose proof KU as (LU & HU & _).
  destruct (reverseU_prop eps s ltac:(lra) Oks Ns) as (s' & E & Ok' & N' & _ & A1 & A2 & A3 & A4 & A5 & A6 & _ & A7 & A8); [unfold first_span; rewrite <- Nat.add_1_r; exact St|].
  pose proof (reverseU_eq eps s Oks) as E'. rewrite E in E'. injection E' as E'.
  assert (Ek : s_ku s' = krev (s_ku s)) by (rewrite E'; reflexivity).
  assert (C' : csurf eps s').
  { split; [exact Ok'|]. split; [exact N'|]. split; [|split; [|lia]].
    - destruct CU as (U & M & C & EK & EN). destruct (mirrored_clamped eps _ U M (first_knot (s_ku s) + last_knot (s_ku s)) C) as (X1 & X2 & X3).
      rewrite A1. exists (map (fun x => first_knot (s_ku s) + last_knot (s_ku s) - x) (rev U)), (rev M). split; [exact X1|]. split; [|rewrite A6, X3; exact EN].
      rewrite Ek. unfold krev. rewrite <- X2, <- EK. reflexivity.
    - unfold s_nV. rewrite A2, A3. exact CV. }
  destruct (csurf_bounds eps He s' C') as (_ & _ & B3' & B4' & _).
  exists s'. split; [exact E|]. split; [exact C'|]. split; [exact A1|]. split; [exact A2|]. split; [exact A3|].
  split; [rewrite Ek; unfold krev; rewrite map_length, rev_length; reflexivity|]. split; [exact A4|]. split; [exact A5|]. split; [congruence|]. split; [congruence|].
  split.
  2:{ intros v Hv. destruct (A8 (csurf_ev eps s H) (csurf_ev eps s' C') (s_u1 s) v (s_u2 s) v 1%nat 0%nat) as (z & z' & Z1 & Z2 & Z3).
      - split; [apply (csurf_dom eps He); auto; split; lra|]. split; [|split; [ring|reflexivity]].
        intros Hx. exfalso. rewrite Tt, Sf in Hx by lia. unfold first_knot in *. lra.
      - exists z, z'. split; [exact Z1|]. split; [exact Z2|]. intros c. rewrite Z3. unfold sign_u. simpl. ring. }
  intros u v dv Hu Hv. destruct (A8 (csurf_ev eps s H) (csurf_ev eps s' C') u v (s_u1 s + s_u2 s - u) v 0%nat dv) as (z & z' & Z1 & Z2 & Z3).
  - split; [apply (csurf_dom eps He); auto|]. split; [|auto].
    intros Hx. right. apply (ckn_count eps He _ _ _ u CU). rewrite Tt, Sf in Hx by lia. exact Hx.
  - exists z, z'. split; [exact Z1|]. split; [exact Z2|]. intros c. rewrite Z3. unfold sign_u. simpl. ring.
Qed.

(** The part of the extension that the sides share. *)
Lemma extended_points lu ldlt norm dim np s l c L (natural : bool) mc :
  complete_solver lu -> exact_solver ldlt -> csurf eps s -> (1 <= s_degU s)%nat -> (1 <= s_degV s)%nat -> (2 <= np)%nat ->
  offset_curve ldlt norm dim s l = Ok c -> mean_length eps norm s c np L ->
  eps * INR (s_degU s) < L -> countable (3 * length (s_ku s)) (length (s_kv s)) ->
  exists r, surf_extended lu ldlt norm dim np s l natural mc = Ok r /\ csurf eps r /\ 0 < L /\
    s_u1 r = s_u1 s /\ s_u2 r = s_u2 s + L /\ s_v1 r = s_v1 s /\ s_v2 r = s_v2 s /\
    (forall u v, s_v1 s <= v <= s_v2 s -> s_u1 s <= u <= s_u2 s -> same_at eps dim s u v r u v 0 0) /\
    edge_is eps dim r (s_u2 s + L) c.
Proof.
  intros Hco Hex H Hp Hq Hnp Ec HL HLe Hz.
  destruct (extended_length_ok eps He lu ldlt norm dim np s l c L natural mc Hco Hex H Hp Hq Hnp Ec HL HLe Hz) as (r & Er & Cr & R1 & R2 & R3 & R4 & R5 & R6 & R7 & R8 & R9 & _).
  exists r. split; [exact Er|]. split; [exact Cr|]. split.
  { pose proof (pos_INR (s_degU s)); pose proof (Rmult_le_pos eps (INR (s_degU s)) ltac:(lra) ltac:(lra)); lra. }
  repeat (split; [assumption|]). split; [|rewrite <- R5; exact R9].
  intros u v Hv Hu. apply R8; [exact Hv|]. destruct (Rle_lt_or_eq_dec u (s_u2 s) ltac:(lra)) as [Z|Z]; [left; lra|right; split; [exact Z|lia]].
Qed.

Theorem extended_at_ok lu ldlt norm dim np s s' l c L location (natural : bool) mc :
  complete_solver lu -> exact_solver ldlt -> csurf eps s -> (1 <= s_degU s)%nat -> (1 <= s_degV s)%nat -> (2 <= np)%nat ->
  turned eps location s s' -> offset_curve ldlt norm dim s' l = Ok c -> mean_length eps norm s' c np L ->
  eps * INR (s_degU s') < L -> countable (3 * length (s_ku s)) (3 * length (s_kv s)) ->
  exists r, surf_extended_at lu ldlt norm dim np s l location natural mc = Ok r /\ csurf eps r /\
    (s_u1 r, s_u2 r, (s_v1 r, s_v2 r)) = new_bounds location s L /\
    (forall u v, s_u1 s <= u <= s_u2 s -> s_v1 s <= v <= s_v2 s ->
       same_at eps dim s u v r (fst (place location L u v)) (snd (place location L u v)) 0 0) /\
    (forall t, fst (side_range location s) <= t <= snd (side_range location s) ->
       exists z z', surf_value r (fst (new_side location s L t)) (snd (new_side location s L t)) 0 0 = Ok z /\ value c t 0 = Ok z' /\
         forall i, (i < dim)%nat -> z i = z' i).
Proof.
  intros Hco Hex H Hp Hq Hnp Ht Ec HL HLe Hz.
  destruct (csurf_bounds eps He s H) as (B1 & B2 & B3 & B4 & B5 & B6).
  assert (Has : as_bssurf s = Ok s) by (apply (as_bssurf_ok eps He); auto; unfold countable in Hz; nia).
  destruct location; cbn [turned new_bounds place new_side side_range surf_extended_at fst snd] in *.
  - (* UStart *)
    rewrite Has. cbn [bind]. destruct (csurf_reverse s H) as (s1 & E1 & C1 & D1 & D2 & K1 & Lk & U1 & U2 & V1 & V2 & P1 & _). rewrite E1 in Ht. injection Ht as <-. rewrite E1. cbn [bind].
    destruct (extended_points lu ldlt norm dim np s1 l c L natural mc Hco Hex C1 ltac:(lia) ltac:(lia) Hnp Ec HL HLe) as (e & Ee & Ce & L0 & F1 & F2 & F3 & F4 & F5 & F6).
    { rewrite Lk, K1. unfold countable in *. nia. }
    rewrite Ee. cbn [bind]. destruct (csurf_reverse e Ce) as (r & Er & Cr & _ & _ & _ & _ & G1 & G2 & G3 & G4 & P2 & _).
    exists r. split; [exact Er|]. split; [exact Cr|]. split; [rewrite G1, G2, G3, G4, F1, F2, F3, F4, U1, U2, V1, V2; reflexivity|]. split.
    + intros u v Hu Hv. destruct (P1 u v 0%nat Hu Hv) as (z & z1 & Z1 & Z2 & Z3).
      destruct (F5 (s_u1 s + s_u2 s - u) v ltac:(lra) ltac:(lra)) as (y & y1 & Y1 & Y2 & Y3).
      destruct (P2 (s_u1 s + s_u2 s - u) v 0%nat ltac:(lra) ltac:(lra)) as (x & x1 & X1 & X2 & X3).
      rewrite Z2 in Y1. injection Y1 as <-. rewrite Y2 in X1. injection X1 as <-. rewrite F1, F2, U1, U2 in X2.
      replace (s_u1 s + (s_u2 s + L) - (s_u1 s + s_u2 s - u)) with (u + L) in X2 by ring.
      exists z, x1. split; [exact Z1|]. split; [exact X2|]. intros i Hi. rewrite X3, Y3, Z3 by exact Hi. reflexivity.
    + intros t Htr. destruct (F6 t 0%nat ltac:(lra)) as (z & z' & Z1 & Z2 & Z3).
      destruct (P2 (s_u2 s1 + L) t 0%nat ltac:(lra) ltac:(lra)) as (x & x1 & X1 & X2 & X3). rewrite Z1 in X1. injection X1 as <-.
      rewrite F1, F2, U1 in X2. replace (s_u1 s + (s_u2 s1 + L) - (s_u2 s1 + L)) with (s_u1 s) in X2 by ring.
      exists x1, z'. split; [exact X2|]. split; [exact Z2|]. intros i Hi. rewrite X3. apply Z3, Hi.
  - (* UEnd *)
    subst s'. destruct (extended_points lu ldlt norm dim np s l c L natural mc Hco Hex H Hp Hq Hnp Ec HL HLe) as (r & Er & Cr & L0 & F1 & F2 & F3 & F4 & F5 & F6).
    { unfold countable in *. nia. }
    exists r. split; [exact Er|]. split; [exact Cr|]. split; [rewrite F1, F2, F3, F4; reflexivity|]. split.
    + intros u v Hu Hv. apply F5; assumption.
    + intros t Htr. apply F6. rewrite F3, F4. exact Htr.
  - (* VStart *)
    rewrite Has. cbn [bind]. destruct (csurf_invert eps s He H) as (s0 & E0 & C0 & D01 & D02 & K01 & K02 & In0 & P0). rewrite E0. cbn [bind].
    destruct (csurf_bounds eps He s0 C0) as (A1 & A2 & A3 & A4 & _ & _).
    destruct (csurf_reverse s0 C0) as (s1 & E1 & C1 & D1 & D2 & K1 & Lk & U1 & U2 & V1 & V2 & P1 & _).
    destruct Ht as (a & Ea & Ht). rewrite E0 in Ea. injection Ea as <-. rewrite E1 in Ht. injection Ht as <-. rewrite E1. cbn [bind].
    destruct (extended_points lu ldlt norm dim np s1 l c L natural mc Hco Hex C1 ltac:(lia) ltac:(lia) Hnp Ec HL HLe) as (e & Ee & Ce & L0 & F1 & F2 & F3 & F4 & F5 & F6).
    { rewrite Lk, K1, K01, K02. unfold countable in *. nia. }
    rewrite Ee. cbn [bind]. destruct (csurf_reverse e Ce) as (r & Er & Cr & _ & _ & _ & _ & G1 & G2 & G3 & G4 & P2 & _). rewrite Er. cbn [bind].
    destruct (csurf_bounds eps He r Cr) as (Q1 & Q2 & Q3 & Q4 & _ & _).
    destruct (csurf_invert eps r He Cr) as (t0 & Et & Ct & _ & _ & Kt1 & Kt2 & Int & Pt).
    destruct (csurf_bounds eps He t0 Ct) as (T1 & T2 & T3 & T4 & _ & _).
    assert (W : s_u1 s0 = s_v1 s /\ s_u2 s0 = s_v2 s /\ s_v1 s0 = s_u1 s /\ s_v2 s0 = s_u2 s) by (rewrite A1, A2, A3, A4, K01, K02; auto).
    destruct W as (W1 & W2 & W3 & W4).
    exists t0. split; [exact Et|]. split; [exact Ct|]. split.
    { rewrite T1, T2, T3, T4, Kt1, Kt2, <- Q1, <- Q2, <- Q3, <- Q4, G1, G2, G3, G4, F1, F2, F3, F4, U1, U2, V1, V2, W1, W2, W3, W4. reflexivity. }
    split.
    + intros u v Hu Hv. destruct (P0 u v 0%nat 0%nat) as (z & Z1 & z0 & Z2 & Z3); [apply (csurf_dom eps He); auto|].
      destruct (P1 v u 0%nat ltac:(lra) ltac:(lra)) as (w & w1 & Y1 & Y2 & Y3). rewrite Z2 in Y1. injection Y1 as <-.
      destruct (F5 (s_u1 s0 + s_u2 s0 - v) u ltac:(lra) ltac:(lra)) as (y & y1 & X1 & X2 & X3). rewrite Y2 in X1. injection X1 as <-.
      destruct (P2 (s_u1 s0 + s_u2 s0 - v) u 0%nat ltac:(lra) ltac:(lra)) as (x & x1 & S1 & S2 & S3). rewrite X2 in S1. injection S1 as <-.
      rewrite F1, F2, U1, U2 in S2. replace (s_u1 s0 + (s_u2 s0 + L) - (s_u1 s0 + s_u2 s0 - v)) with (v + L) in S2 by ring.
      destruct (Pt (v + L) u 0%nat 0%nat) as (q & R1 & q1 & R2 & R3); [apply (csurf_dom eps He); auto; split; lra|]. rewrite S2 in R1. injection R1 as <-.
      exists z, q1. split; [exact Z1|]. split; [exact R2|]. intros i Hi. rewrite R3, S3, X3, Y3, Z3 by exact Hi. reflexivity.
    + intros t Htr. destruct (F6 t 0%nat ltac:(lra)) as (z & z' & Z1 & Z2 & Z3).
      destruct (P2 (s_u2 s1 + L) t 0%nat ltac:(lra) ltac:(lra)) as (x & x1 & X1 & X2 & X3). rewrite Z1 in X1. injection X1 as <-.
      rewrite F1, F2, U1, W1 in X2. replace (s_v1 s + (s_u2 s1 + L) - (s_u2 s1 + L)) with (s_v1 s) in X2 by ring.
      destruct (Pt (s_v1 s) t 0%nat 0%nat) as (q & R1 & q1 & R2 & R3); [apply (csurf_dom eps He); auto; split; lra|]. rewrite X2 in R1. injection R1 as <-.
      exists q1, z'. split; [exact R2|]. split; [exact Z2|]. intros i Hi. rewrite R3, X3. apply Z3, Hi.
  - (* VEnd *)
    rewrite Has. cbn [bind]. destruct (csurf_invert eps s He H) as (s0 & E0 & C0 & D01 & D02 & K01 & K02 & In0 & P0). rewrite E0 in Ht. injection Ht as <-. rewrite E0. cbn [bind].
    destruct (csurf_bounds eps He s0 C0) as (A1 & A2 & A3 & A4 & _ & _).
    destruct (extended_points lu ldlt norm dim np s0 l c L natural mc Hco Hex C0 ltac:(lia) ltac:(lia) Hnp Ec HL HLe) as (r & Er & Cr & L0 & F1 & F2 & F3 & F4 & F5 & F6).
    { rewrite K01, K02. unfold countable in *. nia. }
    rewrite Er. cbn [bind]. destruct (csurf_bounds eps He r Cr) as (Q1 & Q2 & Q3 & Q4 & _ & _).
    destruct (csurf_invert eps r He Cr) as (t0 & Et & Ct & _ & _ & Kt1 & Kt2 & Int & Pt).
    destruct (csurf_bounds eps He t0 Ct) as (T1 & T2 & T3 & T4 & _ & _).
    assert (W : s_u1 s0 = s_v1 s /\ s_u2 s0 = s_v2 s /\ s_v1 s0 = s_u1 s /\ s_v2 s0 = s_u2 s) by (rewrite A1, A2, A3, A4, K01, K02; auto).
    destruct W as (W1 & W2 & W3 & W4).
    exists t0. split; [exact Et|]. split; [exact Ct|]. split.
    { rewrite T1, T2, T3, T4, Kt1, Kt2, <- Q1, <- Q2, <- Q3, <- Q4, F1, F2, F3, F4, W1, W2, W3, W4. reflexivity. }
    split.
    + intros u v Hu Hv. destruct (P0 u v 0%nat 0%nat) as (z & Z1 & z0 & Z2 & Z3); [apply (csurf_dom eps He); auto|].
      destruct (F5 v u ltac:(lra) ltac:(lra)) as (y & y1 & X1 & X2 & X3). rewrite Z2 in X1. injection X1 as <-.
      destruct (Pt v u 0%nat 0%nat) as (q & R1 & q1 & R2 & R3); [apply (csurf_dom eps He); auto; split; lra|]. rewrite X2 in R1. injection R1 as <-.
      exists z, q1. split; [exact Z1|]. split; [exact R2|]. intros i Hi. rewrite R3, X3, Z3 by exact Hi. reflexivity.
    + intros t Htr. destruct (F6 t 0%nat ltac:(lra)) as (z & z' & Z1 & Z2 & Z3). rewrite W2 in Z1.
      destruct (Pt (s_v2 s + L) t 0%nat 0%nat) as (q & R1 & q1 & R2 & R3); [apply (csurf_dom eps He); auto; split; lra|]. rewrite Z1 in R1. injection R1 as <-.
      exists q1, z'. split; [exact R2|]. split; [exact Z2|]. intros i Hi. rewrite R3. apply Z3, Hi.
Qed.
End AtR.
