(** Degree elevation and Bezier decomposition: properties C22 and C23. *)
From Coq Require Import List Arith Reals.
From Verif Require Import Model_Base Model_Basis Model_Knots Model_Curve Model_Surface Model_Elevate
  Spec_Base Spec_Basis Spec_Knots Spec_Eval Spec_Class Spec_Surface Spec_Rational Spec_Elevate
  Proof_Elevate4 Proof_Elevate5 Proof_Elevate6.
Import ListNotations.
Local Open Scope R_scope.

(** C22 for one Bezier segment: the new poles give the same polynomial. *)
Theorem C22_bezier : forall eps p t (P : list (pt R)), length P = (p + 1)%nat -> (p + t <= 12)%nat ->
  exists Q, @increase_bezier_degree R (NumR eps) P p t = Ok Q /\ length Q = (p + t + 1)%nat /\
    forall c x, bernstein (p + t) (polec Q c) x = bernstein p (polec P c) x.
Proof. exact bezier_statement. Qed.
Print Assumptions C22_bezier.
Example C22_bezier_applies : length [pt2 0 0; pt2 1 2; pt2 3 0] = (2 + 1)%nat /\ (2 + 1 <= 12)%nat.
Proof. exact lit_bezier. Qed.

(** Without the bound on the degree the claim is false: from degree 13 on the binomial
    coefficients overflow int. *)
Theorem C22_overflow_refuted : forall eps (P : list (pt R)) p t, (12 < p + t)%nat ->
  @increase_bezier_degree R (NumR eps) P p t = Undef IntOverflow.
Proof. exact bezier_overflow. Qed.
Print Assumptions C22_overflow_refuted.

(** C22 for curves: knots U with multiplicities M become U with multiplicities M + t, and
    every value and every derivative, of any order, is kept. *)
Theorem C22_increase_degree : forall eps p t U M (P : list (pt R)), 0 < eps -> clamped_knots eps p U M ->
  length P = poles_for p M -> (p + t <= 12)%nat ->
  exists P', @increase_degree R (NumR eps) (repeat_each U M) P p t = Ok (repeat_each U (map (Nat.add t) M), P') /\
    length P' = poles_for (p + t) (map (Nat.add t) M) /\
    clamped_knots eps (p + t) U (map (Nat.add t) M) /\
    forall x d, kn U 0 <= x <= kn U (length U - 1) ->
      exists q q', @eval_value R (NumR eps) x (repeat_each U M) P p d = Ok q /\
        @eval_value R (NumR eps) x (repeat_each U (map (Nat.add t) M)) P' (p + t) d = Ok q' /\ forall c, q' c = q c.
Proof. exact elevate_statement. Qed.
Print Assumptions C22_increase_degree.

Theorem C22_increaseDegree : forall eps (c : curve R) t U M, 0 < eps -> c_knots c = repeat_each U M ->
  clamped_knots eps (c_deg c) U M -> length (c_poles c) = poles_for (c_deg c) M -> natural_bounds c -> (c_deg c + t <= 12)%nat ->
  exists c', @increaseDegree R (NumR eps) c t = Ok c' /\ c_deg c' = (c_deg c + t)%nat /\
    c_knots c' = repeat_each U (map (Nat.add t) M) /\
    length (c_poles c') = poles_for (c_deg c + t) (map (Nat.add t) M) /\
    c_lo c' = c_lo c /\ c_hi c' = c_hi c /\ natural_bounds c' /\
    forall x d, c_lo c <= x <= c_hi c -> exists q q', @value R (NumR eps) c x d = Ok q /\
      @value R (NumR eps) c' x d = Ok q' /\ forall i, q' i = q i.
Proof. exact curve_statement. Qed.
Print Assumptions C22_increaseDegree.
Example C22_applies : 0 < 1 / 10 /\ clamped_knots (1 / 10) 2 [0; 1; 2] [3; 1; 3]%nat /\
  c_knots lit_curve = repeat_each [0; 1; 2] [3; 1; 3]%nat /\ c_deg lit_curve = 2%nat /\
  length (c_poles lit_curve) = poles_for 2 [3; 1; 3]%nat /\ natural_bounds lit_curve /\ (2 + 1 <= 12)%nat.
Proof. exact lit_curve_ok. Qed.

(** C22 for surfaces, in each direction. *)
Theorem C22_increaseDegreeU : forall eps (s : surf R) U M, 0 < eps -> surface_ok s -> natural_surface s ->
  s_ku s = repeat_each U M -> clamped_knots eps (s_degU s) U M -> (s_degU s <= 11)%nat ->
  exists s', @increaseDegreeU R (NumR eps) s = Ok s' /\ surface_ok s' /\ natural_surface s' /\
    s_degU s' = (s_degU s + 1)%nat /\ s_degV s' = s_degV s /\ s_kv s' = s_kv s /\ s_ku s' = repeat_each U (map S M) /\
    (forall x y, in_surface s' x y <-> in_surface s x y) /\
    (evaluable_surface eps s -> evaluable_surface eps s' -> surfaces_agree eps s s' (same_params s) one).
Proof. exact increaseU_prop. Qed.
Print Assumptions C22_increaseDegreeU.
Theorem C22_increaseDegreeV : forall eps (s : surf R) U M, 0 < eps -> surface_ok s -> natural_surface s ->
  s_kv s = repeat_each U M -> clamped_knots eps (s_degV s) U M -> (s_degV s <= 11)%nat ->
  exists s', @increaseDegreeV R (NumR eps) s = Ok s' /\ surface_ok s' /\ natural_surface s' /\
    s_degV s' = (s_degV s + 1)%nat /\ s_degU s' = s_degU s /\ s_ku s' = s_ku s /\ s_kv s' = repeat_each U (map S M) /\
    (forall x y, in_surface s' x y <-> in_surface s x y) /\
    (evaluable_surface eps s -> evaluable_surface eps s' -> surfaces_agree eps s s' (same_params s) one).
Proof. exact increaseV_prop. Qed.
Print Assumptions C22_increaseDegreeV.
Example C22_surface_applies : surface_ok lit_surf /\ natural_surface lit_surf /\
  s_ku lit_surf = repeat_each [0; 1; 2] [3; 1; 3]%nat /\ clamped_knots (1 / 10) (s_degU lit_surf) [0; 1; 2] [3; 1; 3]%nat /\
  s_kv lit_surf = repeat_each [0; 1] [2; 2]%nat /\ clamped_knots (1 / 10) (s_degV lit_surf) [0; 1] [2; 2]%nat /\
  evaluable_surface (1 / 10) lit_surf.
Proof. exact lit_surf_ok. Qed.

(** C23: one segment per knot span, in order, each with the poles of the Bezier polynomial
    that the curve is on that span; neighbours share a pole. *)
Theorem C23_segments : forall eps p U M (P : list (pt R)), 0 < eps -> clamped_knots eps p U M ->
  length P = poles_for p M -> (p <= 24)%nat ->
  exists segs, @bezier_segments R (NumR eps) (repeat_each U M) P p = Ok segs /\ length segs = (length U - 1)%nat /\
    (forall s, (S s < length U)%nat -> exists B, nth_error segs s = Some (B, (kn U s, kn U (S s))) /\
       length B = (p + 1)%nat /\
       forall x, kn U s <= x <= kn U (S s) -> exists q, @eval_value R (NumR eps) x (repeat_each U M) P p 0 = Ok q /\
         forall c, q c = bernstein p (polec B c) ((x - kn U s) / (kn U (S s) - kn U s))) /\
    (forall s B b B' b', nth_error segs s = Some (B, b) -> nth_error segs (S s) = Some (B', b') ->
       forall c, polec B c p = polec B' c 0%nat).
Proof. exact segments_statement. Qed.
Print Assumptions C23_segments.
Example C23_applies : 0 < 1 / 10 /\ clamped_knots (1 / 10) 2 [0; 1; 2] [3; 1; 3]%nat /\
  length (c_poles lit_curve) = poles_for 2 [3; 1; 3]%nat /\ (2 <= 24)%nat.
Proof. exact lit_segments_ok. Qed.
