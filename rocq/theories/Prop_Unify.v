(** Properties C27 (unification) and C28 (joining of curves). *)
From Coq Require Import List Arith ZArith QArith Reals.
From Verif Require Import Model_Base Model_Curve Model_Elevate Model_Unify
  Spec_Base Spec_Basis Spec_Knots Spec_Elevate Spec_Unify
  Proof_Elevate6 Proof_Unify4 Proof_Unify5 Proof_Join2 Proof_Join3 Proof_PropUnify.
Import ListNotations.
Local Open Scope R_scope.

(** C27: clamped curves of one degree, whose knots (moved to the interval of the first
    curve) are equal or more than eps apart.  All results have one knot vector, in which
    each knot has the largest of its multiplicities, and evaluate as before. *)
Theorem C27_unify_knots : forall eps p (P0 : list (pt R)) (k0 : list R) rest, 0 < eps ->
  Forall (clamped_info eps p) ((P0, k0, p) :: rest) -> knots_apart eps k0 ((P0, k0, p) :: rest) ->
  exists k cs', @unify_knots R (NumR eps) ((P0, k0, p) :: rest) = Ok cs' /\
    length cs' = length ((P0, k0, p) :: rest) /\ nondecreasing k /\
    first_knot k = first_knot k0 /\ last_knot k = last_knot k0 /\
    (forall x, count_occ Req_EM_T k x = max_multiplicity k0 ((P0, k0, p) :: rest) x) /\
    forall i c, nth_error ((P0, k0, p) :: rest) i = Some c -> exists P', nth_error cs' i = Some (P', k, p) /\
      (length P' + p + 1 = length k)%nat /\ clamped_info eps p (P', k, p) /\
      forall x d, first_knot (knots_of c) <= x <= last_knot (knots_of c) ->
        same_value eps (knots_of c) (poles_of c) p x k P' p (rescale k0 (knots_of c) x) (ratio k0 (knots_of c)) d.
Proof. exact unify_knots_ok. Qed.
Print Assumptions C27_unify_knots.

(** The same for curve objects. *)
Theorem C27_unify_curves_knots : forall eps p (c0 : curve R) rest, 0 < eps ->
  Forall (fun c => c_deg c = p /\ clamped_object eps c) (c0 :: rest) ->
  knots_apart eps (c_knots c0) (map info_of (c0 :: rest)) ->
  exists k cs', @unify_curves_knots R (NumR eps) (c0 :: rest) = Ok cs' /\
    length cs' = length (c0 :: rest) /\ nondecreasing k /\
    (forall x, count_occ Req_EM_T k x = max_multiplicity (c_knots c0) (map info_of (c0 :: rest)) x) /\
    forall i c, nth_error (c0 :: rest) i = Some c ->
      exists P', nth_error cs' i = Some (mk p P' k (c_lo c0) (c_hi c0)) /\
      (length P' + p + 1 = length k)%nat /\
      forall x d, c_lo c <= x <= c_hi c ->
        exists q q', @value R (NumR eps) c x d = Ok q /\
          @value R (NumR eps) (mk p P' k (c_lo c0) (c_hi c0)) (rescale (c_knots c0) (c_knots c) x) d = Ok q' /\
          forall j, ratio (c_knots c0) (c_knots c) ^ d * q' j = q j.
Proof. exact unify_curves_ok. Qed.
Print Assumptions C27_unify_curves_knots.

Example C27_applies : 0 < 1 / 10 /\
  Forall (fun c => c_deg c = 2%nat /\ clamped_object (1 / 10) c) [lit_curve; lit_curve2] /\
  Forall (clamped_info (1 / 10) 2) (map info_of [lit_curve; lit_curve2]) /\
  knots_apart (1 / 10) (c_knots lit_curve) (map info_of [lit_curve; lit_curve2]) /\
  max_multiplicity (c_knots lit_curve) (map info_of [lit_curve; lit_curve2]) (3 / 2) = 1%nat.
Proof. exact lit_unify. Qed.

(** Before that the curves are brought to the largest degree: the interval, the distinct
    knots and all values stay, each multiplicity grows by the same number. *)
Theorem C27_unify_degree : forall eps (cs : list (@info R)), 0 < eps -> cs <> [] ->
  (forall c, In c cs -> clamped_info eps (snd c) c /\ (snd c <= 12)%nat) ->
  let m := list_max (map snd cs) in
  exists cs', @unify_degree R (NumR eps) cs = Ok cs' /\ length cs' = length cs /\
    forall i c, nth_error cs i = Some c -> exists P' k', nth_error cs' i = Some (P', k', m) /\
      clamped_info eps m (P', k', m) /\
      first_knot k' = first_knot (knots_of c) /\ last_knot k' = last_knot (knots_of c) /\
      (forall x, In x (knots_of c) ->
        count_occ Req_EM_T k' x = (count_occ Req_EM_T (knots_of c) x + (m - snd c))%nat) /\
      (forall x, In x k' -> In x (knots_of c)) /\
      forall x d, first_knot (knots_of c) <= x <= last_knot (knots_of c) ->
        same_value eps (knots_of c) (poles_of c) (snd c) x k' P' m x 1 d.
Proof. exact unify_degree_ok. Qed.
Print Assumptions C27_unify_degree.
Example C27_degree_applies : 0 < 1 / 10 /\ [info_of lit_curve; info_of lit_line] <> [] /\
  (forall c, In c [info_of lit_curve; info_of lit_line] -> clamped_info (1 / 10) (snd c) c /\ (snd c <= 12)%nat).
Proof. exact lit_degrees. Qed.

(** Without the distance between knots the claim is false: knots closer than the tolerance
    are taken for one another but keep their values, so the knot vectors differ. *)
Theorem C27_close_knots_refuted : exists (P0 P1 P0' P1' : list (pt Q)) k0' k1',
  @unify_knots Q NumQ [(P0, [0; 0; 1 # 2; 1; 1]%Q, 1%nat); (P1, [0; 0; (1 # 2) + half_eps; 1; 1]%Q, 1%nat)]
    = Ok [(P0', k0', 1%nat); (P1', k1', 1%nat)] /\
  length P0 = 3%nat /\ length P1 = 3%nat /\
  exists x y, nth_error k0' 2 = Some x /\ nth_error k1' 2 = Some y /\ ~ (x == y)%Q.
Proof. exact close_knots. Qed.
Print Assumptions C27_close_knots_refuted.

(** It is false for piecewise constant curves, whose knots are never inserted. *)
Theorem C27_degree_zero_refuted : exists (P0 P1 P0' P1' : list (pt Q)) k0' k1',
  @unify_knots Q NumQ [(P0, [0; 1]%Q, 0%nat); (P1, [0; 1 # 2; 1]%Q, 0%nat)] = Ok [(P0', k0', 0%nat); (P1', k1', 0%nat)] /\
  length P0 = 1%nat /\ length P1 = 2%nat /\ length k0' <> length k1'.
Proof. exact degree_zero. Qed.
Print Assumptions C27_degree_zero_refuted.

(** C28: two clamped curves, the second starting where the first ends.  The joined curve is
    the first on its interval (at its end for the position only: the one derivative there is
    that of the second), then the second, shifted. *)
Theorem C28_join : forall eps (c1 c2 : curve R), 0 < eps -> clamped_object eps c1 -> clamped_object eps c2 ->
  (1 <= max (c_deg c1) (c_deg c2) <= 12)%nat ->
  (exists q1 q2, @value R (NumR eps) c1 (c_hi c1) 0 = Ok q1 /\ @value R (NumR eps) c2 (c_lo c2) 0 = Ok q2 /\
     forall i, q1 i = q2 i) ->
  exists c, @join R (NumR eps) c1 c2 = Ok c /\ c_deg c = max (c_deg c1) (c_deg c2) /\
    c_lo c = c_lo c1 /\ c_hi c = c_hi c1 + (c_hi c2 - c_lo c2) /\
    (forall x d, c_lo c1 <= x < c_hi c1 \/ (x = c_hi c1 /\ d = 0%nat) ->
       exists q q', @value R (NumR eps) c1 x d = Ok q /\ @value R (NumR eps) c x d = Ok q' /\ forall i, q' i = q i) /\
    (forall x d, c_lo c2 <= x <= c_hi c2 ->
       exists q q', @value R (NumR eps) c2 x d = Ok q /\
         @value R (NumR eps) c (x + (c_hi c1 - c_lo c2)) d = Ok q' /\ forall i, q' i = q i).
Proof. exact join_ok. Qed.
Print Assumptions C28_join.
Example C28_applies : 0 < 1 / 10 /\ clamped_object (1 / 10) lit_curve /\ clamped_object (1 / 10) lit_line /\
  (1 <= max (c_deg lit_curve) (c_deg lit_line) <= 12)%nat /\
  (exists q1 q2, @value R (NumR (1 / 10)) lit_curve (c_hi lit_curve) 0 = Ok q1 /\
     @value R (NumR (1 / 10)) lit_line (c_lo lit_line) 0 = Ok q2 /\ forall i, q1 i = q2 i).
Proof. exact lit_join. Qed.

(** The same when either curve is rational: [r1], [r2] tell which; the poles of a rational
    curve carry the weight in coordinate dim, which must not vanish at the common point. *)
Theorem C28_join_rational : forall eps dim r1 r2 (c1 c2 : curve R), 0 < eps ->
  clamped_object eps c1 -> clamped_object eps c2 -> (1 <= max (c_deg c1) (c_deg c2) <= 12)%nat ->
  (r1 = true -> last (c_poles c1) (fun _ => 0) dim <> 0) ->
  (r2 = true -> nth 0 (c_poles c2) (fun _ => 0) dim <> 0) ->
  (exists q1 q2, curve_value eps dim r1 c1 (c_hi c1) 0 = Ok q1 /\ curve_value eps dim r2 c2 (c_lo c2) 0 = Ok q2 /\
     forall i, (i < dim)%nat -> q1 i = q2 i) ->
  exists c, @join_rational R (NumR eps) dim r1 r2 c1 c2 = Ok c /\ c_deg c = max (c_deg c1) (c_deg c2) /\
    c_lo c = c_lo c1 /\ c_hi c = c_hi c1 + (c_hi c2 - c_lo c2) /\
    (forall x d q, c_lo c1 <= x < c_hi c1 \/ (x = c_hi c1 /\ d = 0%nat) -> r1 = true \/ (d <= 20)%nat ->
       curve_value eps dim r1 c1 x d = Ok q ->
       exists q', @rational_value R (NumR eps) dim c x d = Ok q' /\ forall i, (i < dim)%nat -> q' i = q i) /\
    (forall x d q, c_lo c2 <= x <= c_hi c2 -> r2 = true \/ (d <= 20)%nat ->
       curve_value eps dim r2 c2 x d = Ok q ->
       exists q', @rational_value R (NumR eps) dim c (x + (c_hi c1 - c_lo c2)) d = Ok q' /\
         forall i, (i < dim)%nat -> q' i = q i).
Proof. exact join_rational_ok. Qed.
Print Assumptions C28_join_rational.
Example C28_rational_applies : 0 < 1 / 10 /\ clamped_object (1 / 10) lit_rat /\ clamped_object (1 / 10) lit_line1 /\
  (1 <= max (c_deg lit_rat) (c_deg lit_line1) <= 12)%nat /\
  (true = true -> last (c_poles lit_rat) (fun _ => 0) 1%nat <> 0) /\
  (false = true -> nth 0 (c_poles lit_line1) (fun _ => 0) 1%nat <> 0) /\
  (exists q1 q2, curve_value (1 / 10) 1 true lit_rat (c_hi lit_rat) 0 = Ok q1 /\
     curve_value (1 / 10) 1 false lit_line1 (c_lo lit_line1) 0 = Ok q2 /\ forall i, (i < 1)%nat -> q1 i = q2 i).
Proof. exact lit_join_rational. Qed.

(** The restriction to curves whose bounds are their end knots is needed: a curve trimmed
    without rebuilding it is joined untrimmed. *)
Theorem C28_trimmed_refuted : exists c c1 c2 c' e s v w,
  @mk_curve Q NumQ [q1 0; q1 2] [0; 0; 2; 2]%Q 1 = Ok c /\ @trim_curve Q NumQ c 0%Q 1%Q false = Ok c1 /\
  @mk_curve Q NumQ [q1 1; q1 5] [0; 0; 1; 1]%Q 1 = Ok c2 /\
  @value Q NumQ c1 (c_hi c1) 0 = Ok e /\ @value Q NumQ c2 (c_lo c2) 0 = Ok s /\ (e 0%nat == s 0%nat)%Q /\
  @join Q NumQ c1 c2 = Ok c' /\
  @value Q NumQ c1 (1 # 2)%Q 0 = Ok v /\ @value Q NumQ c' (1 # 2)%Q 0 = Ok w /\ ~ (v 0%nat == w 0%nat)%Q.
Proof. exact join_trimmed. Qed.
Print Assumptions C28_trimmed_refuted.

(** So is the bound on the degree. *)
Theorem C28_overflow_refuted : exists c1 c2,
  @mk_curve Q NumQ (repeat (q1 1) 14) (repeat 0 14 ++ repeat 1 14)%Q 13 = Ok c1 /\
  @mk_curve Q NumQ [q1 1; q1 5] [0; 0; 1; 1]%Q 1 = Ok c2 /\ @join Q NumQ c1 c2 = Undef IntOverflow.
Proof. exact join_overflow. Qed.
Print Assumptions C28_overflow_refuted.
