(** C72 to C74: surfaces through a grid of points, through constraints, through curves. *)
From Coq Require Import List Arith ZArith Reals Lia Lra.
From Verif Require Import Model_Base Model_Math Model_Knots Model_Curve Model_Interp Model_Surface Model_Skin
  Spec_Base Spec_Basis Spec_Knots Spec_Interp Spec_Surface Spec_Unify Spec_Skin Spec_Solve
  Proof_Skin3 Proof_Skin4 Proof_Skin8 Proof_Skin9 Proof_Gauss Proof_SW3 Proof_Elevate6 Proof_PropUnify Proof_PropSkin.
Import ListNotations.
Local Open Scope R_scope.

(** C72: a surface interpolating a grid of nu x nv points passes through each of them, at the
    parameters averaged over the rows and over the columns.  [lu] is the dense LU of Eigen:
    any solver that only returns solutions. *)
Theorem C72_grid : forall eps lu dist mode dim (Q : list (pt R)) nu nv p q s,
  exact_solver lu -> 0 <= eps -> (1 <= p < nu)%nat -> (1 <= q < nv)%nat -> length Q = (nu * nv)%nat ->
  spread dist mode (rows_of Q nu nv) nu -> spread dist mode (cols_of Q nu nv) nv ->
  @interpolate_grid R (NumR eps) lu (fun l => @curve_parametrization R (NumR eps) dist sqrt l mode true) dim Q nv p q = Ok s ->
  evaluable_surface eps s ->
  s_degU s = p /\ s_degV s = q /\ length (s_poles s) = (nu * nv)%nat /\
  exists u v, mean_params eps dist mode (rows_of Q nu nv) nu u /\ mean_params eps dist mode (cols_of Q nu nv) nv v /\
    s_u1 s = 0 /\ s_u2 s = kn u (nu - 1) /\ s_v1 s = 0 /\ s_v2 s = kn v (nv - 1) /\
    forall i j, (i < nu)%nat -> (j < nv)%nat ->
      surface_passes eps dim s (kn u i) (kn v j) 0 0 (nth (i + nu * j) Q (fun _ => 0)).
Proof. exact grid_ok_interp. Qed.
Print Assumptions C72_grid.

(** With a solver that returns for every nonsingular matrix, the surface is always found. *)
Theorem C72_grid_returns : forall eps lu dist mode dim (Q : list (pt R)) nu nv p q,
  complete_solver lu -> 0 <= eps -> (1 <= p < nu)%nat -> (1 <= q < nv)%nat -> (p <= 24)%nat -> (q <= 24)%nat ->
  length Q = (nu * nv)%nat ->
  (Z.of_nat (nu + p + 1) < 2 ^ 64)%Z -> (Z.of_nat (nv + q + 1) < 2 ^ 64)%Z -> (Z.of_nat (nu * nv) < 2 ^ 64)%Z ->
  spread dist mode (rows_of Q nu nv) nu -> spread dist mode (cols_of Q nu nv) nv ->
  exists s, @interpolate_grid R (NumR eps) lu (fun l => @curve_parametrization R (NumR eps) dist sqrt l mode true) dim Q nv p q = Ok s /\
    evaluable_surface eps s.
Proof. exact grid_returns. Qed.
Print Assumptions C72_grid_returns.
(** A grid of 3 x 2 points of the plane, degrees 2 and 1. *)
Example C72_nonvacuous : complete_solver gauss /\ length lit_grid = (3 * 2)%nat /\
  spread taxicab ChordLength (rows_of lit_grid 3 2) 3 /\ spread taxicab ChordLength (cols_of lit_grid 3 2) 2 /\
  exists s, @interpolate_grid R (NumR (1 / 10)) gauss
    (fun l => @curve_parametrization R (NumR (1 / 10)) taxicab sqrt l ChordLength true) 2 lit_grid 2 2 1 = Ok s /\
    evaluable_surface (1 / 10) s.
Proof. exact (conj gauss_complete lit_grid_ok). Qed.

(** C73: a surface built from nu x nv constraints (a parameter pair, a derivation order, a
    point) meets every one of them, over the rectangle asked for. *)
Theorem C73_constraints : forall eps lu dim (Q : list (@scons R)) nu nv p q u1 u2 v1 v2 mu mv s,
  exact_solver lu -> 0 <= eps -> (p < nu)%nat -> (q < nv)%nat -> length Q = (nu * nv)%nat -> u1 < u2 -> v1 < v2 ->
  @interpolate_surf_constraints R (NumR eps) lu dim Q nv p q u1 u2 v1 v2 mu mv = Ok s -> evaluable_surface eps s ->
  s_degU s = p /\ s_degV s = q /\ length (s_poles s) = (nu * nv)%nat /\
  s_u1 s = u1 /\ s_u2 s = u2 /\ s_v1 s = v1 /\ s_v2 s = v2 /\
  forall c, In c Q -> surface_passes eps dim s (sc_u c) (sc_v c) (sc_du c) (sc_dv c) (sc_x c).
Proof. exact surf_constraints_ok. Qed.
Print Assumptions C73_constraints.

(** Constraints outside the rectangle, a count that is no multiple of nv and a count of inner
    poles that is no multiple of the knot multiplicity are rejected. *)
Theorem C73_rejects : forall eps lu dim (Q : list (@scons R)) nv p q u1 u2 v1 v2 mu mv, Q <> [] ->
  ((exists c, In c Q /\ ~ (u1 <= sc_u c <= u2 /\ v1 <= sc_v c <= v2)) ->
   @interpolate_surf_constraints R (NumR eps) lu dim Q nv p q u1 u2 v1 v2 mu mv = Throw InvalidArgument) /\
  ((forall c, In c Q -> u1 <= sc_u c <= u2 /\ v1 <= sc_v c <= v2) -> (0 < nv)%nat -> (length Q mod nv <> 0)%nat ->
   @interpolate_surf_constraints R (NumR eps) lu dim Q nv p q u1 u2 v1 v2 mu mv = Throw LengthError) /\
  ((forall c, In c Q -> u1 <= sc_u c <= u2 /\ v1 <= sc_v c <= v2) -> u1 < u2 -> v1 < v2 ->
   forall nu, length Q = (nu * nv)%nat -> (p < nu)%nat -> (q < nv)%nat -> (0 < mu)%nat -> (0 < mv)%nat ->
   ((nu - p - 1) mod mu <> 0 \/ (nv - q - 1) mod mv <> 0)%nat ->
   @interpolate_surf_constraints R (NumR eps) lu dim Q nv p q u1 u2 v1 v2 mu mv = Throw InvalidArgument).
Proof. exact surf_constraints_rejects. Qed.
Print Assumptions C73_rejects.

(** When the constraints determine the poles, the surface is found. *)
Theorem C73_constraints_returns : forall eps lu dim (Q : list (@scons R)) nu nv p q u1 u2 v1 v2 mu mv,
  complete_solver lu -> 0 <= eps -> (p < nu)%nat -> (q < nv)%nat -> (p <= 24)%nat -> (q <= 24)%nat ->
  length Q = (nu * nv)%nat -> u1 < u2 -> v1 < v2 ->
  (Z.of_nat (nu + p + 1) < 2 ^ 64)%Z -> (Z.of_nat (nv + q + 1) < 2 ^ 64)%Z -> (Z.of_nat (nu * nv) < 2 ^ 64)%Z ->
  (0 < mu)%nat -> (0 < mv)%nat -> ((nu - (p + 1)) mod mu = 0)%nat -> ((nv - (q + 1)) mod mv = 0)%nat ->
  (forall c, In c Q -> u1 <= sc_u c <= u2 /\ v1 <= sc_v c <= v2) ->
  (forall ku kv, @build_mult_flat_knots_range R (NumR eps) u1 u2 (2 + (nu - (p + 1)) / mu) p mu = Ok ku ->
     @build_mult_flat_knots_range R (NumR eps) v1 v2 (2 + (nv - (q + 1)) / mv) q mv = Ok kv -> determine eps Q ku kv p q) ->
  exists s, @interpolate_surf_constraints R (NumR eps) lu dim Q nv p q u1 u2 v1 v2 mu mv = Ok s /\ evaluable_surface eps s.
Proof. exact surf_constraints_returns. Qed.
Print Assumptions C73_constraints_returns.
(** The four corners of a bilinear patch. *)
Example C73_nonvacuous : length lit_corners = (2 * 2)%nat /\
  (forall c, In c lit_corners -> 0 <= sc_u c <= 1 /\ 0 <= sc_v c <= 1) /\
  (forall ku kv, @build_mult_flat_knots_range R (NumR (1 / 10)) 0 1 (2 + (2 - (1 + 1)) / 1) 1 1 = Ok ku ->
     @build_mult_flat_knots_range R (NumR (1 / 10)) 0 1 (2 + (2 - (1 + 1)) / 1) 1 1 = Ok kv ->
     determine (1 / 10) lit_corners ku kv 1 1) /\
  exists s, @interpolate_surf_constraints R (NumR (1 / 10)) gauss 2 lit_corners 2 1 1 0 1 0 1 1 1 = Ok s /\ evaluable_surface (1 / 10) s.
Proof. exact lit_corners_ok. Qed.

(** C74: a loft carries each of its sections, with all its derivatives, as the isoparametric
    curve at the parameter given for it. *)
Theorem C74_loft : forall eps lu dim c0 rest, let cs := c0 :: rest in forall (v : list R) q s, 0 < eps ->
  exact_solver lu -> (0 < dim)%nat ->
  loftable eps c0 cs -> length v = length cs -> (1 <= q)%nat -> (2 <= length cs)%nat -> strictly_increasing v ->
  @loft R (NumR eps) lu dim cs v q = Ok s -> evaluable_surface eps s ->
  s_degU s = list_max (map c_deg cs) /\ s_degV s = Nat.min q (length cs - 1) /\
  s_u1 s = c_lo c0 /\ s_u2 s = c_hi c0 /\ s_v1 s = kn v 0 /\ s_v2 s = kn v (length v - 1) /\
  forall j c, nth_error cs j = Some c -> carries eps dim s c0 c (nth j v 0).
Proof. exact loft_ok. Qed.
Print Assumptions C74_loft.

(** With a knot vector of the caller. *)
Theorem C74_loft_knots : forall eps lu dim c0 rest, let cs := c0 :: rest in forall (v kv : list R) q s, 0 < eps ->
  exact_solver lu -> (0 < dim)%nat ->
  loftable eps c0 cs -> length v = length cs -> knots_ok kv (length v) (Nat.min q (length cs - 1)) ->
  (forall x, In x v -> kn kv (Nat.min q (length cs - 1)) <= x <= kn kv (length v)) ->
  @loft_knots R (NumR eps) lu dim cs v kv q = Ok s -> evaluable_surface eps s ->
  s_degU s = list_max (map c_deg cs) /\ s_degV s = Nat.min q (length cs - 1) /\ s_kv s = kv /\
  s_u1 s = c_lo c0 /\ s_u2 s = c_hi c0 /\ s_v1 s = first_knot kv /\ s_v2 s = last_knot kv /\
  forall j c, nth_error cs j = Some c -> carries eps dim s c0 c (nth j v 0).
Proof. exact loft_knots_ok. Qed.
Print Assumptions C74_loft_knots.

(** With parameters computed from the sections: they increase from 0 to 1. *)
Theorem C74_loft_auto : forall eps lu dist dim c0 rest q s, let cs := c0 :: rest in 0 < eps ->
  exact_solver lu -> (0 < dim)%nat -> separates dim dist ->
  loftable eps c0 cs -> (1 <= q)%nat -> (2 <= length cs)%nat ->
  (forall j c c', nth_error cs j = Some c -> nth_error cs (S j) = Some c' -> sections_differ eps dim c c') ->
  @loft_auto R (NumR eps) lu (fun l => @curve_parametrization R (NumR eps) dist sqrt l ChordLength false) dim cs q = Ok s ->
  evaluable_surface eps s ->
  s_degU s = list_max (map c_deg cs) /\ s_degV s = Nat.min q (length cs - 1) /\
  s_u1 s = c_lo c0 /\ s_u2 s = c_hi c0 /\ s_v1 s = 0 /\ s_v2 s = 1 /\
  exists v, length v = length cs /\ strictly_increasing v /\ kn v 0 = 0 /\ kn v (length cs - 1) = 1 /\
    forall j c, nth_error cs j = Some c -> carries eps dim s c0 c (nth j v 0).
Proof. exact loft_auto_ok. Qed.
Print Assumptions C74_loft_auto.

(** The same three for rational sections, on values. *)
Theorem C74_loft_rational : forall eps lu dim c0 rest, let cs := c0 :: rest in forall (v : list R) q s, 0 < eps ->
  exact_solver lu ->
  loftable eps c0 cs -> length v = length cs -> (1 <= q)%nat -> (2 <= length cs)%nat -> strictly_increasing v ->
  @loft R (NumR eps) lu (S dim) cs v q = Ok s -> evaluable_surface eps s ->
  forall j c, nth_error cs j = Some c -> carries_rational eps dim s c0 c (nth j v 0).
Proof. exact loft_rational_ok. Qed.
Print Assumptions C74_loft_rational.
Theorem C74_loft_knots_rational : forall eps lu dim c0 rest, let cs := c0 :: rest in forall (v kv : list R) q s, 0 < eps ->
  exact_solver lu ->
  loftable eps c0 cs -> length v = length cs -> knots_ok kv (length v) (Nat.min q (length cs - 1)) ->
  (forall x, In x v -> kn kv (Nat.min q (length cs - 1)) <= x <= kn kv (length v)) ->
  @loft_knots R (NumR eps) lu (S dim) cs v kv q = Ok s -> evaluable_surface eps s ->
  forall j c, nth_error cs j = Some c -> carries_rational eps dim s c0 c (nth j v 0).
Proof. exact loft_knots_rational_ok. Qed.
Print Assumptions C74_loft_knots_rational.
Theorem C74_loft_auto_rational : forall eps lu dist dim c0 rest q s, let cs := c0 :: rest in 0 < eps ->
  exact_solver lu -> separates (S dim) dist ->
  loftable eps c0 cs -> (1 <= q)%nat -> (2 <= length cs)%nat ->
  (forall j c c', nth_error cs j = Some c -> nth_error cs (S j) = Some c' -> sections_differ eps (S dim) c c') ->
  @loft_auto R (NumR eps) lu (fun l => @curve_parametrization R (NumR eps) dist sqrt l ChordLength false) (S dim) cs q = Ok s ->
  evaluable_surface eps s ->
  exists v, length v = length cs /\ strictly_increasing v /\ kn v 0 = 0 /\ kn v (length cs - 1) = 1 /\
    forall j c, nth_error cs j = Some c -> carries_rational eps dim s c0 c (nth j v 0).
Proof. exact loft_auto_rational_ok. Qed.
Print Assumptions C74_loft_auto_rational.

(** Lofts are always found. *)
Theorem C74_loft_returns : forall eps lu dim c0 rest, let cs := c0 :: rest in forall (v : list R) q, 0 < eps ->
  complete_solver lu -> (0 < dim)%nat ->
  loftable eps c0 cs -> length v = length cs -> (1 <= q <= 24)%nat -> (2 <= length cs)%nat -> strictly_increasing v ->
  (Z.of_nat (13 * list_sum (map (fun c => length (c_knots c)) cs) * (length cs + 25)) < 2 ^ 64)%Z ->
  exists s, @loft R (NumR eps) lu dim cs v q = Ok s /\ evaluable_surface eps s.
Proof. exact loft_returns. Qed.
Print Assumptions C74_loft_returns.
Theorem C74_loft_auto_returns : forall eps lu dist dim c0 rest q, let cs := c0 :: rest in 0 < eps ->
  complete_solver lu -> (0 < dim)%nat -> separates dim dist ->
  loftable eps c0 cs -> (1 <= q <= 24)%nat -> (2 <= length cs)%nat ->
  (forall j c c', nth_error cs j = Some c -> nth_error cs (S j) = Some c' -> sections_differ eps dim c c') ->
  (Z.of_nat (169 * list_sum (map (fun c => length (c_knots c)) cs) * length cs * (length cs + 25)) < 2 ^ 64)%Z ->
  exists s, @loft_auto R (NumR eps) lu (fun l => @curve_parametrization R (NumR eps) dist sqrt l ChordLength false) dim cs q = Ok s /\
    evaluable_surface eps s.
Proof. exact loft_auto_returns. Qed.
Print Assumptions C74_loft_auto_returns.
(** Two plane sections of different knots (or two rational sections of the line). *)
Example C74_nonvacuous : separates 2 taxicab /\ loftable (1 / 10) lit_curve [lit_curve; lit_curve2] /\
  (forall j c c', nth_error [lit_curve; lit_curve2] j = Some c -> nth_error [lit_curve; lit_curve2] (S j) = Some c' ->
     sections_differ (1 / 10) 2 c c') /\
  (exists s, @loft R (NumR (1 / 10)) gauss 2 [lit_curve; lit_curve2] [0; 1] 3 = Ok s /\ evaluable_surface (1 / 10) s) /\
  exists s, @loft_auto R (NumR (1 / 10)) gauss
    (fun l => @curve_parametrization R (NumR (1 / 10)) taxicab sqrt l ChordLength false) 2 [lit_curve; lit_curve2] 3 = Ok s /\
    evaluable_surface (1 / 10) s.
Proof. exact (conj taxicab_separates (conj lit_loftable (conj lit_differ (conj lit_loft lit_loft_auto)))). Qed.
