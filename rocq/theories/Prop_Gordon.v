(** C78: unification of the knots of surfaces, and Gordon surfaces. *)
From Coq Require Import List Arith ZArith QArith Reals.
From Verif Require Import Model_Base Model_Curve Model_Knots Model_Interp Model_Surface Model_Unify Model_Math Model_Gordon
  Spec_Base Spec_Basis Spec_Knots Spec_Surface Spec_Elevate Spec_Unify Spec_Interp Spec_Solve Spec_Gordon
  Proof_Gordon3 Proof_Gordon8 Proof_Gauss Proof_PropSkin Proof_PropGordon Proof_PropGordon2.
Import ListNotations.
Local Open Scope R_scope.

(** Clamped surfaces of the same degrees, whose knots (moved to the intervals of the first
    surface) are equal or more than eps apart: the results share one pair of knot vectors, in
    which each knot has the largest of its multiplicities, and evaluate as before. *)
Theorem C78_unify_surfaces : forall eps p q s0 rest, let ss := s0 :: rest in 0 < eps ->
  Forall (clamped_sinfo eps p q) ss ->
  knots_apart eps (u_knots s0) (map u_info ss) -> knots_apart eps (v_knots s0) (map v_info ss) ->
  exists ku kv ss', @unify_surfaces R (NumR eps) ss = Ok ss' /\ length ss' = length ss /\
    nondecreasing ku /\ nondecreasing kv /\
    first_knot ku = first_knot (u_knots s0) /\ last_knot ku = last_knot (u_knots s0) /\
    first_knot kv = first_knot (v_knots s0) /\ last_knot kv = last_knot (v_knots s0) /\
    (forall x, count_occ Req_EM_T ku x = max_multiplicity (u_knots s0) (map u_info ss) x) /\
    (forall y, count_occ Req_EM_T kv y = max_multiplicity (v_knots s0) (map v_info ss) y) /\
    forall i s, nth_error ss i = Some s -> exists g', nth_error ss' i = Some (g', ku, kv, p, q) /\
      clamped_sinfo eps p q (g', ku, kv, p, q) /\
      forall x y du dv,
        first_knot (u_knots s) <= x <= last_knot (u_knots s) -> first_knot (v_knots s) <= y <= last_knot (v_knots s) ->
        same_surface_value eps s x y (g', ku, kv, p, q)
          (rescale (u_knots s0) (u_knots s) x) (rescale (v_knots s0) (v_knots s) y)
          (ratio (u_knots s0) (u_knots s)) (ratio (v_knots s0) (v_knots s)) du dv.
Proof. exact unify_surfaces_ok. Qed.
Print Assumptions C78_unify_surfaces.
Example C78_unify_applies : 0 < 1 / 10 /\ Forall (clamped_sinfo (1 / 10) 2 1) [lit_s0; lit_s1] /\
  knots_apart (1 / 10) (u_knots lit_s0) (map u_info [lit_s0; lit_s1]) /\
  knots_apart (1 / 10) (v_knots lit_s0) (map v_info [lit_s0; lit_s1]).
Proof. exact lit_ss. Qed.

(** The Gordon surface of a network of curves: U curves on [a, b], V curves on [c, d], crossing at
    the parameters u on the first U curve and v on the first V curve, from bound to bound.  At
    the crossings the surface is at the mean of the two curves; a curve that really meets all
    those of the other family at these parameters is an iso curve of the surface, with its
    derivatives.  The knots of the curves and the averaged knots are equal or more than eps
    apart. *)
Theorem C78_gordon : forall eps lu extrema dist dim tol u0 ur v0 vr (u v ku kv : list R) a b c d s,
  let us := u0 :: ur in let vs := v0 :: vr in
  let p := list_max (map c_deg us) in let q := list_max (map c_deg vs) in
  0 < eps -> exact_solver lu -> (0 < dim)%nat -> family eps us a b -> family eps vs c d ->
  crossing_params u (length vs) a b -> crossing_params v (length us) c d ->
  found extrema tol u0 vs u -> found extrema tol v0 us v ->
  @build_simple_mult_flat_knots R (NumR eps) u (Nat.min p (length u - 1)) = Ok ku ->
  @build_simple_mult_flat_knots R (NumR eps) v (Nat.min q (length v - 1)) = Ok kv ->
  far_apart eps (concat (map c_knots us) ++ ku) -> far_apart eps (concat (map c_knots vs) ++ kv) ->
  @gordon R (NumR eps) lu extrema dist dim tol us vs = Ok s ->
  s_degU s = p /\ s_degV s = q /\ s_u1 s = a /\ s_u2 s = b /\ s_v1 s = c /\ s_v2 s = d /\
  (forall i j cu cv, nth_error us i = Some cu -> nth_error vs j = Some cv ->
     exists x y z, @value R (NumR eps) cu (nth j u 0) 0 = Ok x /\ @value R (NumR eps) cv (nth i v 0) 0 = Ok y /\
       @surf_value R (NumR eps) s (nth j u 0) (nth i v 0) 0 0 = Ok z /\ forall k, (k < dim)%nat -> z k = (x k + y k) / 2) /\
  (forall i cu, nth_error us i = Some cu ->
     (forall j cv, nth_error vs j = Some cv -> meet eps dim cu (nth j u 0) cv (nth i v 0)) ->
     forall x du, a <= x <= b -> exists z z', @value R (NumR eps) cu x du = Ok z /\
       @surf_value R (NumR eps) s x (nth i v 0) du 0 = Ok z' /\ forall k, (k < dim)%nat -> z' k = z k) /\
  (forall j cv, nth_error vs j = Some cv ->
     (forall i cu, nth_error us i = Some cu -> meet eps dim cu (nth j u 0) cv (nth i v 0)) ->
     forall y dv, c <= y <= d -> exists z z', @value R (NumR eps) cv y dv = Ok z /\
       @surf_value R (NumR eps) s (nth j u 0) y 0 dv = Ok z' /\ forall k, (k < dim)%nat -> z' k = z k).
Proof. exact gordon_ok. Qed.
Print Assumptions C78_gordon.

(** Such a network has a Gordon surface, when the curves are within the tolerance at their
    crossings and the linear solver solves every nonsingular system. *)
Theorem C78_gordon_returns : forall eps lu extrema dist dim tol u0 ur v0 vr (u v ku kv : list R) a b c d,
  let us := u0 :: ur in let vs := v0 :: vr in
  let p := list_max (map c_deg us) in let q := list_max (map c_deg vs) in
  0 < eps -> complete_solver lu -> (0 < dim)%nat -> family eps us a b -> family eps vs c d ->
  crossing_params u (length vs) a b -> crossing_params v (length us) c d ->
  found extrema tol u0 vs u -> found extrema tol v0 us v ->
  @build_simple_mult_flat_knots R (NumR eps) u (Nat.min p (length u - 1)) = Ok ku ->
  @build_simple_mult_flat_knots R (NumR eps) v (Nat.min q (length v - 1)) = Ok kv ->
  far_apart eps (concat (map c_knots us) ++ ku) -> far_apart eps (concat (map c_knots vs) ++ kv) ->
  (forall i j cu cv, nth_error us i = Some cu -> nth_error vs j = Some cv ->
     exists x y, @value R (NumR eps) cu (nth j u 0) 0 = Ok x /\ @value R (NumR eps) cv (nth i v 0) 0 = Ok y /\ dist x y <= tol) ->
  (Z.of_nat (169 * (list_sum (map (fun c => length (c_knots c)) us) + length vs + 13) *
     (list_sum (map (fun c => length (c_knots c)) vs) + length us + 13)) < 2 ^ 64)%Z ->
  exists s, @gordon R (NumR eps) lu extrema dist dim tol us vs = Ok s.
Proof. exact gordon_returns. Qed.
Print Assumptions C78_gordon_returns.

(** A parabola and a segment, joined by two segments. *)
Example C78_gordon_nonvacuous : 0 < 1 / 10 /\ complete_solver gauss /\
  family (1 / 10) [lit_u0; lit_u1] 0 1 /\ family (1 / 10) [lit_v0; lit_v1] 0 1 /\ crossing_params [0; 1] 2 0 1 /\
  found lit_extrema 0 lit_u0 [lit_v0; lit_v1] [0; 1] /\ found lit_extrema 0 lit_v0 [lit_u0; lit_u1] [0; 1] /\
  (exists k, @build_simple_mult_flat_knots R (NumR (1 / 10)) [0; 1] 1 = Ok k /\
     far_apart (1 / 10) (concat (map c_knots [lit_u0; lit_u1]) ++ k) /\ far_apart (1 / 10) (concat (map c_knots [lit_v0; lit_v1]) ++ k)) /\
  (forall i j cu cv, nth_error [lit_u0; lit_u1] i = Some cu -> nth_error [lit_v0; lit_v1] j = Some cv ->
     meet (1 / 10) 2 cu (nth j [0; 1] 0) cv (nth i [0; 1] 0)) /\
  exists s, @gordon R (NumR (1 / 10)) gauss lit_extrema taxicab 2 0 [lit_u0; lit_u1] [lit_v0; lit_v1] = Ok s.
Proof. exact lit_gordon. Qed.

(** The curves have to end on the outer curves of the other family: here two segments overhang
    two curves, all crossings being exact, and the surface leaves the first of the two curves. *)
Theorem C78_overhang_refuted : exists s,
  @gordon Q NumQ identity_solver over_extrema distq 2 0%Q [over_u0; over_u1] [over_v0; over_v1] = Ok s /\
  (forall i j cu cv, nth_error [over_u0; over_u1] i = Some cu -> nth_error [over_v0; over_v1] j = Some cv ->
     exists x y, @value Q NumQ cu (nth j [1 # 3; 2 # 3]%Q 0%Q) 0 = Ok x /\ @value Q NumQ cv (nth i [0; 1]%Q 0%Q) 0 = Ok y /\
       (x 0%nat == y 0%nat /\ x 1%nat == y 1%nat)%Q) /\
  exists z w, @value Q NumQ over_v0 (1 # 2) 0 = Ok z /\ @surf_value Q NumQ s (1 # 3) (1 # 2) 0 0 = Ok w /\
    ~ (w 0%nat == z 0%nat)%Q.
Proof. exact overhang. Qed.
Print Assumptions C78_overhang_refuted.
