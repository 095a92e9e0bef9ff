(** Model of gbs/extrema.h, of the objective functions of gbs/solvers.h, of
    max_curvature_pos and compute_rolling_ball (gbs/bscanalysis.h) and of newton_solve
    (gbs/math.ixx).  closest_curve (gbs/bscanalysis.h l.657-690) calls a member midPoint that no
    curve has and cannot be instantiated.  NLopt, Newton-Raphson and Brent of boost are arguments.  No proofs in this
    file. *)
From Coq Require Import List Arith Bool.
From Verif Require Import Model_Base Model_Knots Model_Math Model_Vec Model_Wrap Model_Analysis.
Import ListNotations.
Local Open Scope nat_scope.

Section Extrema.
Context {T : Type} `{Num T}.
Variable root : T -> T.

(** nlopt::opt(solver, n) with the bounds and the tolerance set, then optimize(x, minf): from
    the objective, its gradient, the start, the lower and upper bounds and the tolerance, the
    last x and minf.  The objective and the gradient may throw. *)
Definition minimiser := (list T -> result T) -> (list T -> result (list T)) -> list T -> list T -> list T -> T ->
  result (list T * T).

(** solve_D_nlop, gbs/solvers.h l.67-101: the objective is the sum of the squares of the
    residuals.  std::reduce starts from 0; the residuals are single here, so no order of the sum
    matters.  The conversions to double and back are dropped. *)
Definition solve_D (opt : minimiser) (f : list T -> result (list T)) (g : list T -> list T -> result (list T))
    (x lb hb : list T) (tol : T) : result (list T * T) :=
  opt (fun x => let* r := f x in Ok (fold_left (fun a r => nadd a (nmul r r)) r n0))
      (fun x => let* r := f x in g x r) x lb hb tol.

Definition two : T := nadd n1 n1.

(** f and g of extrema_curve_point, gbs/extrema.h l.35-47 *)
Definition curve_point_f (dim : nat) (crv : gcurve T) (pnt : pt T) (x : list T) : result (list T) :=
  let* u := get x 0 in
  let* p := g_value crv u 0 in
  Ok [sq_norm dim (psub p pnt)].
Definition curve_point_g (dim : nat) (crv : gcurve T) (pnt : pt T) (x r : list T) : result (list T) :=
  let* u := get x 0 in
  let* d := g_value crv u 1 in
  let* p := g_value crv u 0 in
  let dfdu := dot dim (pscal two d) (psub p pnt) in
  let* r0 := get r 0 in
  Ok [nmul (nmul two r0) dfdu].

(** extrema_curve_point(crv, pnt, u0, tol_x), gbs/extrema.h l.32-60 *)
Definition extrema_curve_point (opt : minimiser) (dim : nat) (crv : gcurve T) (pnt : pt T) (u0 tol : T) : result (T * T) :=
  let* (x, minf) := solve_D opt (curve_point_f dim crv pnt) (curve_point_g dim crv pnt)
    [u0] [g_lo crv] [g_hi crv] (nmul tol tol) in
  let* u := get x 0 in
  Ok (u, root minf).

(** std::min_element with a comparison of keys, then a dereference: the first of the smallest,
    whatever the execution policy; the comparison evaluates both keys *)
Definition min_element {A : Type} (key : A -> result T) (l : list A) : result A :=
  match l with
  | [] => Undef BadIterator
  | a :: l => foldM (fun b x => let* kx := key x in let* kb := key b in Ok (if nltb kx kb then x else b)) a l
  end.

(** extrema_curve_point(crv, pnt, tol_u, solver, n_bracket), gbs/extrema.h l.71-80 *)
Definition extrema_curve_point_bracket (opt : minimiser) (dim : nat) (crv : gcurve T) (pnt : pt T) (tol : T) (n : nat)
  : result (T * T) :=
  let* u := make_range (g_lo crv) (g_hi crv) n in
  let* u0 := min_element (fun a => let* p := g_value crv a 0 in Ok (sq_norm dim (psub pnt p))) u in
  extrema_curve_point opt dim crv pnt u0 tol.

(** A surface with its bounds: class Surface, gbs/bssurf.h *)
Record bsurf := mkbs { b_u1 : T; b_u2 : T; b_v1 : T; b_v2 : T; b_value : gsurf T }.

(** f and g of extrema_surf_pnt, gbs/extrema.h l.97-110 *)
Definition surf_point_f (dim : nat) (srf : bsurf) (pnt : pt T) (x : list T) : result (list T) :=
  let* u := get x 0 in
  let* v := get x 1 in
  let* p := b_value srf u v 0 0 in
  Ok [sq_norm dim (psub p pnt)].
Definition surf_point_g (dim : nat) (srf : bsurf) (pnt : pt T) (x r : list T) : result (list T) :=
  let* u := get x 0 in
  let* v := get x 1 in
  let* p := b_value srf u v 0 0 in
  let f_ := psub p pnt in
  let* du := b_value srf u v 1 0 in
  let* dv := b_value srf u v 0 1 in
  let* r0 := get r 0 in
  Ok [nmul (nmul two r0) (dot dim (pscal two du) f_); nmul (nmul two r0) (dot dim (pscal two dv) f_)].

(** extrema_surf_pnt(srf, pnt, u0, v0, tol_x), gbs/extrema.h l.94-123 *)
Definition extrema_surf_pnt (opt : minimiser) (dim : nat) (srf : bsurf) (pnt : pt T) (u0 v0 tol : T) : result (T * T * T) :=
  let* (x, minf) := solve_D opt (surf_point_f dim srf pnt) (surf_point_g dim srf pnt)
    [u0; v0] [b_u1 srf; b_v1 srf] [b_u2 srf; b_v2 srf] (nmul tol tol) in
  let* u := get x 0 in
  let* v := get x 1 in
  Ok (u, v, root minf).

(** extrema_surf_pnt(srf, pnt, tol_x, solver, n_bracket_u, n_bracket_v), gbs/extrema.h l.136-147 *)
Definition extrema_surf_pnt_bracket (opt : minimiser) (dim : nat) (srf : bsurf) (pnt : pt T) (tol : T) (nu nv : nat)
  : result (T * T * T) :=
  let* uv := make_range2 (b_u1 srf) (b_u2 srf) (b_v1 srf) (b_v2 srf) nu nv in
  let* (u0, v0) := min_element (fun ab => let* p := b_value srf (fst ab) (snd ab) 0 0 in Ok (sq_norm dim (psub pnt p))) uv in
  extrema_surf_pnt opt dim srf pnt u0 v0 tol.

(** f and g of extrema_curve_curve, gbs/extrema.h l.152-163 *)
Definition curve_curve_f (dim : nat) (crv1 crv2 : gcurve T) (x : list T) : result (list T) :=
  let* u := get x 0 in
  let* v := get x 1 in
  let* p := g_value crv1 u 0 in
  let* q := g_value crv2 v 0 in
  Ok [sq_norm dim (psub p q)].
Definition curve_curve_g (dim : nat) (crv1 crv2 : gcurve T) (x r : list T) : result (list T) :=
  let* u := get x 0 in
  let* v := get x 1 in
  let* p := g_value crv1 u 0 in
  let* q := g_value crv2 v 0 in
  let f_ := psub p q in
  let* du := g_value crv1 u 1 in
  let* dv := g_value crv2 v 1 in
  let* r0 := get r 0 in
  Ok [nmul (nmul two r0) (dot dim (pscal two du) f_); nmul (nmul two r0) (dot dim (pscal two dv) f_)].

(** extrema_curve_curve(crv1, crv2, u10, u20, tol_x), gbs/extrema.h l.149-177 *)
Definition extrema_curve_curve (opt : minimiser) (dim : nat) (crv1 crv2 : gcurve T) (u10 u20 tol : T) : result (T * T * T) :=
  let* (x, minf) := solve_D opt (curve_curve_f dim crv1 crv2) (curve_curve_g dim crv1 crv2)
    [u10; u20] [g_lo crv1; g_lo crv2] [g_hi crv1; g_hi crv2] (nmul tol tol) in
  let* u := get x 0 in
  let* v := get x 1 in
  Ok (u, v, root minf).

(** extrema_curve_curve(crv1, crv2, tol_x, solver, n_bracket_u, n_bracket_v), gbs/extrema.h
    l.179-201: minDistance starts at the largest number, here None, and bestPair at (0, 0) *)
Definition extrema_curve_curve_bracket (opt : minimiser) (dim : nat) (crv1 crv2 : gcurve T) (tol : T) (nu nv : nat)
  : result (T * T * T) :=
  let* s1 := make_range (g_lo crv1) (g_hi crv1) nu in
  let* s2 := make_range (g_lo crv2) (g_hi crv2) nv in
  let* (_, best) := foldM (fun st u => foldM (fun (st : option T * (T * T)) v =>
      let* p := g_value crv1 u 0 in
      let* q := g_value crv2 v 0 in
      let d := sq_norm dim (psub p q) in
      Ok (if match fst st with None => true | Some m => nltb d m end then (Some d, (u, v)) else st)) st s2)
    (None, (n0, n0)) s1 in
  extrema_curve_curve opt dim crv1 crv2 (fst best) (snd best) tol.

(** extrema_curve_curve(Line, Line) in the plane, gbs/extrema.h l.211-221, on the axes of the
    lines; det, gbs/math.ixx l.213-217 *)
Definition det (a b c d : T) : T := nsub (nmul a d) (nmul b c).
Definition extrema_line_line (ax1 ax2 : pt T * pt T) : result (T * T) :=
  let (P1, N1) := ax1 in
  let (P2, N2) := ax2 in
  let P21 := psub P2 P1 in
  let d := det (N1 0) (nopp (N2 0)) (N1 1) (nopp (N2 1)) in
  let* l1 := divc (det (P21 0) (nopp (N2 0)) (P21 1) (nopp (N2 1))) d in
  let* l2 := divc (det (N1 0) (P21 0) (N1 1) (P21 1)) d in
  Ok (l1, l2).

(** f and g of extrema_surf_curve, gbs/extrema.h l.257-270.  srf(x[1],1,0) is the point at the
    parameters (x[1], 1) and srf(x[2],0,1) the first derivative at (x[2], 0). *)
Definition surf_curve_f (dim : nat) (srf : bsurf) (crv : gcurve T) (x : list T) : result (list T) :=
  let* w := get x 0 in
  let* u := get x 1 in
  let* v := get x 2 in
  let* p := g_value crv w 0 in
  let* q := b_value srf u v 0 0 in
  Ok [sq_norm dim (psub p q)].
Definition surf_curve_g (dim : nat) (srf : bsurf) (crv : gcurve T) (x r : list T) : result (list T) :=
  let* w := get x 0 in
  let* u := get x 1 in
  let* v := get x 2 in
  let* p := g_value crv w 0 in
  let* q := b_value srf u v 0 0 in
  let f_ := psub p q in
  let* dc := g_value crv w 1 in
  let* a := b_value srf u n1 0 0 in
  let* b := b_value srf v n0 1 0 in
  let* r0 := get r 0 in
  Ok [nmul (nmul two r0) (dot dim (pscal two dc) f_);
      nmul (nmul two r0) (dot dim (pscal (nopp two) a) f_);
      nmul (nmul two r0) (dot dim (pscal (nopp two) b) f_)].

(** extrema_surf_curve(srf, crv, u_c0, u_s0, v_s0, tol_x), gbs/extrema.h l.253-284 *)
Definition extrema_surf_curve (opt : minimiser) (dim : nat) (srf : bsurf) (crv : gcurve T) (u_c0 u_s0 v_s0 tol : T)
  : result (T * T * T * T) :=
  let* (x, minf) := solve_D opt (surf_curve_f dim srf crv) (surf_curve_g dim srf crv)
    [u_c0; u_s0; v_s0] [g_lo crv; b_u1 srf; b_v1 srf] [g_hi crv; b_u2 srf; b_v2 srf] (nmul tol tol) in
  let* x1 := get x 1 in
  let* x2 := get x 2 in
  let* x0 := get x 0 in
  Ok (x1, x2, x0, root minf).

(** extrema_surf_curve(srf, crv, tol_x, solver, n_bracket_u, n_bracket_v, n_bracket_w),
    gbs/extrema.h l.286-297: the bracket is (u0, v0) on the surface and w0 on the curve, and is
    passed on in that order *)
Definition extrema_surf_curve_bracket (opt : minimiser) (dim : nat) (srf : bsurf) (crv : gcurve T) (tol : T) (nu nv nw : nat)
  : result (T * T * T * T) :=
  let* uvw := make_range3 (b_u1 srf) (b_u2 srf) (b_v1 srf) (b_v2 srf) (g_lo crv) (g_hi crv) nu nv nw in
  let* s := min_element (fun abc => let* p := b_value srf (fst (fst abc)) (snd (fst abc)) 0 0 in
    let* q := g_value crv (snd abc) 0 in Ok (sq_norm dim (psub p q))) uvw in
  extrema_surf_curve opt dim srf crv (fst (fst s)) (snd (fst s)) (snd s) tol.

(** solve_coordinate, gbs/extrema.h l.299-322; [newton] is newton_raphson_iterate *)
Definition solve_coordinate (newton : (T -> result (T * T * T)) -> T -> T -> T -> result T) (dim : nat) (crv : gcurve T)
    (iCoord : nat) (Xi : T) (u0 : option T) : result T :=
  if dim <=? iCoord then Throw OutOfRangeError else
  let f_eq u :=
    let* p := g_value crv u 0 in
    let* d := g_value crv u 1 in
    let* d2 := g_value crv u 2 in
    Ok (nsub (p iCoord) Xi, d iCoord, d2 iCoord) in
  let* half := divc n1 two in
  let u0_ := match u0 with Some u => u | None => nmul half (nadd (g_lo crv) (g_hi crv)) end in
  newton f_eq u0_ (g_lo crv) (g_hi crv).

(** max_coordinate and min_coordinate, gbs/extrema.h l.351-387; [brent] is brent_find_minima *)
Definition max_coordinate (brent : (T -> result T) -> T -> T -> result (T * T)) (dim : nat) (crv : gcurve T) (iCoord : nat)
  : result (T * T) :=
  if dim <=? iCoord then Throw OutOfRangeError else
  brent (fun u => let* p := g_value crv u 0 in let x := p iCoord in let* a := divc n1 x in divc a x) (g_lo crv) (g_hi crv).
Definition min_coordinate (brent : (T -> result T) -> T -> T -> result (T * T)) (dim : nat) (crv : gcurve T) (iCoord : nat)
  : result (T * T) :=
  if dim <=? iCoord then Throw OutOfRangeError else
  brent (fun u => let* p := g_value crv u 0 in let x := p iCoord in Ok (nmul x x)) (g_lo crv) (g_hi crv).

(** f and gf of max_curvature_pos, gbs/bscanalysis.h l.697-706 *)
Definition max_curvature_f (dim : nat) (crv : gcurve T) (x : list T) : result (list T) :=
  let* u := get x 0 in
  let* c := g_value crv u 2 in
  let* a := divc n1 (sq_norm dim c) in Ok [a].
Definition max_curvature_g (dim : nat) (crv : gcurve T) (x r : list T) : result (list T) :=
  let* u := get x 0 in
  let* f2 := g_value crv u 2 in
  let* f3 := g_value crv u 3 in
  let s := dot dim f2 f2 in
  let* a := divc (nmul (nopp two) (dot dim f2 f3)) (nmul s s) in Ok [a].

(** max_curvature_pos(crv, u1, u2, tol_x), gbs/bscanalysis.h l.694-718; the overload of l.720-726
    passes the bounds of the curve *)
Definition max_curvature_pos (opt : minimiser) (dim : nat) (crv : gcurve T) (u1 u2 tol : T) : result (T * T) :=
  let* half := divc n1 two in
  let* (x, minf) := solve_D opt (max_curvature_f dim crv) (max_curvature_g dim crv)
    [nmul half (nadd u1 u2)] [u1] [u2] (nmul tol tol) in
  let* u := get x 0 in
  let* k := divc n1 (root minf) in
  Ok (u, k).

(** Line{normal_line(crv, u)}: the line through the point along the normal, whose direction the
    constructor normalises again (gbs/curveline.h l.17-23, gbs/bscanalysis.h l.641-645) *)
Definition normal_axis (crv : gcurve T) (u : T) : result (pt T * pt T) :=
  let* (p, d) := line_at crv (normal_direction2 root) u in
  let e := psub (padd p d) p in
  let* n := pdiv e (norm root 2 e) in
  Ok (p, n).
Definition on_axis (ax : pt T * pt T) (u : T) : pt T := padd (fst ax) (pscal u (snd ax)).

(** f_ of compute_rolling_ball, gbs/bscanalysis.h l.750-757 *)
Definition rolling_f (crv1 crv2 : gcurve T) (u1 : T) (x : list T) : result T :=
  let* u2 := get x 0 in
  let* L1 := normal_axis crv1 u1 in
  let* L2 := normal_axis crv2 u2 in
  let* (a, b) := extrema_line_line L1 L2 in
  Ok (nabs (nsub (sq_norm 2 (psub (on_axis L1 a) (on_axis L1 n0))) (sq_norm 2 (psub (on_axis L2 b) (on_axis L2 n0))))).

(** compute_rolling_ball, gbs/bscanalysis.h l.728-778; solve_N_nlop (gbs/solvers.h l.22-53) gives
    no gradient; tol_x and tol_a are 1e-6 and 1e-3 *)
Definition rolling_ball (opt : minimiser) (optN : (list T -> result T) -> list T -> list T -> list T -> T -> result (list T * T))
    (tol_x tol_a : T) (crv1 crv2 : gcurve T) (u1 : T) : result (T * pt T * bool) :=
  let* half := divc n1 two in
  let* p1 := g_value crv1 u1 0 in
  let* (u20, _) := extrema_curve_point opt 2 crv2 p1 u1 tol_x in
  let* L1 := normal_axis crv1 u1 in
  let* L2 := normal_axis crv2 u20 in
  if nltb (nabs (nsub (nabs (dot 2 (snd L1) (snd L2))) n1)) tol_a then
    let* a := g_value crv1 u1 0 in
    let* b := g_value crv2 u20 0 in
    Ok (u20, pscal half (padd a b), true)
  else
    let* (x, _) := optN (rolling_f crv1 crv2 u1) [u20] [g_lo crv2] [g_hi crv2] tol_x in
    let* u2 := get x 0 in
    let* L1 := normal_axis crv1 u1 in
    let* L2 := normal_axis crv2 u2 in
    let* (a, b) := extrema_line_line L1 L2 in
    Ok (u2, pscal half (padd (on_axis L1 a) (on_axis L2 b)), false).

(** newton_solve, gbs/math.ixx l.185-201: the d0 of the body hides the one of the condition,
    which keeps its first value tol_f * 10; delta is compared with its sign.  it_max bounds the
    loop. *)
Fixpoint newton_loop (func : T -> nat -> result T) (p tol_f tol_u d0_out : T) (it : nat) (delta u : T) : result T :=
  match it with
  | 0 => Ok u
  | S it =>
    if nltb tol_u delta && nltb tol_f d0_out then
      let* f0 := func u 0 in
      let d0 := nsub f0 p in
      let* d1 := func u 1 in
      let* d2 := func u 2 in
      let* delta := divc (nmul d1 d0) (nadd (nmul d2 d0) (nmul d1 d1)) in
      newton_loop func p tol_f tol_u d0_out it delta (nsub u delta)
    else Ok u
  end.
Definition newton_solve (func : T -> nat -> result T) (p u0 tol_f tol_u : T) (it_max : nat) : result T :=
  let ten := nofnat 10 in
  newton_loop func p tol_f tol_u (nmul tol_f ten) it_max (nmul tol_u ten) u0.

End Extrema.
Arguments mkbs {T}. Arguments b_u1 {T}. Arguments b_u2 {T}. Arguments b_v1 {T}. Arguments b_v2 {T}. Arguments b_value {T}.
