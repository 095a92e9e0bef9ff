(** Model of the sampling of curves and surfaces: gbs/bscanalysis.h (deviation based
    parameters, points along a curve, directions, arc length) and gbs/bssanalysis.h.  The
    square root and the quadrature are arguments.  A quotient of zeros is a quiet NaN, whose
    comparisons are false: the model writes the comparison out.  No proofs in this file. *)
From Coq Require Import List Arith Bool.
From Verif Require Import Model_Base Model_Knots Model_Curve Model_Vec Model_Math Model_Wrap Model_Interp.
Import ListNotations.
Local Open Scope nat_scope.

Section Analysis.
Context {T : Type} `{Num T}.
Variable root : T -> T.

(** norm(cross(a, b)), gbs/vecop.ixx l.81-112: in the plane the cross product has one
    coordinate, on the line it is zero *)
Definition cross_norm (dim : nat) (a b : pt T) : T :=
  match dim with
  | 0 | 1 => root n0
  | 2 => root (let z := nsub (nmul (a 0) (b 1)) (nmul (a 1) (b 0)) in nmul z z)
  | _ => norm root 3 (cross a b)
  end.

(** dev > dev_max with dev = norm(cross(v1, v2)) / (norm(v1) * norm(v2)),
    gbs/bscanalysis.h l.404-408 and gbs/bssanalysis.h l.48-52.  A zero divisor has v1 or v2
    zero, hence a zero dividend. *)
Definition bends (dim : nat) (dev_max : T) (p m q : pt T) : bool :=
  let v1 := psub m p in
  let v2 := psub q p in
  let den := nmul (norm root dim v1) (norm root dim v2) in
  if neqb den n0 then false else nltb dev_max (ndiv (cross_norm dim v1 v2) den).

(** 0.5 * (u1 + u2) *)
Definition middle (u1 u2 : T) : T := nmul (ndiv n1 (nofnat 2)) (nadd u1 u2).

(** refine_params_recursive, gbs/bscanalysis.h l.395-415: the parameters inserted between u1
    and u2, in order.  [guard] is the test on the width of the interval, absent from
    refine_params_u_recursive and refine_params_v_recursive, gbs/bssanalysis.h l.44-58 and
    l.110-124.  [fuel] bounds the depth of the recursion. *)
Fixpoint refine_params (fuel : nat) (guard : bool) (dim : nat) (f : T -> result (pt T)) (dev_max : T)
    (u1 u2 : T) : result (list T) :=
  match fuel with
  | 0 => Fuel
  | S fuel =>
    if guard && negb (nltb neps (nabs (nsub u2 u1))) then Ok [] else
    let um := middle u1 u2 in
    let* m := f um in
    let* p := f u1 in
    let* q := f u2 in
    if bends dim dev_max p m q then
      let* l := refine_params fuel guard dim f dev_max u1 um in
      let* r := refine_params fuel guard dim f dev_max um u2 in
      Ok (l ++ um :: r)
    else Ok []
  end.

(** The loop over the initial intervals, gbs/bscanalysis.h l.463-471, gbs/bssanalysis.h
    l.85-93: the insertions are made before it_u3, which is the next it_u1. *)
Fixpoint refine_all (fuel : nat) (guard : bool) (dim : nat) (f : T -> result (pt T)) (dev_max : T)
    (u1 : T) (us : list T) : result (list T) :=
  match us with
  | [] => Ok [u1]
  | u3 :: t =>
    let* l := refine_params fuel guard dim f dev_max u1 u3 in
    let* r := refine_all fuel guard dim f dev_max u3 t in
    Ok (u1 :: l ++ r)
  end.

(** The initial parameters u1 + (u2 - u1) * i / (n - 1.0), gbs/bscanalysis.h l.434-437,
    gbs/bssanalysis.h l.77-80 *)
Definition spread_params (u1 u2 : T) (n : nat) : result (list T) :=
  mapM (fun i => let* q := divc (nmul (nsub u2 u1) (nofnat i)) (nsub (nofnat n) n1) in Ok (nadd u1 q))
    (seq 0 n).

(** std::list::sort: stable, so its result on numbers is the sorted list *)
Fixpoint insert_sorted (x : T) (l : list T) : list T :=
  match l with [] => [x] | y :: t => if nltb y x then y :: insert_sorted x t else x :: l end.
Definition list_sort (l : list T) : list T := fold_right insert_sorted [] l.

(** The refinement of a list, skipped when the list is long enough, gbs/bscanalysis.h
    l.460-473, gbs/bssanalysis.h l.82-95.  std::next(begin()) of an empty list is
    undefined. *)
Definition refined (fuel : nat) (guard : bool) (dim : nat) (f : T -> result (pt T)) (dev_max : T)
    (n_max_pts : nat) (l : list T) : result (list T) :=
  if length l <? n_max_pts then
    match l with
    | [] => Undef BadIterator
    | u1 :: us => refine_all fuel guard dim f dev_max u1 us
    end
  else Ok l.

(** deviation_based_params(crv, u1, u2, n, dev_max, n_max_pts), gbs/bscanalysis.h
    l.430-474.  [knots] is the vector knots() of a B-spline curve, empty for the other
    kinds. *)
Definition deviation_based_params (fuel dim : nat) (crv : gcurve T) (knots : list T) (u1 u2 : T) (n : nat)
    (dev_max : T) (n_max_pts : nat) : result (list T) :=
  let* l := spread_params u1 u2 n in
  let hard := filter (fun u => nltb u1 u && nltb u u2) knots in
  refined fuel true dim (fun u => g_value crv u 0) dev_max n_max_pts (list_sort (l ++ hard)).

(** make_points(crv, u_lst, d), gbs/bscanalysis.h l.504-516 *)
Definition make_points (crv : gcurve T) (us : list T) (d : nat) : result (list (pt T)) :=
  mapM (fun u => g_value crv u d) us.

(** discretize_with_params(crv, n, dev_max, n_max_pts), gbs/bscanalysis.h l.561-568, over
    the bounds of the curve (l.487-493).  discretize(crv, n, dev_max, n_max_pts), l.542-549,
    returns the points only. *)
Definition discretize_with_params (fuel dim : nat) (crv : gcurve T) (knots : list T) (n : nat) (dev_max : T)
    (n_max_pts : nat) : result (list (pt T) * list T) :=
  let* us := deviation_based_params fuel dim crv knots (g_lo crv) (g_hi crv) n dev_max n_max_pts in
  let* ps := make_points crv us 0 in
  Ok (ps, us).

(** BSCurve::knots(), gbs/bscurve.h l.352-355, and the discretisation of a B-spline curve *)
Definition discretize_bs (fuel dim : nat) (c : curve T) (n : nat) (dev_max : T) (n_max_pts : nat)
  : result (list (pt T) * list T) :=
  let* (ks, ms) := knots_and_mults (c_knots c) in
  discretize_with_params fuel dim (of_curve c) ks n dev_max n_max_pts.

(** deviation_based_u_params, gbs/bssanalysis.h l.74-96 *)
Definition deviation_based_u_params (fuel dim : nat) (srf : gsurf T) (u1 u2 v : T) (n : nat) (dev_max : T)
    (n_max_pts : nat) : result (list T) :=
  let* l := spread_params u1 u2 n in
  refined fuel false dim (fun u => srf u v 0 0) dev_max n_max_pts l.

(** deviation_based_v_params, gbs/bssanalysis.h l.141-163 *)
Definition deviation_based_v_params (fuel dim : nat) (srf : gsurf T) (v1 v2 u : T) (n : nat) (dev_max : T)
    (n_max_pts : nat) : result (list T) :=
  let* l := spread_params v1 v2 n in
  refined fuel false dim (fun v => srf u v 0 0) dev_max n_max_pts l.

(** discretize(srf, nu, nv), gbs/bssanalysis.h l.7-30: the loops over (i, j) write the nodes,
    the transform evaluates them *)
Definition discretize_surf (srf : gsurf T) (u1 u2 v1 v2 : T) (nu nv : nat) : result (list (pt T)) :=
  let* u := make_range u1 u2 nu in
  let* v := make_range v1 v2 nv in
  let* uv := for_ 0 nv (fun j uv => for_ 0 nu (fun i uv =>
    let* a := get u i in
    let* b := get v j in
    set uv (j * nu + i) (a, b)) uv) (filled (nu * nv) (n0, n0)) in
  mapM (fun ab => srf (fst ab) (snd ab) 0 0) uv.

(** tangential_direction, gbs/bscanalysis.h l.578-583 *)
Definition tangential_direction (dim : nat) (crv : gcurve T) (u : T) : result (pt T) :=
  let* tg := g_value crv u 1 in
  pdiv tg (norm root dim tg).

(** normal_direction in the plane, gbs/bscanalysis.h l.606-614 *)
Definition normal_direction2 (crv : gcurve T) (u : T) : result (pt T) :=
  let* tg := g_value crv u 1 in
  let n := fun i => match i with 0 => nopp (tg 1) | 1 => tg 0 | _ => n0 end in
  pdiv n (norm root 2 n).

(** normal_direction in space, gbs/bscanalysis.h l.623-631 *)
Definition normal_direction3 (crv : gcurve T) (u : T) : result (pt T) :=
  let* tg := g_value crv u 1 in
  let* cu := g_value crv u 2 in
  let n_pln := cross tg cu in
  let* n_pln := pdiv n_pln (norm root 3 n_pln) in
  pdiv (cross tg n_pln) (norm root 3 tg).

(** tangential_line and normal_line, gbs/bscanalysis.h l.593-597 and l.641-645, given the
    direction *)
Definition line_at (crv : gcurve T) (direction : gcurve T -> T -> result (pt T)) (u : T)
  : result (pt T * pt T) :=
  let* p := g_value crv u 0 in
  let* d := direction crv u in
  Ok (p, d).

(** length(crv, u1, u2, d, adaptive), gbs/bscanalysis.h l.87-111.  [quad] is the quadrature
    of boost: the integral of its first argument.  A failing evaluation makes the quadrature
    fail. *)
Definition length_ (dim : nat) (quad : (T -> result T) -> T -> T -> result T) (crv : gcurve T) (u1 u2 : T)
    (d : nat) : result T :=
  let f := fun u => let* v := g_value crv u 1 in Ok (norm root dim v) in
  match d with
  | 0 => quad f u1 u2
  | 1 => f u2
  | 2 => let* a := g_value crv u2 1 in
         let* b := g_value crv u2 2 in
         let* s := f u2 in
         divc (dot dim a b) s
  | _ => Throw RuntimeError
  end.

(** The cumulated lengths, gbs/bscanalysis.h l.146-159 and l.210-223: dm by pairs, then m by
    partial sums.  std::next(u.end(), -1) of an empty vector is undefined. *)
Definition cumulated (len : T -> T -> result T) (u : list T) : result (list T) :=
  match u with
  | [] => Undef BadIterator
  | u0 :: t =>
    let* (m, _) := foldM (fun (st : list T * T) u2 =>
        let '(m, u1) := st in
        let* dm := len u1 u2 in
        let* s := back m in
        Ok (m ++ [nadd s dm], u2)) ([n0], u0) t in
    Ok m
  end.

(** abs_curv(crv, u1, u2, n, p), gbs/bscanalysis.h l.139-163: the one-dimensional curve whose
    value at a length is the parameter of the point at this length *)
Definition abs_curv_law (sparse : solver) (len : T -> T -> result T) (u1 u2 : T) (n p : nat) : result (curve T) :=
  let* u := make_range u1 u2 n in
  let* m := cumulated len u in
  interpolate sparse 1 (map (fun x (_ : nat) => x) u) m (Nat.min p (length u - 1)).

(** One pass of the refinement of abs_curv_adaptive_discretzation, gbs/bscanalysis.h
    l.187-208.  The insertion into the std::vector u invalidates it_u3, which the next two
    statements read.  A zero l13 gives an infinite or undefined ratio. *)
Definition uneven (len : T -> T -> result T) (tol u1 u3 : T) : result bool :=
  let mid := middle u1 u3 in
  let* l12 := len u1 mid in
  let* l23 := len mid u3 in
  let* l13 := len u1 u3 in
  let e := nabs (nsub (nadd l12 l23) l13) in
  Ok (if neqb l13 n0 then negb (neqb e n0) else nltb tol (ndiv e l13)).
Fixpoint adaptive_pass (len : T -> T -> result T) (tol : T) (u1 : T) (us : list T) : result unit :=
  match us with
  | [] => Ok tt
  | u3 :: t =>
    let* b := uneven len tol u1 u3 in
    if b then Undef BadIterator else adaptive_pass len tol u3 t
  end.

(** abs_curv_adaptive_discretzation, gbs/bscanalysis.h l.179-225: a pass that inserts nothing
    is the last one *)
Definition abs_curv_adaptive_discretization (len : T -> T -> result T) (u1 u2 : T) (n : nat) (tol : T)
  : result (list T * list T) :=
  let* u := make_range u1 u2 n in
  let* _ := match u with [] => Undef BadIterator | a :: t => adaptive_pass len tol a t end in
  let* m := cumulated len u in
  Ok (u, m).
End Analysis.
