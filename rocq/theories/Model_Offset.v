(** Model of the offset curves (gbs/curveoffset.h) and of the offset points of a surface
    (gbs/offsets.h).  The offset law is a function of the parameter and of the order of
    derivation; the square root is an argument.  SurfaceOffset (gbs/surfaceoffset.h) calls the
    value of a surface with one parameter and overrides bounds() with another type: it cannot
    be instantiated and is not modelled.  No proofs in this file. *)
From Coq Require Import List Arith Bool.
From Verif Require Import Model_Base Model_Knots Model_Curve Model_Vec Model_Math Model_Wrap Model_Interp Model_Surface Model_Skin
  Model_Analysis.
Import ListNotations.
Local Open Scope nat_scope.

Section Offset.
Context {T : Type} `{Num T}.
Variable root : T -> T.

Let two : T := nofnat 2.
Let half : T := ndiv n1 two.

(** CurveOffset2D::value, gbs/curveoffset.h l.82-144 *)
Definition offset2 (crv : gcurve T) (off : T -> nat -> result T) (u : T) (d : nat) : result (pt T) :=
  match d with
  | 0 =>
    let* p := g_value crv u 0 in
    let* n := normal_direction2 root crv u in
    let* o := off u 0 in
    Ok (padd p (pscal o n))
  | 1 =>
    let* d1 := g_value crv u 1 in
    let* d2 := g_value crv u 2 in
    let r := sq_norm 2 d1 in
    let sqrt_r := root r in
    let drdu := dot 2 (pscal two d1) d2 in
    let* o0 := off u 0 in
    let* o1 := off u 1 in
    let k := nsub (nmul o1 r) (nmul (nmul half o0) drdu) in
    let* xa := divc (nmul o0 (d2 1)) sqrt_r in
    let* xb := divc (nmul (d1 1) k) (nmul r sqrt_r) in
    let* ya := divc (nmul o0 (d2 0)) sqrt_r in
    let* yb := divc (nmul (d1 0) k) (nmul r sqrt_r) in
    Ok (fun i => match i with
                 | 0 => nsub (nsub (d1 0) xa) xb
                 | 1 => nadd (nadd (d1 1) ya) yb
                 | _ => n0 end)
  | 2 =>
    let* d1 := g_value crv u 1 in
    let* d2 := g_value crv u 2 in
    let* d3 := g_value crv u 3 in
    let* o0 := off u 0 in
    let* o1 := off u 1 in
    let* o2 := off u 2 in
    let r := sq_norm 2 d1 in
    let sqrt_r := root r in
    let drdu := dot 2 (pscal two d1) d2 in
    let d2rdu2 := nmul two (nadd (dot 2 d2 d2) (dot 2 d1 d3)) in
    let ta j := nadd (nadd (nmul o2 (d1 j)) (nmul (nmul two o1) (d2 j))) (nmul o0 (d3 j)) in
    let tb j := nadd (nadd (nmul (nmul o1 (d1 j)) drdu) (nmul (nmul o0 (d2 j)) drdu))
                     (ndiv (nmul (nmul o0 (d1 j)) d2rdu2) two) in
    let tc j := nmul (nmul (nmul (nmul (ndiv (nofnat 3) (nofnat 4)) o0) (d1 j)) drdu) drdu in
    let part j :=
      let* a := divc (ta j) sqrt_r in
      let* b := divc (tb j) sqrt_r in
      let* b := divc b r in
      let* c := divc (tc j) sqrt_r in
      let* c := divc c r in
      let* c := divc c r in
      Ok (a, b, c) in
    let* x := part 1 in
    let* y := part 0 in
    let '(xa, xb, xc) := x in
    let '(ya, yb, yc) := y in
    Ok (fun i => match i with
                 | 0 => nsub (nadd (nsub (d2 0) xa) xb) xc
                 | 1 => nadd (nsub (nadd (d2 1) ya) yb) yc
                 | _ => n0 end)
  | _ => Throw RuntimeError
  end.

(** CurveOffset3D::value, gbs/curveoffset.h l.180-231; [dir] is the direction given to the
    constructor (l.162-170), which normalises it.  The normal computed and not used for the
    derivatives is left out, as is the tangent for the first one. *)
Definition offset3 (crv : gcurve T) (off : T -> nat -> result T) (dir : pt T) (u : T) (d : nat) : result (pt T) :=
  let* direction := adim root 3 dir in
  let bend d1 d2 o0 :=
    let s := norm root 3 d1 in
    let* curvature := pdiv (cross d1 d2) (nmul (nmul s s) s) in
    adim root 3 (pscal o0 curvature) in
  match d with
  | 0 =>
    let* p := g_value crv u 0 in
    let* d1 := g_value crv u 1 in
    let* tangent := adim root 3 d1 in
    let* normal := adim root 3 (cross direction tangent) in
    let* o := off u 0 in
    Ok (padd p (pscal o normal))
  | 1 =>
    let* d1 := g_value crv u 1 in
    let* d2 := g_value crv u 2 in
    let* o0 := off u 0 in
    let* nd := bend d1 d2 o0 in
    let* o1 := off u 1 in
    Ok (padd d1 (pscal o1 nd))
  | 2 =>
    let* d1 := g_value crv u 1 in
    let* d2 := g_value crv u 2 in
    let* d3 := g_value crv u 3 in
    let* tangent := adim root 3 d1 in
    let* o0 := off u 0 in
    let* nd := bend d1 d2 o0 in
    let* d2t := pdiv (psub d2 (pscal (dot 3 d2 tangent) tangent)) (norm root 3 d1) in
    let d2n := padd (cross d2t direction) (cross tangent (cross d2 direction)) in
    let* o1 := off u 1 in
    let* o2 := off u 2 in
    Ok (padd (padd d2 (pscal o1 d2n)) (pscal o2 nd))
  | _ => Throw RuntimeError
  end.

(** The kernel of offset_points, gbs/offsets.h l.25-34 *)
Definition offset_point (f_ep : T -> T -> result T) (srf : gsurf T) (uv : T * T) : result (pt T) :=
  let '(u, v) := uv in
  let* p := srf u v 0 0 in
  let* tu := srf u v 1 0 in
  let* tv := srf u v 0 1 in
  let n := cross tu tv in
  let* n := pdiv n (norm root 3 n) in
  let* e := f_ep u v in
  Ok (padd p (pscal e n)).

(** offset_points, gbs/offsets.h l.8-36: the grid u first; the slots are written in any order
    by the parallel transform (C37), in sequence here. *)
Definition offset_points (f_ep : T -> T -> result T) (srf : gsurf T) (u v : list T) : result (list (pt T)) :=
  mapM (offset_point f_ep srf) (flat_map (fun v_ => map (fun u_ => (u_, v_)) u) v).

(** offset_approx for a polynomial surface, gbs/offsets.h l.39-63.  The rational variant builds
    a rational surface from points without weights and cannot be instantiated. *)
Definition offset_approx (ldlt : solver) (f_ep : T -> T -> result T) (s : surf T) (nu nv : nat) : result (surf T) :=
  let* u := make_range (s_u1 s) (s_u2 s) nu in
  let* v := make_range (s_v1 s) (s_v2 s) nv in
  let* pts := offset_points f_ep (surf_value s) u v in
  let* poles := approx_grid ldlt 3 pts (s_ku s) (s_kv s) u v (s_degU s) (s_degV s) in
  mk_surf poles (s_ku s) (s_kv s) (s_degU s) (s_degV s).
End Offset.
