(** Model of gbs/transform.h: curves and surfaces transformed through their poles.  The square
    root, sine and cosine are arguments.  The two overloads that take a Matrix4 (l.73-84) are left
    out, since no call to them compiles: their lambda passes a const point to transform(point &,
    Matrix4), which returns void, and the call inside them has no overload for a BSCurveGeneral; on
    a BSCurve the overload of l.11 is the better match and calls the matrix on a point.
    transformed (l.88-93) transforms a copy and is the same function here.
    No proofs in this file. *)
From Coq Require Import List Arith Bool.
From Verif Require Import Model_Base Model_Vec Model_Rational Model_Curve Model_Surface Model_Motion.
Import ListNotations.
Local Open Scope nat_scope.

Section Transform.
Context {T : Type} `{Num T}.

(** transform(BSCurve, trf), gbs/transform.h l.11-22; std::transform in any order has the same
    result, in sequence here *)
Definition transform_curve (trf : pt T -> result (pt T)) (c : curve T) : result (curve T) :=
  let* P := mapM trf (c_poles c) in
  copyPoles c P.

(** transform(BSCurveRational, trf), gbs/transform.h l.24-40 *)
Definition transform_rational (dim : nat) (trf : pt T -> result (pt T)) (c : curve T) : result (curve T) :=
  let (poles, weights) := separate_weights dim (c_poles c) in
  let* poles := mapM trf poles in
  let* pw := add_weights_coord dim poles weights in
  copyPoles c pw.

(** transform(BSSurface, trf), gbs/transform.h l.42-53 *)
Definition transform_surface (trf : pt T -> result (pt T)) (s : surf T) : result (surf T) :=
  let* P := mapM trf (s_poles s) in
  surf_copyPoles s P.

(** transform(BSSurfaceRational, trf), gbs/transform.h l.55-71 *)
Definition transform_rational_surface (dim : nat) (trf : pt T -> result (pt T)) (s : surf T) : result (surf T) :=
  let (poles, weights) := separate_weights dim (s_poles s) in
  let* poles := mapM trf poles in
  let* pw := add_weights_coord dim poles weights in
  surf_copyPoles s pw.

Variables sqrtf cosf sinf : T -> T.

(** The four kinds of objects the overloads of translate, rotate and scale take *)
Inductive geom := Curve_ (c : curve T) | Rational_ (c : curve T) | Surface_ (s : surf T) | RationalSurface_ (s : surf T).
Definition transform_geom (dim : nat) (trf : pt T -> result (pt T)) (g : geom) : result geom :=
  match g with
  | Curve_ c => let* c := transform_curve trf c in Ok (Curve_ c)
  | Rational_ c => let* c := transform_rational dim trf c in Ok (Rational_ c)
  | Surface_ s => let* s := transform_surface trf s in Ok (Surface_ s)
  | RationalSurface_ s => let* s := transform_rational_surface dim trf s in Ok (RationalSurface_ s)
  end.

(** rotate(G, a) and rotate(G, a, ax), gbs/transform.h l.95-106 *)
Definition rotate_geom2 (a : T) (g : geom) : result geom := transform_geom 2 (fun x => Ok (rotate2 cosf sinf x a)) g.
Definition rotate_geom3 (a : T) (ax : pt T) (g : geom) : result geom := transform_geom 3 (fun x => rotate3 sqrtf cosf sinf x a ax) g.

(** translate, gbs/transform.h l.179-191 (the code has it for curves only) *)
Definition translate_geom (dim : nat) (v : pt T) (g : geom) : result geom := transform_geom dim (fun x => Ok (translated x v)) g.

(** scale(G, factor, center) and scale(G, factor, coord, center), gbs/transform.h l.193-234; the
    code has the second one for curves only.  A coord that is not below dim indexes the array out
    of its bounds. *)
Definition scale_geom (dim : nat) (s : T) (center : pt T) (g : geom) : result geom :=
  transform_geom dim (fun x => Ok (scaled x s center)) g.
Definition scale_coord_geom (dim : nat) (s : T) (coord : nat) (center : pt T) (g : geom) : result geom :=
  transform_geom dim (fun x => if coord <? dim then Ok (scaled_coord x s coord center) else Undef BadIndex) g.

End Transform.
Arguments geom : clear implicits.
