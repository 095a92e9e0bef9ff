(** Plane geometry predicates of /repo/inc/topology (baseGeom.h, baseIntersection.h,
    robustPredicates.h, halfEdgeMeshGeomTests.h).  Arithmetic is exact. *)
From Coq Require Import List Arith Bool.
From Verif Require Import Model_Base.
Import ListNotations.

(** std::array<T,2> *)
Notation p2 T := (T * T)%type (only parsing).

Section Geom.
Context {T : Type} `{Num T}.
(** operator== of std::array<T,2> *)
Definition p2_eqb (a b : p2 T) : bool := neqb (fst a) (fst b) && neqb (snd a) (snd b).

(** orient_2d, baseGeom.h l.9-32.  Also the value that orient2d, robustPredicates.h l.329-362,
    is written to have the sign of: its filter and its expansion arithmetic are the same
    number in exact arithmetic. *)
Definition orient2d (a b c : p2 T) : T :=
  nsub (nmul (nsub (fst a) (fst c)) (nsub (snd b) (snd c)))
       (nmul (nsub (snd a) (snd c)) (nsub (fst b) (fst c))).
(** are_ccw, baseGeom.h l.43-49 *)
Definition are_ccw (a b c : p2 T) : bool := nleb n0 (orient2d a b c).
(** tri_area in the plane, baseGeom.h l.77-86 *)
Definition tri_area2 (a b c : p2 T) : T :=
  nmul (ndiv n1 (nadd n1 n1))
    (nabs (nsub (nmul (nsub (fst b) (fst a)) (nsub (snd c) (snd a)))
                (nmul (nsub (snd b) (snd a)) (nsub (fst c) (fst a))))).
(** getCoordsMinMax, baseGeom.h l.88-104, for dim = 2: front() of an empty vector is undefined.
    std::min(x, y) is y < x ? y : x and std::max(x, y) is x < y ? y : x. *)
Definition nmin (x y : T) : T := if nltb y x then y else x.
Definition nmax (x y : T) : T := if nltb x y then y else x.
Definition getCoordsMinMax (l : list (p2 T)) : result (p2 T * p2 T) :=
  let* x := front l in
  Ok (fold_left (fun mm X =>
        ((nmin (fst (fst mm)) (fst X), nmin (snd (fst mm)) (snd X)),
         (nmax (fst (snd mm)) (fst X), nmax (snd (snd mm)) (snd X)))) l (x, x)).
(** circle_center, baseGeom.h l.120-139; None stands for the pair of NaN *)
Definition circle_center (a b c : p2 T) : option (p2 T) :=
  let A := nsub (fst b) (fst a) in let B := nsub (snd b) (snd a) in
  let C := nsub (fst c) (fst a) in let D := nsub (snd c) (snd a) in
  let E := nadd (nmul A (nadd (fst a) (fst b))) (nmul B (nadd (snd a) (snd b))) in
  let F := nadd (nmul C (nadd (fst a) (fst c))) (nmul D (nadd (snd a) (snd c))) in
  let G := nmul (nadd n1 n1)
             (nsub (nmul A (nsub (snd c) (snd b))) (nmul B (nsub (fst c) (fst b)))) in
  if nltb (nabs G) neps then None
  else Some (ndiv (nsub (nmul D E) (nmul B F)) G, ndiv (nsub (nmul A F) (nmul C E)) G).

(** in_circle, baseIntersection.h l.125-141 *)
Definition in_circle (a b c d : p2 T) : T :=
  let A := nsub (fst a) (fst d) in let B := nsub (snd a) (snd d) in
  let C := nadd (nmul A A) (nmul B B) in
  let D := nsub (fst b) (fst d) in let E := nsub (snd b) (snd d) in
  let F := nadd (nmul D D) (nmul E E) in
  let G := nsub (fst c) (fst d) in let H := nsub (snd c) (snd d) in
  let I := nadd (nmul G G) (nmul H H) in
  nsub (nadd (nadd (nmul (nmul A E) I) (nmul (nmul D H) C)) (nmul (nmul B F) G))
       (nadd (nadd (nmul (nmul G E) C) (nmul (nmul D B) I)) (nmul (nmul A H) F)).

(** in_triangle, baseIntersection.h l.21-43 *)
Definition in_triangle (a b c d : p2 T) : bool :=
  let sign p q r := nsub (nmul (nsub (fst p) (fst r)) (nsub (snd q) (snd r)))
                         (nmul (nsub (fst q) (fst r)) (nsub (snd p) (snd r))) in
  let d1 := sign d a b in let d2 := sign d b c in let d3 := sign d c a in
  let has_neg := nltb d1 n0 || nltb d2 n0 || nltb d3 n0 in
  let has_pos := nltb n0 d1 || nltb n0 d2 || nltb n0 d3 in
  negb (has_neg && has_pos).

(** triangle_barycentric_coordinates, baseIntersection.h l.55-83; None stands for the values
    obtained when the denominator is zero (infinities or NaN) *)
Definition triangle_barycentric_coordinates (a b c d : p2 T) : option (T * T) :=
  let v0x := nsub (fst c) (fst a) in let v0y := nsub (snd c) (snd a) in
  let v1x := nsub (fst b) (fst a) in let v1y := nsub (snd b) (snd a) in
  let v2x := nsub (fst d) (fst a) in let v2y := nsub (snd d) (snd a) in
  let dot00 := nadd (nmul v0x v0x) (nmul v0y v0y) in
  let dot01 := nadd (nmul v0x v1x) (nmul v0y v1y) in
  let dot02 := nadd (nmul v0x v2x) (nmul v0y v2y) in
  let dot11 := nadd (nmul v1x v1x) (nmul v1y v1y) in
  let dot12 := nadd (nmul v1x v2x) (nmul v1y v2y) in
  let denom := nsub (nmul dot00 dot11) (nmul dot01 dot01) in
  if neqb denom n0 then None else
  let inv := ndiv n1 denom in
  Some (nmul (nsub (nmul dot11 dot02) (nmul dot01 dot12)) inv,
        nmul (nsub (nmul dot00 dot12) (nmul dot01 dot02)) inv).
(** in_triangle_barycentric, baseIntersection.h l.93-109, on triangles that are not flat
    (comparisons with the infinities or NaN of a flat one are not modelled: None) *)
Definition in_triangle_barycentric (a b c d : p2 T) : option bool :=
  if p2_eqb d a || p2_eqb d b || p2_eqb d c then Some true else
  match triangle_barycentric_coordinates a b c d with
  | None => None
  | Some (u, v) => Some (nleb n0 u && nleb n0 v && nleb (nadd u v) n1)
  end.

(** seg_seg_strict_intersection, baseIntersection.h l.178-206 *)
Definition seg_seg_strict_intersection (a b c d : p2 T) (tol : T) : bool :=
  let s1x := nsub (fst b) (fst a) in let s1y := nsub (snd b) (snd a) in
  let s2x := nsub (fst d) (fst c) in let s2y := nsub (snd d) (snd c) in
  let delta := nadd (nmul (nopp s2x) s1y) (nmul s1x s2y) in
  if nltb (nabs delta) tol || (nltb (nabs s1x) tol && nltb (nabs s1y) tol)
     || (nltb (nabs s2x) tol && nltb (nabs s2y) tol)
     || neqb delta n0 (* 0 < tol excludes it; with tol = 0 the quotients are infinite or NaN,
                         and the comparisons below fail *)
  then false else
  let s := ndiv (nadd (nmul (nopp s1y) (nsub (fst a) (fst c))) (nmul s1x (nsub (snd a) (snd c)))) delta in
  let t := ndiv (nsub (nmul s2x (nsub (snd a) (snd c))) (nmul s2y (nsub (fst a) (fst c)))) delta in
  let mx := nsub n1 tol in
  nltb tol s && nltb s mx && nltb tol t && nltb t mx.

(** on_segment, baseIntersection.h l.208-236.  When both extents are zero, t is infinite or
    NaN and the result is false. *)
Definition on_segment (a b p : p2 T) (tol : T) : bool :=
  let cr := nsub (nmul (nsub (fst b) (fst a)) (nsub (snd p) (snd a)))
                 (nmul (nsub (fst p) (fst a)) (nsub (snd b) (snd a))) in
  if nltb tol (nabs cr) then false else
  let dx := nsub (fst b) (fst a) in let dy := nsub (snd b) (snd a) in
  if nleb (nabs dy) (nabs dx) then
    if neqb dx n0 then false else
    let t := ndiv (nsub (fst p) (fst a)) dx in nleb n0 t && nleb t n1
  else
    let t := ndiv (nsub (snd p) (snd a)) dy in nleb n0 t && nleb t n1.

(** seg_D_strict_end_intersection, baseIntersection.h l.238-273 *)
Definition seg_D_strict_end_intersection (a b c D : p2 T) (tol : T) : bool :=
  let s1x := nsub (fst b) (fst a) in let s1y := nsub (snd b) (snd a) in
  let s2x := fst D in let s2y := snd D in
  let delta := nadd (nmul (nopp s2x) s1y) (nmul s1x s2y) in
  if nltb (nabs delta) tol || (nltb (nabs s1x) tol && nltb (nabs s1y) tol) || neqb delta n0
  then false else
  let s := ndiv (nadd (nmul (nopp s1y) (nsub (fst a) (fst c))) (nmul s1x (nsub (snd a) (snd c)))) delta in
  let t := ndiv (nsub (nmul s2x (nsub (snd a) (snd c))) (nmul s2y (nsub (fst a) (fst c)))) delta in
  nltb n0 s && nleb n0 t && nltb t n1.
End Geom.
