(** Model of the curve builders of gbs/bscbuild.h.  No proofs in this file. *)
From Coq Require Import List Arith ZArith.
From Verif Require Import Model_Base Model_Vec Model_Curve.
Import ListNotations.
Local Open Scope nat_scope.

Section Build.
Context {T : Type} `{Num T}.
Variable sqrtf : T -> T.

(** build_segment, gbs/bscbuild.h l.22-31 *)
Definition build_segment (dim : nat) (p1 p2 : pt T) (normalized : bool) : result (curve T) :=
  let u2 := if normalized then n1 else norm sqrtf dim (psub p2 p1) in
  mk_curve [p1; p2] [n0; n0; u2; u2] 1.

(** translate for poles that carry a weight, gbs/transformpoints.h l.32-42: the weight is
    coordinate [dim] *)
Definition translate_weighted (dim : nat) (v x : pt T) : pt T :=
  fun i => if i <? dim then nadd (x i) (nmul (v i) (x dim)) else x i.

(** A pole of an array initialised to 0 of which x, y and the last coordinate are set *)
Definition pole_xyw (dim : nat) (x y w : T) : pt T :=
  fun i => if i =? dim then w else match i with 0 => x | 1 => y | _ => n0 end.

(** build_ellipse, gbs/bscbuild.h l.42-91 (dim >= 2) *)
Definition build_ellipse (dim : nat) (r1 r2 : T) (center : pt T) : result (curve T) :=
  let* q := divc n1 (nofnat 4) in
  let* h := divc n1 (nofnat 2) in
  let* t := divc (nofnat 3) (nofnat 4) in
  let* wi := divc (sqrtf (nofnat 2)) (nofnat 2) in
  let k := [n0; n0; n0; q; q; h; h; t; t; n1; n1; n1] in
  let P := pole_xyw dim in
  let poles := [ P r1 n0 n1; P (nmul wi r1) (nmul wi r2) wi; P n0 r2 n1;
                 P (nmul (nopp wi) r1) (nmul wi r2) wi; P (nopp r1) n0 n1;
                 P (nmul (nopp wi) r1) (nmul (nopp wi) r2) wi; P n0 (nopp r2) n1;
                 P (nmul wi r1) (nmul (nopp wi) r2) wi; P r1 n0 n1 ] in
  mk_curve (map (translate_weighted dim center) poles) k 2.

(** build_circle, gbs/bscbuild.h l.101-105 *)
Definition build_circle (dim : nat) (r : T) (center : pt T) : result (curve T) :=
  build_ellipse dim r r center.

(** build_derivate, gbs/bscbuild.h l.116-140.  T(p) * v / s is (T(p) * v) * (1 / s);
    p - 1 on the unsigned degree is only defined for p > 0. *)
Definition build_derivate (c : curve T) : result (curve T) :=
  let poles := c_poles c in
  let knots := c_knots c in
  let p := c_deg c in
  let* n := subi (length poles) 1 in
  let* new_poles := mapM (fun i =>
    let* a := get poles (i + 1) in
    let* b := get poles i in
    let* k1 := get knots (i + p + 1) in
    let* k0 := get knots (i + 1) in
    pdiv (pscal (nofnat p) (psub a b)) (nsub k1 k0)) (seq 0 n) in
  let* p' := subi p 1 in
  mk_curve new_poles (tl (removelast knots)) p'.

(** build_integrate, gbs/bscbuild.h l.152-168 *)
Definition build_integrate (c : curve T) (P0 : pt T) : result (curve T) :=
  let poles := c_poles c in
  let n := length poles + 1 in
  let p := c_deg c + 1 in
  let* f := front (c_knots c) in
  let* b := back (c_knots c) in
  let knots := (f :: c_knots c) ++ [b] in
  let* new_poles := set (filled n pzero) 0 P0 in
  let* new_poles := for_ 1 (n - 1) (fun i new_poles =>
    let* a := get poles (i - 1) in
    let* k1 := get knots (p + i) in
    let* k0 := get knots i in
    let* q := pdiv (pscal (nsub k1 k0) a) (nofnat p) in
    let* prev := get new_poles (i - 1) in
    set new_poles i (padd q prev)) new_poles in
  mk_curve new_poles knots p.
End Build.
