(** Model of the point transformations of gbs/transformpoints.h.  Points are coordinate
    functions, 3x3 matrices functions of row and column (Eigen's product and sum are the
    usual ones).  The functions of <cmath> are arguments.  No proofs in this file. *)
From Coq Require Import List Arith.
From Verif Require Import Model_Base Model_Vec.
Import ListNotations.
Local Open Scope nat_scope.

(** ax2<T,3>: origin, main direction, direction of the first axis (gbs/gbslib.h) *)
Record frame (T : Type) := mkf { f_o : pt T; f_z : pt T; f_x : pt T }.
Arguments mkf {T}. Arguments f_o {T}. Arguments f_z {T}. Arguments f_x {T}.

Section Motion.
Context {T : Type} `{Num T}.
Variables sqrtf cosf sinf : T -> T.

(** Literal points *)
Definition p2 (x y : T) : pt T := fun i => match i with 0 => x | 1 => y | _ => n0 end.
Definition p3 (x y z : T) : pt T := fun i => match i with 0 => x | 1 => y | 2 => z | _ => n0 end.

(** rotate in the plane, gbs/transformpoints.h l.58-66 *)
Definition rotate2 (x : pt T) (a : T) : pt T :=
  let c := cosf a in let s := sinf a in
  let tmp := x 0 in
  p2 (nsub (nmul (x 0) c) (nmul (x 1) s)) (nadd (nmul tmp s) (nmul (x 1) c)).

(** rotate about a centre, gbs/transformpoints.h l.68-74 *)
Definition rotate2_about (x : pt T) (a : T) (O : pt T) : pt T :=
  padd (rotate2 (psub x O) a) O.

(** rotate in space about an axis through the origin, gbs/transformpoints.h l.92-105 *)
Definition rotate3 (x : pt T) (a : T) (ax : pt T) : result (pt T) :=
  let* ax_ := adim sqrtf 3 ax in
  let c := cosf a in
  let s := sinf a in
  let k := nsub n1 c in
  let m (i j : nat) := nmul (nmul (ax_ i) (ax_ j)) k in
  Ok (p3
    (nadd (nadd (nmul (x 0) (nadd (m 0 0) c))
                (nmul (x 1) (nsub (m 0 1) (nmul (ax_ 2) s))))
          (nmul (x 2) (nadd (m 0 2) (nmul (ax_ 1) s))))
    (nadd (nadd (nmul (x 0) (nadd (m 0 1) (nmul (ax_ 2) s)))
                (nmul (x 1) (nadd (m 1 1) c)))
          (nmul (x 2) (nsub (m 1 2) (nmul (ax_ 0) s))))
    (nadd (nadd (nmul (x 0) (nsub (m 0 2) (nmul (ax_ 1) s)))
                (nmul (x 1) (nadd (m 1 2) (nmul (ax_ 0) s))))
          (nmul (x 2) (nadd (m 2 2) c)))).

(** translate and scaled, gbs/transformpoints.h l.26-30, 114-118 *)
Definition translated (x v : pt T) : pt T := padd x v.
Definition scaled (x : pt T) (s : T) (center : pt T) : pt T :=
  padd (pscal s (psub x center)) center.
(** scaled along one coordinate, gbs/transformpoints.h l.126-138 *)
Definition scaled_coord (x : pt T) (s : T) (coord : nat) (center : pt T) : pt T :=
  fun i => if i =? coord then nadd (nmul (nsub (x i) (center i)) s) (center i) else x i.

Definition mat3 := nat -> nat -> T.

(** build_trf_loc_and_matrix(R), gbs/transformpoints.h l.152-167: location and the matrix
    whose columns are the axes *)
Definition trf_loc_mat (R : frame T) : result (pt T * mat3) :=
  let* P1 := pdiv (f_x R) (norm sqrtf 3 (f_x R)) in
  let* P3 := pdiv (f_z R) (norm sqrtf 3 (f_z R)) in
  let P2 := cross P3 P1 in
  Ok (f_o R, fun i j => match j with 0 => P1 i | 1 => P2 i | _ => P3 i end).

(** Eigen's 3x3 products *)
Definition mvec (M : mat3) (x : pt T) : pt T := fun i =>
  nadd (nadd (nmul (M i 0) (x 0)) (nmul (M i 1) (x 1))) (nmul (M i 2) (x 2)).
Definition mmul (A B : mat3) : mat3 := fun i j =>
  nadd (nadd (nmul (A i 0) (B 0 j)) (nmul (A i 1) (B 1 j))) (nmul (A i 2) (B 2 j)).

(** build_trf_loc_and_matrix(R_from, R_to), gbs/transformpoints.h l.192-203 *)
Definition trf_from_to (from to_ : frame T) : result (pt T * mat3) :=
  let* (Loc_to, P_to) := trf_loc_mat to_ in
  let* (Loc_from, P_from) := trf_loc_mat from in
  Ok (psub Loc_to (mvec P_to Loc_from), mmul P_to P_from).

(** build_trf_matrix (l.167-190, 205-210) stores both parts in a 4x4 matrix with last row
    0 0 0 1; transform(pt, Matrix4) (l.238-251) and transform(pt, Loc, M) (l.212-226) then
    both compute M pt + Loc.  The 4x4 matrix is represented by the pair. *)
Definition transform (pt_ : pt T) (LM : pt T * mat3) : pt T :=
  let (Loc, M) := LM in padd (mvec M pt_) Loc.
End Motion.
