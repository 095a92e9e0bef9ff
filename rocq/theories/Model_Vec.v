(** Model of the vector operations of gbs/vecop.ixx used by the builders and the
    transformations.  Points are coordinate functions; [dim] is the array size.  The
    functions of <cmath> are arguments.  No proofs in this file. *)
From Coq Require Import List Arith.
From Verif Require Import Model_Base.
Import ListNotations.
Local Open Scope nat_scope.

Section Vec.
Context {T : Type} `{Num T}.
Variable sqrtf : T -> T.

(** operator*(array, array), gbs/vecop.ixx l.121-129: the sum of the products *)
Fixpoint dot (dim : nat) (a b : pt T) : T :=
  match dim with O => n0 | S m => nadd (dot m a b) (nmul (a m) (b m)) end.

(** sq_norm, gbs/vecop.ixx l.170-177 *)
Definition sq_norm (dim : nat) (a : pt T) : T := dot dim a a.

(** norm, gbs/vecop.ixx l.180-183 *)
Definition norm (dim : nat) (a : pt T) : T := sqrtf (sq_norm dim a).

(** operator/(array, scalar), gbs/vecop.ixx l.150-153: multiplies by the inverse *)
Definition pdiv (a : pt T) (s : T) : result (pt T) :=
  let* i := divc n1 s in Ok (pscal i a).

(** adim and normalized, gbs/vecop.ixx l.266-302: every coordinate over the norm *)
Definition adim (dim : nat) (a : pt T) : result (pt T) :=
  if neqb (norm dim a) n0 then Undef DivByZero else Ok (fun i => ndiv (a i) (norm dim a)).

(** cross product in three dimensions, gbs/vecop.ixx l.81-89 *)
Definition cross (a b : pt T) : pt T := fun i =>
  match i with
  | 0 => nsub (nmul (a 1) (b 2)) (nmul (a 2) (b 1))
  | 1 => nsub (nmul (a 2) (b 0)) (nmul (a 0) (b 2))
  | 2 => nsub (nmul (a 0) (b 1)) (nmul (a 1) (b 0))
  | _ => n0
  end.
End Vec.
