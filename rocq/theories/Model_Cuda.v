(** Model of the device functions, gbs-cuda/basisfunctions.cuh.  An iterator into the knots is an
    index; the tolerance KNOT_EPS (l.4) is that of the number type.  No proofs in this file. *)
From Coq Require Import List Arith Bool.
From Verif Require Import Model_Base.
Import ListNotations.
Local Open Scope nat_scope.

Section Cuda.
Context {T : Type} `{Num T}.

(** basis_function(p, u, first, last), gbs-cuda/basisfunctions.cuh l.25-55: a difference of knots
    that is not above the tolerance is itself added to the result *)
Fixpoint cuda_basis (p : nat) (u : T) (first : nat) (k : list T) : result T :=
  let* u_last := back k in
  let* ui := get k first in
  let* ui1 := get k (first + 1) in
  match p with
  | O =>
    Ok (if (nleb ui u && nltb u ui1)
           || (nltb (nabs (nsub ui1 u_last)) neps && nltb (nabs (nsub u u_last)) neps)
        then n1 else n0)
  | S q =>
    let* uip := get k (first + p) in
    let* ui1p := get k (first + p + 1) in
    let C1 := nsub uip ui in
    let C2 := nsub ui1p ui1 in
    let* c1 := (if nltb neps C1 then
                  let* f := divc (nsub u ui) C1 in
                  let* b := cuda_basis q u first k in Ok (nmul f b)
                else Ok C1) in
    let* c2 := (if nltb neps C2 then
                  let* f := divc (nsub ui1p u) C2 in
                  let* b := cuda_basis q u (first + 1) k in Ok (nmul f b)
                else Ok C2) in
    Ok (nadd c1 c2)
  end.

(** basis_function(p, u, d, it, last), gbs-cuda/basisfunctions.cuh l.68-100: the second term calls
    itself with p and it, not with p - 1 and it + 1 *)
Fixpoint cuda_basis_der (d p : nat) (u : T) (it : nat) (k : list T) : result T :=
  match d with
  | O => cuda_basis p u it k
  | S e =>
    if p <? d then Ok n0 else
    let* ui := get k it in
    let* ui1 := get k (it + 1) in
    let* uip := get k (it + p) in
    let* ui1p := get k (it + p + 1) in
    let C1 := nsub uip ui in
    let C2 := nsub ui1p ui1 in
    let* c1 := (if nltb neps C1 then
                  let* b := cuda_basis_der e (p - 1) u it k in divc b C1
                else Ok C1) in
    let* c2 := (if nltb neps C2 then
                  let* b := cuda_basis_der e p u it k in divc b C2
                else Ok C2) in
    Ok (nmul (nofnat p) (nsub c1 c2))
  end.
End Cuda.
