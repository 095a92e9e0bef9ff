(** Model of the knot removal functions of gbs/knotsfunctions.ixx.  No proofs in this
    file.  The C++ code computes indices in signed integers (int, ptrdiff_t): here in Z,
    a negative index being an access outside the vector. *)
From Coq Require Import List Arith ZArith Bool.
From Verif Require Import Model_Base Model_Knots.
Import ListNotations.
Local Open Scope Z_scope.

Section Removal.
Context {T : Type} `{Num T}.

(** point / scalar *)
Definition pdivc (a : pt T) (x : T) : result (pt T) :=
  if neqb x n0 then Undef DivByZero else Ok (fun c => ndiv (a c) x).

(** The while loop computing the candidate poles, l.497-508 and l.607-617.  State
    (i, j, ii, jj, temp); [fuel] bounds the iterations (temp[ii] leaves the buffer of
    2p+1 points after 2p+1 of them). *)
Fixpoint rm_compute (fuel : nat) (u : T) (ord t : Z) (U : list T) (P : list (pt T))
    (i j ii jj : Z) (temp : list (pt T)) : result (Z * Z * Z * Z * list (pt T)) :=
  if t <? j - i then
    match fuel with
    | O => Fuel
    | S fuel =>
      let* Ui := zget U i in
      let* Ue := zget U (i + ord + t) in
      let* alfi := divc (nsub u Ui) (nsub Ue Ui) in
      let* Uj := zget U (j - t) in
      let* Uf := zget U (j + ord) in
      let* alfj := divc (nsub u Uj) (nsub Uf Uj) in
      let* Pi := zget P i in
      let* a := zget temp (ii - 1) in
      let* q := pdivc (psub Pi (pscal (nsub n1 alfi) a)) alfi in
      let* temp := zset temp ii q in
      let* Pj := zget P j in
      let* b := zget temp (jj + 1) in
      let* q := pdivc (psub Pj (pscal alfj b)) (nsub n1 alfj) in
      let* temp := zset temp jj q in
      rm_compute fuel u ord t U P (i + 1) (j - 1) (ii + 1) (jj - 1) temp
    end
  else Ok (i, j, ii, jj, temp).

(** The while loop writing them back, l.511-517 and l.642-648. *)
Fixpoint rm_commit (fuel : nat) (t off : Z) (temp : list (pt T)) (i j : Z) (P : list (pt T))
  : result (list (pt T)) :=
  if t <? j - i then
    match fuel with
    | O => Fuel
    | S fuel =>
      let* a := zget temp (i - off) in
      let* P := zset P i a in
      let* b := zget temp (j - off) in
      let* P := zset P j b in
      rm_commit fuel t off temp (i + 1) (j - 1) P
    end
  else Ok P.

(** One pass: the common part of l.486-508 and l.598-617: result (off, i, j, ii, jj,
    temp). *)
Definition rm_candidates (u : T) (p : nat) (t first last : Z) (U : list T) (P temp : list (pt T)) :=
  let off := first - 1 in
  let* a := zget P off in
  let* temp := zset temp 0 a in
  let* b := zget P (last + 1) in
  let* temp := zset temp (last + 1 - off) b in
  rm_compute (2 * p + 3) u (Z.of_nat p + 1) t U P first last 1 (last - off) temp.

(** The tolerance test, l.619-634. *)
Definition rm_test (dist : pt T -> pt T -> T) (u : T) (p : nat) (tol : T) (t : Z)
    (U : list T) (P : list (pt T)) (st : Z * Z * Z * Z * list (pt T)) : result bool :=
  let '(i, j, ii, jj, temp) := st in
  if j - i <? t then
    let* a := zget temp (ii - 1) in
    let* b := zget temp (jj + 1) in
    Ok (nleb (dist a b) tol)
  else
    let* Ui := zget U i in
    let* Ue := zget U (i + (Z.of_nat p + 1) + t) in
    let* alfi := divc (nsub u Ui) (nsub Ue Ui) in
    let* Pi := zget P i in
    let* a := zget temp (ii + t + 1) in
    let* b := zget temp (ii - 1) in
    Ok (nleb (dist Pi (padd (pscal alfi a) (pscal (nsub n1 alfi) b))) tol).

(** The loop on t: [m] passes remain, [t] are done.  [test] is the acceptance test
    (always true in the overload without tolerance).  Result (t, P). *)
Fixpoint rm_passes (m : nat) (test : Z -> list (pt T) -> Z * Z * Z * Z * list (pt T) -> result bool)
    (u : T) (p : nat) (U : list T) (t first last : Z) (P temp : list (pt T))
  : result (Z * list (pt T)) :=
  match m with
  | O => Ok (t, P)
  | S m =>
    let* st := rm_candidates u p t first last U P temp in
    let* ok := test t P st in
    if (ok : bool) then
      let '(_, _, _, _, temp) := st in
      let* P := rm_commit (2 * p + 3) t (first - 1) temp first last P in
      rm_passes m test u p U (t + 1) (first - 1) (last + 1) P temp
    else Ok (t, P)
  end.

(** for (k = lo; k < lo + n; ++k) v[dst++] = v[k] *)
Fixpoint shift_down {A} (n : nat) (lo dst : Z) (v : list A) : result (list A) :=
  match n with
  | O => Ok v
  | S n => let* x := zget v lo in
           let* v := zset v dst x in
           shift_down n (lo + 1) (dst + 1) v
  end.

(** l.526-539 and l.659-677: knots and poles are shifted and the vectors shortened.
    The number of increments of i and decrements of j: odd and even k in [1, t). *)
Definition rm_finish (r fout t : Z) (U : list T) (P : list (pt T)) : result (list T * list (pt T)) :=
  let* U := shift_down (Z.to_nat (Z.of_nat (length U) - (r + 1))) (r + 1) (r + 1 - t) U in
  let i := fout + t / 2 in
  let j := fout - (t - 1) / 2 in
  let* P := shift_down (Z.to_nat (Z.of_nat (length P) - (i + 1))) (i + 1) j P in
  Ok (firstn (length U - Z.to_nat t) U, firstn (length P - Z.to_nat t) P).

(** r = distance(U.begin(), upper_bound(U, u)) - 1; the guard of l.465 and l.567 on
    U[r] (r = -1 is an access before the vector; r == U.size() never holds). *)
Definition rm_locate (u : T) (U : list T) : result (option Z) :=
  let r := Z.of_nat (upper_bound U u) - 1 in
  let* Ur := zget U r in
  if nltb neps (nabs (nsub Ur u)) || (r =? 0) || (r =? Z.of_nat (length U))
  then Ok None else Ok (Some r).

(** remove_knot(u, num, U, P, p), gbs/knotsfunctions.ixx l.457-539.  fout is computed
    in unsigned arithmetic and converted to int: floor division. *)
Definition remove_knot (u : T) (num : nat) (U : list T) (P : list (pt T)) (p : nat)
  : result (list T * list (pt T)) :=
  let* loc := rm_locate u U in
  match loc with
  | None => Ok (U, P)
  | Some r =>
    if (num <? 1)%nat then Ok (U, P) else
    let s := Z.of_nat (multiplicity u U) in
    let fout := (2 * r - s - Z.of_nat p) / 2 in
    let* (t, P) := rm_passes num (fun _ _ _ => Ok true) u p U 0 (r - Z.of_nat p) (r - s) P
                     (filled (2 * p + 1) pzero) in
    rm_finish r fout t U P
  end.

(** remove_knot(u, p, num, U, Pw, tol), gbs/knotsfunctions.ixx l.554-681; result
    (removed count, U, Pw).  fout is computed in signed arithmetic. *)
Definition remove_knot_tol (dist : pt T -> pt T -> T) (u : T) (p num : nat) (U : list T)
    (P : list (pt T)) (tol : T) : result (Z * list T * list (pt T)) :=
  let* loc := rm_locate u U in
  match loc with
  | None => Ok (0, U, P)
  | Some r =>
    if (num <? 1)%nat then Ok (0, U, P) else
    let s := Z.of_nat (multiplicity u U) in
    let fout := Z.quot (2 * r - s - Z.of_nat p) 2 in
    let* (t, P) := rm_passes num (fun t => rm_test dist u p tol t U) u p U 0
                     (r - Z.of_nat p) (r - s) P (filled (2 * p + 1) pzero) in
    if t =? 0 then Ok (0, U, P) else
    let* (U, P) := rm_finish r fout t U P in
    Ok (t, U, P)
  end.

End Removal.
