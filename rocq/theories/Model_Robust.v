(** Exact-sign orientation predicate, inc/topology/robustPredicates.h.  The arithmetic of the
    number class stands for the floating-point operations of the C++ type, each rounded once
    (the header disables contraction); digits and meps are numeric_limits<T>::digits and
    numeric_limits<T>::epsilon().  Overflow, underflow, infinities and NaN are not modelled. *)
From Coq Require Import List Arith ZArith Bool.
From Verif Require Import Model_Base.
Import ListNotations.

Section Robust.
Context {T : Type} `{Num T}.
Variable digits : nat.
Variable meps : T.

(** constants::epsilon, l.46 *)
Definition rp_epsilon : T := ndiv meps (nofZ 2).
(** compute_splitter, l.48-57 *)
Definition rp_splitter : T := nadd (forp 0 ((digits + 1) / 2) (fun _ s => nmul s (nofZ 2)) n1) n1.
(** The error bounds, l.60-63 *)
Definition rp_result : T := nmul (nadd (nofZ 3) (nmul (nofZ 8) rp_epsilon)) rp_epsilon.
Definition rp_A : T := nmul (nadd (nofZ 3) (nmul (nofZ 16) rp_epsilon)) rp_epsilon.
Definition rp_B : T := nmul (nadd (nofZ 2) (nmul (nofZ 12) rp_epsilon)) rp_epsilon.
Definition rp_C : T := nmul (nmul (nadd (nofZ 9) (nmul (nofZ 64) rp_epsilon)) rp_epsilon) rp_epsilon.

(** two_sum, l.69-78; results are (x, y) *)
Definition two_sum (a b : T) : T * T :=
  let x := nadd a b in
  let bvirt := nsub x a in
  let avirt := nsub x bvirt in
  let bround := nsub b bvirt in
  let around := nsub a avirt in
  (x, nadd around bround).

(** two_diff_tail, l.81-89 *)
Definition two_diff_tail (a b x : T) : T :=
  let bvirt := nsub a x in
  let avirt := nadd x bvirt in
  let bround := nsub bvirt b in
  let around := nsub a avirt in
  nadd around bround.

(** two_diff, l.92-97 *)
Definition two_diff (a b : T) : T * T :=
  let x := nsub a b in (x, two_diff_tail a b x).

(** fast_two_sum, l.100-106 *)
Definition fast_two_sum (a b : T) : T * T :=
  let x := nadd a b in
  let bvirt := nsub x a in
  (x, nsub b bvirt).

(** split, l.109-116; results are (ahi, alo) *)
Definition split (a : T) : T * T :=
  let c := nmul rp_splitter a in
  let abig := nsub c a in
  let ahi := nsub c abig in
  (ahi, nsub a ahi).

(** two_product, l.119-130 *)
Definition two_product (a b : T) : T * T :=
  let x := nmul a b in
  let (ahi, alo) := split a in
  let (bhi, blo) := split b in
  let err1 := nsub x (nmul ahi bhi) in
  let err2 := nsub err1 (nmul alo bhi) in
  let err3 := nsub err2 (nmul ahi blo) in
  (x, nsub (nmul alo blo) err3).

(** two_one_diff, l.133-139; results are (x2, x1, x0) *)
Definition two_one_diff (a1 a0 b : T) : T * T * T :=
  let (i, x0) := two_diff a0 b in
  let (x2, x1) := two_sum a1 i in
  (x2, x1, x0).

(** two_two_diff, l.142-148; the array x0 .. x3 *)
Definition two_two_diff (a1 a0 b1 b0 : T) : list T :=
  let '(j, z0, x0) := two_one_diff a1 a0 b0 in
  let '(x3, x2, x1) := two_one_diff j z0 b1 in
  [x0; x1; x2; x3].

(** estimate, l.151-160; e[0] is read first *)
Definition estimate (e : list T) : result T :=
  match e with
  | [] => Undef BadIndex
  | q :: e => Ok (fold_left nadd e q)
  end.

(** The comparison that merges two expansions, l.173, 188, 206: true takes the component of
    e *)
Definition take_e (enow fnow : T) : bool :=
  Bool.eqb (nltb enow fnow) (nltb (nopp enow) fnow).

(** if (hh != 0) h[hindex++] = hh, l.202, 219, 229, 237; the components written are kept in
    order, the C++ array is long enough (see orient2d_adapt) *)
Definition zeroelim (h : list T) (hh : T) : list T := if neqb hh n0 then h else h ++ [hh].

(** The loops of fast_expansion_sum_zeroelim, l.204-238, on what is left of e and f *)
Fixpoint fes_loop (fuel : nat) (Q : T) (e f h : list T) : result (T * list T) :=
  match fuel with
  | O => Fuel
  | S fuel =>
    match e, f with
    | [], [] => Ok (Q, h)
    | x :: e', [] => let (Qnew, hh) := two_sum Q x in fes_loop fuel Qnew e' [] (zeroelim h hh)
    | [], y :: f' => let (Qnew, hh) := two_sum Q y in fes_loop fuel Qnew [] f' (zeroelim h hh)
    | x :: e', y :: f' =>
      if take_e x y
      then let (Qnew, hh) := two_sum Q x in fes_loop fuel Qnew e' f (zeroelim h hh)
      else let (Qnew, hh) := two_sum Q y in fes_loop fuel Qnew e f' (zeroelim h hh)
    end
  end.

(** fast_expansion_sum_zeroelim, l.165-245 *)
Definition fast_expansion_sum (e f : list T) : result (list T) :=
  match e, f with
  | x :: e', y :: f' =>
    let '(Q, e, f) := if take_e x y then (x, e', f) else (y, e, f') in
    let '(Q, e, f, h) :=
      match e, f with
      | x :: e', y :: f' =>
        if take_e x y
        then let (Qnew, hh) := fast_two_sum x Q in (Qnew, e', f, zeroelim [] hh)
        else let (Qnew, hh) := fast_two_sum y Q in (Qnew, e, f', zeroelim [] hh)
      | _, _ => (Q, e, f, [])
      end in
    let* (Q, h) := fes_loop (length e + length f + 1) Q e f h in
    Ok (if negb (neqb Q n0) || (length h =? 0) then h ++ [Q] else h)
  | _, _ => Undef BadIndex
  end.

(** Writing an expansion into an array of cap components *)
Definition fits (cap : nat) (h : list T) : result (list T) :=
  if length h <=? cap then Ok h else Undef BadIndex.

(** det >= errbound || -det >= errbound *)
Definition decided (det errbound : T) : bool := nleb errbound det || nleb errbound (nopp det).

Definition p2x (a : T * T) := fst a.
Definition p2y (a : T * T) := snd a.

(** orient2d_adapt, l.248-313 *)
Definition orient2d_adapt (pa pb pc : T * T) (detsum : T) : result T :=
  let acx := nsub (p2x pa) (p2x pc) in
  let bcx := nsub (p2x pb) (p2x pc) in
  let acy := nsub (p2y pa) (p2y pc) in
  let bcy := nsub (p2y pb) (p2y pc) in
  let (detleft, detlefttail) := two_product acx bcy in
  let (detright, detrighttail) := two_product acy bcx in
  let B := two_two_diff detleft detlefttail detright detrighttail in
  let* det := estimate B in
  if decided det (nmul rp_B detsum) then Ok det else
  let acxtail := two_diff_tail (p2x pa) (p2x pc) acx in
  let bcxtail := two_diff_tail (p2x pb) (p2x pc) bcx in
  let acytail := two_diff_tail (p2y pa) (p2y pc) acy in
  let bcytail := two_diff_tail (p2y pb) (p2y pc) bcy in
  if neqb acxtail n0 && neqb acytail n0 && neqb bcxtail n0 && neqb bcytail n0 then Ok det else
  let errbound := nadd (nmul rp_C detsum) (nmul rp_result (nabs det)) in
  let det := nadd det (nsub (nadd (nmul acx bcytail) (nmul bcy acxtail))
                            (nadd (nmul acy bcxtail) (nmul bcx acytail))) in
  if decided det errbound then Ok det else
  let (s1, s0) := two_product acxtail bcy in
  let (t1, t0) := two_product acytail bcx in
  let* C1 := fast_expansion_sum B (two_two_diff s1 s0 t1 t0) in
  let* C1 := fits 8 C1 in
  let (s1, s0) := two_product acx bcytail in
  let (t1, t0) := two_product acy bcxtail in
  let* C2 := fast_expansion_sum C1 (two_two_diff s1 s0 t1 t0) in
  let* C2 := fits 12 C2 in
  let (s1, s0) := two_product acxtail bcytail in
  let (t1, t0) := two_product acytail bcxtail in
  let* D := fast_expansion_sum C2 (two_two_diff s1 s0 t1 t0) in
  let* D := fits 16 D in
  back D.

(** orient2d, l.328-362 *)
Definition robust_orient2d (pa pb pc : T * T) : result T :=
  let detleft := nmul (nsub (p2x pa) (p2x pc)) (nsub (p2y pb) (p2y pc)) in
  let detright := nmul (nsub (p2y pa) (p2y pc)) (nsub (p2x pb) (p2x pc)) in
  let det := nsub detleft detright in
  let filter detsum :=
    if decided det (nmul rp_A detsum) then Ok det else orient2d_adapt pa pb pc detsum in
  if nltb n0 detleft then
    if nleb detright n0 then Ok det else filter (nadd detleft detright)
  else if nltb detleft n0 then
    if nleb n0 detright then Ok det else filter (nsub (nopp detleft) detright)
  else Ok det.
End Robust.
