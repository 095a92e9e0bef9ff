(** Model of gbs/knotsfunctions.ixx: knot vectors, knot insertion, trimming.  No
    proofs in this file. *)
From Coq Require Import List Arith ZArith Bool.
From Verif Require Import Model_Base.
Import ListNotations.
Local Open Scope nat_scope.

Section Knots.
Context {T : Type} `{Num T}.

(** std::upper_bound(v.begin(), v.end(), u) as an index: first element greater than
    u.  Simplification: the linear scan gives the same answer as the library's binary
    search on sorted ranges, the only ones the C++ standard defines. *)
Fixpoint upper_bound (v : list T) (u : T) : nat :=
  match v with
  | [] => 0
  | x :: t => if nltb u x then 0 else S (upper_bound t u)
  end.
(** std::lower_bound: first element not less than u (same simplification). *)
Fixpoint lower_bound (v : list T) (u : T) : nat :=
  match v with
  | [] => 0
  | x :: t => if nltb x u then S (lower_bound t u) else 0
  end.

(** multiplicity(u, k_flat), gbs/knotsfunctions.ixx l.246-250 *)
Definition multiplicity (u : T) (k : list T) : nat := upper_bound k u - lower_bound k u.
(** multiplicity(knots_flat, knot), gbs/knotsfunctions.ixx l.198-204 *)
Definition multiplicity_eps (k : list T) (u : T) : nat :=
  fold_left (fun m x => if nltb (nabs (nsub x u)) neps then S m else m) k 0.

(** Copy loops: for i in [lo, lo+n): dst[i+off] = src[i]. *)
Definition copy_loop {A} (lo n off : nat) (src dst : list A) : result (list A) :=
  for_ lo n (fun i d => let* x := get src i in set d (i + off) x) dst.

(** The knot vector built by insert_knots, gbs/knotsfunctions.ixx l.392-397: [m] is
    the C++ variable k, [mp] the last index of the old vector. *)
Definition insert_knots_UQ (u : T) (m mp r : nat) (UP : list T) : result (list T) :=
  let UQ := filled (length UP + r) n0 in
  let* UQ := copy_loop 0 (m + 1) 0 UP UQ in
  let* UQ := for_ 1 r (fun i q => set q (i + m) u) UQ in
  copy_loop (m + 1) (mp + 1 - (m + 1)) r UP UQ.

(** l.410-414: the update of R for one j (L = m-p+j). *)
Definition insert_knots_alpha (u : T) (L m : nat) (UP : list T) (i : nat)
    (R : list (pt T)) : result (list (pt T)) :=
  let* a := get UP (L + i) in
  let* b := get UP (i + m + 1) in
  let* alpha := divc (nsub u a) (nsub b a) in
  let* x := get R (i + 1) in
  let* y := get R i in
  set R i (padd (pscal alpha x) (pscal (nsub n1 alpha) y)).

(** l.407-418: one round j; the state is (Q, R). *)
Definition insert_knots_round (u : T) (p s r m : nat) (UP : list T) (j : nat)
    (st : list (pt T) * list (pt T)) : result (list (pt T) * list (pt T)) :=
  let (Q, R) := st in
  let L := m - p + j in
  let* R := for_ 0 (p - j - s + 1) (insert_knots_alpha u L m UP) R in
  let* a := get R 0 in
  let* Q := set Q L a in
  let* b := get R (p - j - s) in
  let* Q := set Q (m + r - j - s) b in
  Ok (Q, R).

(** insert_knots(u, p, r, UP, P), gbs/knotsfunctions.ixx l.367-423.  The result is
    (returned index, UP, P) after the call.  The index is a size_t: the value given
    here is its representative before reduction modulo 2^64.  A negative or wrapped
    loop bound makes the C++ loop run out of its vector: reported as BadIndex. *)
Definition insert_knots (u : T) (p r : nat) (UP : list T) (P : list (pt T))
  : result (Z * list T * list (pt T)) :=
  let* np := subi (length P) 1 in
  let mp := np + p + 1 in
  let k_it := upper_bound UP u in
  let s := k_it - lower_bound UP u in
  if p <=? s then
    let at_end := if k_it =? length UP then 1 else 0 in
    Ok (Z.of_nat k_it - 1 - Z.of_nat p - Z.of_nat at_end, UP, P)%Z
  else
    let* m := subi k_it 1 in
    let r := min r (p - s) in
    let Q := filled (length P + r) pzero in
    let* UQ := insert_knots_UQ u m mp r UP in
    let* mp' := subi m p in
    let* Q := copy_loop 0 (mp' + 1) 0 P Q in
    let* ms := subi m s in
    let* Q := copy_loop ms (np + 1 - ms) r P Q in
    let R := filled (p + 1) pzero in
    let* R := for_ 0 (p - s + 1) (fun i R => let* x := get P (mp' + i) in set R i x) R in
    let* (Q, R) := for_ 1 r (insert_knots_round u p s r m UP) (Q, R) in
    let L := if r =? 0 then 0 else mp' + r in
    let* Q := for_ (L + 1) (ms - (L + 1)) (fun i Q => let* x := get R (i - L) in set Q i x) Q in
    Ok (Z.of_nat m + 1 + Z.of_nat r - (Z.of_nat p + 1), UQ, Q)%Z.

(** insert_knot(u, p, knots, poles), gbs/knotsfunctions.ixx l.435-439 *)
Definition insert_knot (u : T) (p : nat) (k : list T) (P : list (pt T)) :=
  insert_knots u p 1 k P.

(** unflat_knots(flat, mult, knots), gbs/knotsfunctions.ixx l.106-128, on the state
    (knots, mult): both vectors in order.  [knots_and_mults] (l.163-169) returns the
    same pair. *)
Definition unflat_step (st : list T * list nat) (x : T) : result (list T * list nat) :=
  let (ks, ms) := st in
  let* kb := back ks in
  let* mb := back ms in
  if nleb (nabs (nsub x kb)) neps then Ok (ks, removelast ms ++ [S mb])
  else Ok (ks ++ [x], ms ++ [1]).
Fixpoint foldM {A B} (f : A -> B -> result A) (a : A) (l : list B) : result A :=
  match l with [] => Ok a | x :: t => let* a' := f a x in foldM f a' t end.
Definition knots_and_mults (flat : list T) : result (list T * list nat) :=
  let* k0 := front flat in
  foldM unflat_step ([k0], [1]) (tl flat).

(** unflat_knots(flat, knots), gbs/knotsfunctions.ixx l.137-152 *)
Definition unflat_knots_only (flat : list T) : result (list T) :=
  let* k0 := front flat in
  foldM (fun ks x => let* kb := back ks in
           if nltb neps (nabs (nsub x kb)) then Ok (ks ++ [x]) else Ok ks) [k0] (tl flat).

(** unflat_knots(flat) as pairs, gbs/knotsfunctions.ixx l.177-196 *)
Definition unflat_pairs (flat : list T) : result (list (T * nat)) :=
  let* k0 := front flat in
  foldM (fun r x => let* b := back r in
           if nltb (nabs (nsub x (fst b))) neps
           then Ok (removelast r ++ [(fst b, S (snd b))])
           else Ok (r ++ [(x, 1)])) [(k0, 1)] (tl flat).

(** flat_knots(knots, mult), gbs/knotsfunctions.ixx l.215-237 *)
Definition flat_knots (knots : list T) (mult : list nat) : result (list T) :=
  if length knots =? length mult then
    for_ 0 (length knots) (fun i acc =>
      let* n := get mult i in
      let* kv := get knots i in
      for_ 0 n (fun _ acc => Ok (acc ++ [kv])) acc) []
  else Throw LengthError.

(** build_simple_mult_flat_knots(u, p), gbs/knotsfunctions.ixx l.35-66 (the assert
    is compiled out).  The loop bound n - p is a size_t: a wrap-around is BadIndex. *)
Definition build_simple_mult_flat_knots (u : list T) (p : nat) : result (list T) :=
  let n := length u in
  let nk := n + p + 1 in
  let* u1 := front u in
  let* u2 := back u in
  let k := filled nk n0 in
  let* k := for_ 0 (p + 1) (fun i k => set k i u1) k in
  let* k := for_ (nk - p - 1) (p + 1) (fun i k => set k i u2) k in
  if 2 <? n then
    let* np := subi n p in
    for_ 1 (np - 1) (fun j k =>
      let* k := set k (j + p) n0 in
      for_ j p (fun i k =>
        let* x := get k (j + p) in
        let* ui := get u i in
        let* q := divc ui (nofnat p) in
        set k (j + p) (nadd x q)) k) k
  else Ok k.

(** build_simple_mult_flat_knots(u1, u2, n, p), gbs/knotsfunctions.ixx l.79-96 *)
Definition build_simple_mult_flat_knots_range (u1 u2 : T) (n p : nat) : result (list T) :=
  let nk := n + p + 1 in
  let k := filled nk n0 in
  let* k := for_ 0 (p + 1) (fun i k => set k i u1) k in
  let* k := for_ (nk - p - 1) (p + 1) (fun i k => set k i u2) k in
  let delta := nsub u2 u1 in
  let* np := subi n p in
  for_ 1 (np - 1) (fun j k =>
    let* q := divc (nmul delta (nofnat j)) (nofnat (np + 1)) in
    set k (j + p) (nadd u1 q)) k.

(** build_mult_flat_knots(k, p, mult), gbs/knotsfunctions.ixx l.260-268: the
    multiplicities are (p+1, mult, ..., mult, p+1); with a single knot
    std::fill(++begin, --end) has a reversed range (BadIterator). *)
Definition build_mult_flat_knots (k : list T) (p mult : nat) : result (list T) :=
  match length k with
  | 0 => Undef EmptyFront
  | 1 => Undef BadIterator
  | S (S n) => flat_knots k ((p + 1) :: repeat mult n ++ [p + 1])
  end.

(** adimension, gbs/knotsfunctions.ixx l.285-293 *)
Definition adimension (k : list T) : result (list T) :=
  let* b := back k in let* f := front k in
  let d := nsub b f in
  if nltb neps (nabs d) then mapM (fun x => divc x d) k else Ok k.

(** change_bounds, gbs/knotsfunctions.ixx l.784-793 *)
Definition change_bounds (k1 k2 : T) (k : list T) : result (list T) :=
  let* f := front k in let* b := back k in
  mapM (fun x => let* q := divc (nmul (nsub k2 k1) (nsub x f)) (nsub b f) in
                 Ok (nadd k1 q)) k.

(** insert_ordered, gbs/knotsfunctions.ixx l.1095-1099 *)
Definition insert_at {A} (v : list A) (i : nat) (x : A) : list A :=
  firstn i v ++ x :: skipn i v.
Definition insert_ordered (v : list T) (x : T) : list T :=
  insert_at v (lower_bound v x) x.
(** insert_unique_ordered, gbs/knotsfunctions.ixx l.1078-1084 *)
Definition insert_unique_ordered (v : list T) (x tol : T) : list T :=
  let i := lower_bound v x in
  match nth_error v i with
  | None => insert_at v i x
  | Some y => if nltb tol (nabs (nsub x y)) then insert_at v i x else v
  end.

(** trim_begin, gbs/knotsfunctions.ixx l.1012-1025 *)
Definition trim_begin (p : nat) (k : list T) (P : list (pt T)) (u : T)
  : result (list T * list (pt T)) :=
  let* f := front k in
  if nltb (nsub u f) neps then Ok (k, P) else
  let* (_, k, P) := insert_knots u p p k P in
  let i_l := lower_bound k u in
  let k := skipn i_l k in
  let* f := front k in
  let k := f :: k in
  let* il1 := subi i_l 1 in
  if il1 <=? length P then Ok (k, skipn il1 P) else Undef BadIterator.

(** trim_end, gbs/knotsfunctions.ixx l.1036-1049 *)
Definition trim_end (p : nat) (k : list T) (P : list (pt T)) (u : T)
  : result (list T * list (pt T)) :=
  let* b := back k in
  if nltb (nsub b u) neps then Ok (k, P) else
  let* (_, k, P) := insert_knots u p p k P in
  let i_h := lower_bound k u in
  if i_h + p <=? length k then
    let k := firstn (i_h + p) k in
    let* b := back k in
    let k := k ++ [b] in
    if i_h <=? length P then Ok (k, firstn i_h P) else Undef BadIterator
  else Undef BadIterator.

(** trim, gbs/knotsfunctions.ixx l.1061-1065 *)
Definition trim (p : nat) (k : list T) (P : list (pt T)) (u1 u2 : T)
  : result (list T * list (pt T)) :=
  let lo := if nltb u1 u2 then u1 else u2 in
  let hi := if nltb u1 u2 then u2 else u1 in
  let* (k, P) := trim_begin p k P lo in
  trim_end p k P hi.

End Knots.
