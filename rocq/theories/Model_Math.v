(** Model of the ranges of gbs/math.ixx and of the parametrisation of point lists of
    gbs/knotsfunctions.ixx.  No proofs in this file. *)
From Coq Require Import List Arith ZArith Bool.
From Verif Require Import Model_Base Model_Knots.
Import ListNotations.
Local Open Scope nat_scope.

Section Ranges.
Context {T : Type} `{Num T}.

(** make_range(v1, v2, n), gbs/math.ixx l.73-97: std::generate runs over v[1..n-1] with
    the accumulator v_, then the last entry is overwritten. *)
Definition make_range (v1 v2 : T) (n : nat) : result (list T) :=
  if n <? 2 then Throw LengthError else
  let v := filled n n0 in
  let* step := divc (nsub v2 v1) (nofnat (n - 1)) in
  let* v := set v 0 v1 in
  let* v := if 2 <? n then
      let* (v, _) := for_ 1 (n - 1) (fun i (st : list T * T) =>
        let (v, a) := st in
        let a := nadd a step in
        let* v := set v i a in Ok (v, a)) (v, v1) in Ok v
    else Ok v in
  set v (n - 1) v2.

(** One coordinate of the grids: a + (b - a) * i / l *)
Definition grid_coord (a b : T) (n i : nat) : result T :=
  let* q := divc (nmul (nsub b a) (nofnat i)) (nofnat (n - 1)) in Ok (nadd a q).

(** make_range in two directions, gbs/math.ixx l.99-120 *)
Definition make_range2 (u1 u2 v1 v2 : T) (nu nv : nat) : result (list (T * T)) :=
  if (nu <? 2) || (nv <? 2) then Throw LengthError else
  for_ 0 nu (fun i v => for_ 0 nv (fun j v =>
    let* a := grid_coord u1 u2 nu i in
    let* b := grid_coord v1 v2 nv j in
    set v (j + nv * i) (a, b)) v) (filled (nu * nv) (n0, n0)).

(** make_range in three directions, gbs/math.ixx l.122-147 *)
Definition make_range3 (u1 u2 v1 v2 w1 w2 : T) (nu nv nw : nat) : result (list (T * T * T)) :=
  if (nu <? 2) || (nv <? 2) || (nw <? 2) then Throw LengthError else
  for_ 0 nu (fun i v => for_ 0 nv (fun j v => for_ 0 nw (fun k v =>
    let* a := grid_coord u1 u2 nu i in
    let* b := grid_coord v1 v2 nv j in
    let* c := grid_coord w1 w2 nw k in
    set v (k + nw * (j + nv * i)) (a, b, c)) v) v) (filled (nu * nv * nw) (n0, n0, n0)).

(** build_mult_flat_knots(u1, u2, n, p, mult), gbs/knotsfunctions.ixx l.269-278 *)
Definition build_mult_flat_knots_range (u1 u2 : T) (n p mult : nat) : result (list T) :=
  let* k := make_range u1 u2 n in build_mult_flat_knots k p mult.

(** The accumulation loops of curve_parametrization: k[i] = k[i-1] + len(pts[i], pts[i-1]) *)
Definition accumulate (len : pt T -> pt T -> T) (pts : list (pt T)) : result (list T) :=
  let k := filled (length pts) n0 in
  let* k := set k 0 n0 in
  let* (k, _) := for_ 1 (length pts - 1) (fun i (st : list T * T) =>
    let (k, a) := st in
    let* p1 := get pts i in
    let* p2 := get pts (i - 1) in
    let a := nadd a (len p1 p2) in
    let* k := set k i a in Ok (k, a)) (k, n0) in
  Ok k.

(** KnotsCalcMode, gbs/knotsfunctions.ixx l.295 *)
Inductive calc_mode := EquallySpaced | ChordLength | Centripetal.

(** curve_parametrization, gbs/knotsfunctions.ixx l.306-341.  [dist] is the Euclidean
    distance of gbs/vecop.ixx, [root] the square root. *)
Definition curve_parametrization (dist : pt T -> pt T -> T) (root : T -> T) (pts : list (pt T))
    (mode : calc_mode) (adim : bool) : result (list T) :=
  let* k := match mode with
    | ChordLength => accumulate dist pts
    | Centripetal => accumulate (fun a b => root (dist a b)) pts
    | EquallySpaced =>
      let* n1' := subi (length pts) 1 in
      let* step := divc n1 (nofnat n1') in
      accumulate (fun _ _ => step) pts
    end in
  if adim then adimension k else Ok k.

End Ranges.

(** make_range(v1, v2) for integers, gbs/math.ixx l.161-180 *)
Definition make_range_int (v1 v2 : Z) : result (list Z) :=
  if (v2 - v1 + 1 <? 2)%Z then Throw LengthError
  else Ok (map (fun i => (v1 + Z.of_nat i)%Z) (seq 0 (Z.to_nat (v2 - v1 + 1)))).
