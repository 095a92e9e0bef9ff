(** Model of the functions of gbs/bsctools.h that give curves a common degree and a common
    knot vector (unify_degree, unify_knots, unify_curves_degree, unify_curves_knots) and that
    join two curves.  No proofs in this file. *)
From Coq Require Import List Arith Bool ZArith.
From Verif Require Import Model_Base Model_Knots Model_Curve Model_Rational Model_Elevate.
Import ListNotations.
Local Open Scope nat_scope.

Section Unify.
Context {T : Type} `{Num T}.

(** BSCurveInfo: poles, flat knots and degree *)
Definition info := (list (pt T) * list T * nat)%type.

(** std::max_element on the degrees followed by a dereference, gbs/bsctools.h l.146-154 and
    l.276-282: undefined on an empty list *)
Definition max_degree (ds : list nat) : result nat :=
  match ds with [] => Undef BadIterator | d :: t => Ok (fold_left max t d) end.

(** unify_degree, gbs/bsctools.h l.142-165 *)
Definition unify_degree (cs : list info) : result (list info) :=
  let* m := max_degree (map snd cs) in
  mapM (fun C : info =>
    let '(P, k, p) := C in
    let* (k, P) := increase_degree k P p (m - p) in
    Ok (P, k, m)) cs.

(** The find_if of l.190-193: the position of the first knot closer than knot_eps *)
Fixpoint find_knot (u : T) (km : list (T * nat)) : option nat :=
  match km with
  | [] => None
  | (v, _) :: t => if nltb (nabs (nsub v u)) neps then Some 0 else option_map S (find_knot u t)
  end.

(** One knot of unify_knots(km_out, k_out, poles_out, degree, km_in), l.186-211; the state is
    (km_out, k_out, poles_out) *)
Definition unify_step (p : nat) (st : list (T * nat) * list T * list (pt T)) (um : T * nat)
  : result (list (T * nat) * list T * list (pt T)) :=
  let '(km, k, P) := st in
  let (u, m) := um in
  match find_knot u km with
  | Some i =>
    let* (v, s) := get km i in
    if s <? m then
      let* (_, k, P) := insert_knots u p (m - s) k P in
      Ok (upd km i (v, m), k, P)
    else Ok (km, k, P)
  | None =>
    let* (_, k, P) := insert_knots u p m k P in
    Ok (insert_at km (lower_bound (map fst km) u) (u, m), k, P)
  end.

(** unify_knots(km_out, k_out, poles_out, degree, km_in), gbs/bsctools.h l.182-212 *)
Definition unify_into (p : nat) (st : list (T * nat) * list T * list (pt T)) (km_in : list (T * nat)) :=
  foldM (unify_step p) st km_in.

(** unify_knots(curves_info), gbs/bsctools.h l.228-264.  front() of an empty vector is
    undefined. *)
Definition unify_knots (cs : list info) : result (list info) :=
  match cs with
  | [] => Undef EmptyFront
  | (P0, k0, p0) :: rest =>
    let* a := front k0 in
    let* b := back k0 in
    let* km0 := unflat_pairs k0 in
    let* (km0, k0, P0, rest) := foldM (fun st (C : info) =>
        let '(km0, k0, P0, done) := st in
        let '(P, k, p) := C in
        let* k := change_bounds a b k in
        let* km := unflat_pairs k in
        let* (km0, k0, P0) := unify_into p0 (km0, k0, P0) km in
        Ok (km0, k0, P0, done ++ [(P, k, p)])) (km0, k0, P0, []) rest in
    let* rest := mapM (fun C : info =>
        let '(P, k, p) := C in
        let* km := unflat_pairs k in
        let* (_, k, P) := unify_into p (km, k, P) km0 in
        Ok (P, k, p)) rest in
    Ok ((P0, k0, p0) :: rest)
  end.

(** unify_curves_degree, gbs/bsctools.h l.272-291 *)
Definition unify_curves_degree (cs : list (curve T)) : result (list (curve T)) :=
  let* m := max_degree (map c_deg cs) in
  mapM (fun c => increaseDegree c (m - c_deg c)) cs.

(** unify_curves_knots, gbs/bsctools.h l.328-374; the begin iterator is dereferenced first *)
Definition unify_curves_knots (cs : list (curve T)) : result (list (curve T)) :=
  match cs with
  | [] => Undef BadIterator
  | c0 :: rest =>
    if negb (forallb (fun c => c_deg c =? c_deg c0) cs) then Throw InvalidArgument else
    let* _ := unflat_pairs (c_knots c0) in
    let* (c0, rest) := foldM (fun st c =>
        let '(c0, done) := st in
        let* c := changeBounds c (c_lo c0) (c_hi c0) in
        let* km := unflat_pairs (c_knots c) in
        let* c0 := insertKnots c0 km in
        Ok (c0, done ++ [c])) (c0, []) rest in
    let* km := unflat_pairs (c_knots c0) in
    let* rest := mapM (fun c => insertKnots c km) rest in
    Ok (c0 :: rest)
  end.

(** The end of join, gbs/bsctools.h l.436-455: [P1] has its last pole already replaced.
    Inserting from std::next(begin, p2 + 1) with fewer knots, and std::next(begin) of no pole,
    are undefined. *)
Definition join_finish (P1 P2 : list (pt T)) (k1 k2 : list T) (p1 p2 : nat) : result (curve T) :=
  match P2 with
  | [] => Undef BadIterator
  | _ :: P2' =>
    let* e := back k1 in
    let* s := front k2 in
    let k2 := map (fun x => nsub (nadd x e) s) k2 in
    if length k2 <? p2 + 1 then Undef BadIterator else
    mk_curve (P1 ++ P2') (removelast k1 ++ skipn (p2 + 1) k2) p1
  end.

(** The two copies brought to one degree, l.412-423 *)
Definition join_pair (c1 c2 : curve T) : result (curve T * curve T) :=
  let* cs := unify_curves_degree [c1; c2] in
  let* a := get cs 0 in
  let* b := get cs 1 in
  Ok (a, b).

(** join of two polynomial curves, gbs/bsctools.h l.406-456 *)
Definition join (c1 c2 : curve T) : result (curve T) :=
  let* c1 := as_bscurve c1 in
  let* c2 := as_bscurve c2 in
  let* (c1, c2) := join_pair c1 c2 in
  let* a := back (c_poles c1) in
  let* b := front (c_poles c2) in
  let half := ndiv n1 (nadd n1 n1) in
  join_finish (removelast (c_poles c1) ++ [pscal half (padd a b)]) (c_poles c2)
    (c_knots c1) (c_knots c2) (c_deg c1) (c_deg c2).

(** join when one of the curves is rational: [r1] and [r2] tell which; the poles have
    dim + 1 coordinates.  A zero end weight divides by zero. *)
Definition as_rational (dim : nat) (r : bool) (c : curve T) : result (curve T) :=
  if r then as_bscurve c else rational_of_bscurve dim c.
Definition join_rational (dim : nat) (r1 r2 : bool) (c1 c2 : curve T) : result (curve T) :=
  let* c1 := as_rational dim r1 c1 in
  let* c2 := as_rational dim r2 c2 in
  let* (c1, c2) := join_pair c1 c2 in
  let* a := back (c_poles c1) in
  let* b := front (c_poles c2) in
  let* s1 := divc n1 (a dim) in
  let* s2 := divc n1 (b dim) in
  let P1 := scale_poles (c_poles c1) s1 in
  let P2 := scale_poles (c_poles c2) s2 in
  let* a := back P1 in
  let* b := front P2 in
  let half := ndiv n1 (nadd n1 n1) in
  let q := pscal half (padd (weight_projection dim a) (weight_projection dim b)) in
  join_finish (removelast P1 ++ [add_weight dim q (a dim)]) P2
    (c_knots c1) (c_knots c2) (c_deg c1) (c_deg c2).
End Unify.
