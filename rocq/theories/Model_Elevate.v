(** Model of degree elevation and Bezier decomposition: increase_bezier_degree,
    bezier_segments and increase_degree of gbs/knotsfunctions.ixx, increaseDegree of
    gbs/bscurve.h and increaseDegreeU / increaseDegreeV of gbs/bssurf.h.  No proofs in this
    file. *)
From Coq Require Import List Arith Bool ZArith.
From Verif Require Import Model_Base Model_Knots Model_Removal Model_Curve Model_Rational Model_Surface.
Import ListNotations.
Local Open Scope nat_scope.

Section Elevate.
Context {T : Type} `{Num T}.

(** increase_bezier_degree, gbs/knotsfunctions.ixx l.806-822.  The binomials are computed
    in int.  i - t is computed in size_t and converted to int: max(0, i - t). *)
Definition increase_bezier_degree (P : list (pt T)) (p t : nat) : result (list (pt T)) :=
  for_ 0 (p + t + 1) (fun i Pt =>
    let lo := i - t in
    let* a := for_ lo (min p i + 1 - lo) (fun j a =>
        let* b1 := binomial_law mul_int p j in
        let* b2 := binomial_law mul_int t (i - j) in
        let* b3 := binomial_law mul_int (p + t) i in
        let* C := divc (nmul b1 b2) b3 in
        let* q := get P j in
        Ok (padd a (pscal C q))) pzero in
    set Pt i a) (filled (p + 1 + t) pzero).

(** The loop of bezier_segments, gbs/knotsfunctions.ixx l.855-872: [itp] and [itu] are the
    positions of the iterators.  Advancing past the end of the poles and dereferencing the
    end of the knots are undefined. *)
Fixpoint bezier_loop (fuel p : nat) (U : list T) (P : list (pt T)) (itp itu : nat)
    (acc : list (list (pt T) * (T * T))) : result (list (list (pt T) * (T * T))) :=
  match fuel with
  | 0 => Fuel
  | S fuel =>
    let itp_ := itp + (p + 1) in
    if length P <? itp_ then Undef BadIterator else
    let poles_bezier := firstn (p + 1) (skipn itp P) in
    match nth_error U itu, nth_error U (itu + 1) with
    | Some u1, Some u2 =>
      let acc := acc ++ [(poles_bezier, (u1, u2))] in
      if itp_ =? length P then Ok acc else bezier_loop fuel p U P (itp_ - 1) (itu + 1) acc
    | _, _ => Undef BadIterator
    end
  end.

(** bezier_segments, gbs/knotsfunctions.ixx l.833-876 (the assert is not modelled).  p - M[i]
    wraps when M[i] > p; insert_knots bounds its argument by p, so p stands for it. *)
Definition bezier_segments (k : list T) (P : list (pt T)) (p : nat)
  : result (list (list (pt T) * (T * T))) :=
  let* (U, M) := knots_and_mults k in
  let* (k, P) := for_ 1 (length U - 2) (fun i st =>
      let '(k, P) := st in
      let* u := get U i in
      let* m := get M i in
      let* (_, k, P) := insert_knots u p (if p <? m then p else p - m) k P in
      Ok (k, P)) (k, P) in
  let* (U, _) := knots_and_mults k in
  match P with
  | [] => Ok []
  | _ => bezier_loop (length U) p U P 0 0 []
  end.

(** increase_degree, gbs/knotsfunctions.ixx l.955-1000.  p_new - (M[i] + t) wraps when
    M[i] > p: reported as IntOverflow. *)
Definition increase_degree (k : list T) (P : list (pt T)) (p t : nat) : result (list T * list (pt T)) :=
  let* (U, M) := knots_and_mults k in
  let* segs := bezier_segments k P p in
  let* segs := mapM (fun pa : list (pt T) * (T * T) =>
      let* q := increase_bezier_degree (fst pa) p t in Ok (q, snd pa)) segs in
  let p_new := p + t in
  let* s0 := front segs in
  let* (poles_new, M_new, U_new) := for_ 1 (length segs - 1) (fun s st =>
      let '(poles_new, M_new, U_new) := st in
      let* seg := get segs s in
      let* poles_new := for_ 1 p_new (fun i acc => let* q := get (fst seg) i in Ok (acc ++ [q])) poles_new in
      Ok (poles_new, M_new ++ [p_new], U_new ++ [snd (snd seg)]))
    (fst s0, [p_new + 1], [fst (snd s0); snd (snd s0)]) in
  let M_new := M_new ++ [p_new + 1] in
  let* k_new := flat_knots U_new M_new in
  for_ 1 (length U - 2) (fun i st =>
    let '(k_new, poles_new) := st in
    let* u := get U i in
    let* m := get M i in
    if p_new <? m + t then Undef IntOverflow else
    remove_knot u (p_new - (m + t)) k_new poles_new p_new) (k_new, poles_new).

(** increaseDegree, gbs/bscurve.h l.576-580 *)
Definition increaseDegree (c : curve T) (step : nat) : result (curve T) :=
  let* (k, P) := increase_degree (c_knots c) (c_poles c) (c_deg c) step in
  Ok (mk (c_deg c + step) P k (c_lo c) (c_hi c)).

(** increaseDegreeU, gbs/bssurf.h l.865-890: the knots are those of the first row *)
Definition increaseDegreeU (s : surf T) : result (surf T) :=
  let* m := nPolesV s in
  let* n := nPolesU s in
  let* (ku, P) := for_ 0 m (fun i st =>
    let '(ku, acc) := st in
    let* Pi := slice (s_poles s) i n in
    let* (k, Pi) := increase_degree (s_ku s) Pi (s_degU s) 1 in
    Ok (if i =? 0 then k else ku, acc ++ Pi)) ([], []) in
  Ok (mks (s_degU s + 1) (s_degV s) P ku (s_kv s) (s_u1 s) (s_u2 s) (s_v1 s) (s_v2 s)).

(** increaseDegreeV, gbs/bssurf.h l.897-902 *)
Definition increaseDegreeV (s : surf T) : result (surf T) :=
  let* s := invertUV s in
  let* s := increaseDegreeU s in
  invertUV s.
End Elevate.
