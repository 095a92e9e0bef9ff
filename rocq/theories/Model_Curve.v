(** Model of the curve classes of gbs/bscurve.h: BSCurveGeneral, BSCurve and
    BSCurveRational as records, member functions as functions returning the new
    object.  No proofs in this file.  Degree elevation is in Model_Elevate.v. *)
From Coq Require Import List Arith ZArith Bool.
From Verif Require Import Model_Base Model_Basis Model_Knots Model_Removal Model_Rational.
Import ListNotations.
Local Open Scope nat_scope.

(** The members m_deg, m_poles, m_knotsFlats, m_bounds; gbs/bscurve.h l.253-259 *)
Record curve (T : Type) := mk {
  c_deg : nat; c_poles : list (pt T); c_knots : list T; c_lo : T; c_hi : T }.
Arguments mk {T}. Arguments c_deg {T}. Arguments c_poles {T}. Arguments c_knots {T}.
Arguments c_lo {T}. Arguments c_hi {T}.

Section Curve.
Context {T : Type} `{Num T}.

(** std::is_sorted *)
Fixpoint is_sorted (v : list T) : bool :=
  match v with
  | [] => true
  | x :: t => match t with [] => true | y :: _ => negb (nltb y x) && is_sorted t end
  end.

(** check_curve, gbs/bscurve.h l.200-233 *)
Definition check_curve (np : nat) (knots : list T) (p : nat) : result bool :=
  let* (ks, _) := knots_and_mults knots in
  Ok (is_sorted ks && (p + 1 + np =? length knots) && (p + 1 <=? np)).

(** Constructor from flat knots, gbs/bscurve.h l.305-315 *)
Definition mk_curve (poles : list (pt T)) (flat : list T) (p : nat) : result (curve T) :=
  let* f := front flat in
  let* b := back flat in
  let* ok := check_curve (length poles) flat p in
  if ok then Ok (mk p poles flat f b) else Throw InvalidArgument.

(** Constructor from knots and multiplicities, gbs/bscurve.h l.270-279 *)
Definition mk_curve_mult (poles : list (pt T)) (knots : list T) (mult : list nat) (p : nat)
  : result (curve T) :=
  let* flat := flat_knots knots mult in
  let* f := front knots in
  let* b := back knots in
  let* ok := check_curve (length poles) flat p in
  if ok then Ok (mk p poles flat f b) else Throw InvalidArgument.

(** Constructor from poles, weights, knots and multiplicities, l.289-300 *)
Definition mk_curve_weights (dim : nat) (poles : list (pt T)) (ws : list T) (knots : list T)
    (mult : list nat) (p : nat) : result (curve T) :=
  let* pw := merge_weights dim poles ws in
  mk_curve_mult pw knots mult p.

(** BSCurve(const BSCurveGeneral &), l.589 and l.624: the copy is rebuilt from
    poles, knots and degree *)
Definition as_bscurve (c : curve T) : result (curve T) :=
  mk_curve (c_poles c) (c_knots c) (c_deg c).

(** BSCurveRational(poles, knots_flats, deg), l.625-627 *)
Definition mk_rational (dim : nat) (poles : list (pt T)) (flat : list T) (p : nat) :=
  mk_curve (add_weights_one dim poles) flat p.
(** BSCurveRational(poles, knots_flats, weights, deg), l.628-631 *)
Definition mk_rational_weights (dim : nat) (poles : list (pt T)) (flat : list T) (ws : list T)
    (p : nat) : result (curve T) :=
  let* pw := add_weights_coord dim poles ws in mk_curve pw flat p.
(** BSCurveRational(const BSCurve &), l.637-638 *)
Definition rational_of_bscurve (dim : nat) (c : curve T) : result (curve T) :=
  mk_curve (add_weights_one dim (c_poles c)) (c_knots c) (c_deg c).

(** bounds(), l.570-574 *)
Definition bounds (c : curve T) : T * T := (c_lo c, c_hi c).

(** insertKnot, l.396-399 *)
Definition insertKnot (c : curve T) (u : T) (m : nat) : result (curve T) :=
  let* (_, k, P) := insert_knots u (c_deg c) m (c_knots c) (c_poles c) in
  Ok (mk (c_deg c) P k (c_lo c) (c_hi c)).

(** insertKnots, l.405-412 *)
Definition insertKnots (c : curve T) (km : list (T * nat)) : result (curve T) :=
  foldM (fun c um =>
    let m := multiplicity_eps (c_knots c) (fst um) in
    if m <? snd um then insertKnot c (fst um) (snd um - m) else Ok c) c km.

(** removeKnot, l.421-424 *)
Definition removeKnot (dist : pt T -> pt T -> T) (c : curve T) (u tol : T) (m : nat)
  : result (curve T) :=
  let* (_, k, P) := remove_knot_tol dist u (c_deg c) m (c_knots c) (c_poles c) tol in
  Ok (mk (c_deg c) P k (c_lo c) (c_hi c)).

(** copyPoles and movePoles, l.441-461 *)
Definition copyPoles (c : curve T) (P : list (pt T)) : result (curve T) :=
  if length P =? length (c_poles c) then Ok (mk (c_deg c) P (c_knots c) (c_lo c) (c_hi c))
  else Throw LengthError.

(** pole(id), l.468-490 *)
Definition pole_at (c : curve T) (id : nat) : result (pt T) :=
  if length (c_poles c) <=? id then Throw OutOfRangeError else get (c_poles c) id.

(** copyKnots, l.496-503 *)
Definition copyKnots (c : curve T) (k : list T) : result (curve T) :=
  if length k =? length (c_knots c) then
    let* f := front k in
    let* b := back k in
    Ok (mk (c_deg c) (c_poles c) k f b)
  else Throw LengthError.

(** reverse, l.509-520 *)
Definition reverse (c : curve T) : result (curve T) :=
  let* k1 := front (c_knots c) in
  let* k2 := back (c_knots c) in
  Ok (mk (c_deg c) (rev (c_poles c)) (map (fun x => nsub (nadd k1 k2) x) (rev (c_knots c)))
         (c_lo c) (c_hi c)).

(** reversed, l.526-532 *)
Definition reversed (c : curve T) : result (curve T) :=
  let* cpy := as_bscurve c in reverse cpy.

(** trim, l.540-547 *)
Definition trim_curve (c : curve T) (u1 u2 : T) (permanently : bool) : result (curve T) :=
  if permanently then
    let* (k, P) := trim (c_deg c) (c_knots c) (c_poles c) u1 u2 in
    Ok (mk (c_deg c) P k u1 u2)
  else Ok (mk (c_deg c) (c_poles c) (c_knots c) u1 u2).

(** changeBounds, l.554-568 *)
Definition changeBounds (c : curve T) (k1 k2 : T) : result (curve T) :=
  let* k := change_bounds k1 k2 (c_knots c) in
  Ok (mk (c_deg c) (c_poles c) k k1 k2).

(** The guard of value and derivatives, l.592-595, 601-604, 641-644, 649-652 *)
Definition out_of_bounds (c : curve T) (u : T) : bool :=
  nltb u (nsub (c_lo c) neps) || nltb (nadd (c_hi c) neps) u.

(** BSCurve::value, l.590-597 *)
Definition value (c : curve T) (u : T) (d : nat) : result (pt T) :=
  if out_of_bounds c u then Throw OutOfBoundsEval
  else eval_value u (c_knots c) (c_poles c) (c_deg c) d.

(** BSCurve::derivatives, l.599-606 *)
Definition derivatives (c : curve T) (u : T) (n : nat) : result (list (pt T)) :=
  if out_of_bounds c u then Throw OutOfBoundsEval
  else eval_ders u (c_knots c) (c_poles c) (c_deg c) n.

(** BSCurveRational::value, l.639-646 *)
Definition rational_value (dim : nat) (c : curve T) (u : T) (d : nat) : result (pt T) :=
  if out_of_bounds c u then Throw OutOfBoundsEval
  else eval_rational_value dim u (c_knots c) (c_poles c) (c_deg c) d.

(** BSCurveRational::derivatives, l.647-654 *)
Definition rational_derivatives (dim : nat) (c : curve T) (u : T) (n : nat)
  : result (list (pt T)) :=
  if out_of_bounds c u then Throw OutOfBoundsEval
  else eval_rational_ders dim u (c_knots c) (c_poles c) (c_deg c) n.

(** polesProjected and weights, l.655-668 *)
Definition polesProjected (dim : nat) (c : curve T) : list (pt T) :=
  map (weight_projection dim) (c_poles c).
Definition curve_weights (dim : nat) (c : curve T) : list T :=
  map (weight dim) (c_poles c).

End Curve.
