(** Model of the lofts guided by a spine (gbs/bssbuild.h).  No proofs in this file.  The rational
    versions work on poles with dim + 1 coordinates, [rat] telling them apart; the results of the
    parallel loops do not depend on their order (C37).  [extrema spine c] stands for the parameter
    on the spine found by extrema_curve_curve, [norm2 x y] for norm(y - x) on dim
    coordinates. *)
From Coq Require Import List Arith Bool.
From Verif Require Import Model_Base Model_Knots Model_Math Model_Basis Model_Curve Model_Rational Model_Interp Model_Surface
  Model_Unify Model_Skin.
Import ListNotations.
Local Open Scope nat_scope.

Section Spine.
Context {T : Type} `{Num T}.

(** The two first steps of the three functions, gbs/bssbuild.h l.224-225, 336-337 and 430-431 *)
Definition unify_curves (cs : list (curve T)) : result (list (curve T)) :=
  let* cs := unify_curves_degree cs in
  unify_curves_knots cs.

(** get_v_aligned_poles, gbs/bssbuild.h l.40-73: the lists of the poles of equal index, and the
    mean of their parametrisations; [param] is curve_parametrization(poles, CHORD_LENGTH, true).
    The loops over sections are written with the list of sections. *)
Definition v_aligned_poles (param : list (pt T) -> result (list T)) (nu : nat) (cs : list (curve T))
  : result (list (list (pt T)) * list T) :=
  let* rows := mapM (fun i => mapM (fun c => get (c_poles c) i) cs) (seq 0 nu) in
  let* params := mapM param rows in
  let* v := mapM (fun j =>
    let* s := foldM (fun s par => let* x := get par j in Ok (nadd s x)) n0 params in
    divc s (nofnat nu)) (seq 0 (length cs)) in
  Ok (rows, v).

(** spine_tangent_to_pole, gbs/bssbuild.h l.122-140 *)
Definition spine_tangent_to_pole (rat : bool) (dim : nat) (s : T) (tg : pt T) (pole : pt T) : pt T :=
  if rat then fun i => if i <? dim then nmul (nmul s (pole dim)) (tg i) else n0
  else fun i => nmul s (tg i).

(** weight_projected_pole, gbs/basisfunctions.ixx l.889-911 *)
Definition projected (rat : bool) (dim : nat) (q : pt T) : pt T :=
  if rat then weight_projection dim q else q.

(** The scale of the tangent at pole k of a column, gbs/bssbuild.h l.192-202: [pm] the projected
    column, [d] the distances along the spine *)
Definition tangent_scale (norm2 : pt T -> pt T -> T) (pm : list (pt T)) (d : list T) (n k : nat) : result T :=
  if k =? 0 then
    let* b := get pm 1 in let* a := get pm 0 in
    let* d0 := get d 0 in divc (norm2 a b) d0
  else if k =? n - 1 then
    let* b := get pm (n - 1) in let* a := get pm (n - 2) in
    let* d0 := get d (n - 2) in divc (norm2 a b) d0
  else
    let* c := get pm (k + 1) in let* b := get pm k in let* a := get pm (k - 1) in
    let* d1 := get d k in let* d0 := get d (k - 1) in
    divc (nadd (norm2 b c) (norm2 a b)) (nadd d1 d0).

(** get_tg_from_spine, gbs/bssbuild.h l.142-208.  No section makes the size of [d] wrap. *)
Definition tg_from_spine (rat : bool) (dim : nat) (norm2 : pt T -> pt T -> T)
    (extrema : curve T -> curve T -> result T) (rows : list (list (pt T))) (spine : curve T) (cs : list (curve T))
  : result (list (list (pt T))) :=
  let* ts := mapM (extrema spine) cs in
  let* nd := subi (length ts) 1 in
  let* d := mapM (fun i =>
    let* t2 := get ts (i + 1) in let* t1 := get ts i in
    let* b := value spine t2 0 in let* a := value spine t1 0 in
    Ok (norm2 a b)) (seq 0 nd) in
  let* D := mapM (fun t => value spine t 1) ts in
  mapM (fun pts =>
    let pm := map (projected rat dim) pts in
    mapM (fun k =>
      let* s := tangent_scale norm2 pm d (length pts) k in
      let* tg := get D k in
      let* x := get pts k in
      Ok (spine_tangent_to_pole rat dim s tg x)) (seq 0 (length pts))) rows.

(** loft(bs_lst, spine, v_degree_max), gbs/bssbuild.h l.210-262 *)
Definition loft_spine (lu : solver) (param : list (pt T) -> result (list T)) (norm2 : pt T -> pt T -> T)
    (extrema : curve T -> curve T -> result T) (rat : bool) (dim : nat) (cs : list (curve T)) (spine : curve T)
    (q_max : nat) : result (surf T) :=
  if length cs <? 2 then Throw LengthError else
  let* us := unify_curves cs in
  let* c0 := front us in
  let nu := length (c_poles c0) in
  let nv := length us in
  let* (rows, v) := v_aligned_poles param nu us in
  let* tgs := tg_from_spine rat dim norm2 extrema rows spine us in
  let q := max (min q_max (nv - 1)) 1 in
  let* a := front v in
  let* b := back v in
  let* kv := build_simple_mult_flat_knots_range a b (nv * 2) q in
  let dt := if rat then dim + 1 else dim in
  let* cols := mapM (fun ix =>
    mapM (fun j =>
      let* r := get (if j mod 2 =? 0 then rows else tgs) (ix / dt) in
      let* x := get r (j / 2) in Ok (x (ix mod dt))) (seq 0 (2 * nv))) (seq 0 (nu * dt)) in
  let* P := loft_core lu dt 2 nu cols kv v q in
  mk_surf P (c_knots c0) kv (c_deg c0) q.

(** loft_approx(bs_lst, spine, ku, p, q, n_poles_v, n_u), gbs/bssbuild.h l.320-378.  The section
    curves are rebuilt from their poles and sampled; [ldlt] is the solver of approx. *)
Definition loft_approx_knots (ldlt : solver) (extrema : curve T -> curve T -> result T) (dt : nat)
    (cs : list (curve T)) (spine : curve T) (ku : list T) (p q nv n_u : nat) : result (surf T) :=
  if length cs <? 2 then Throw LengthError else
  let* us := unify_curves cs in
  let* v := mapM (extrema spine) us in
  let* v := adimension v in
  let* secs := mapM (fun c => mk_curve (c_poles c) (c_knots c) (c_deg c)) us in
  let* a := front ku in
  let* b := back ku in
  let* u := make_range a b n_u in
  let* Q := mapM (fun ix =>
    let* s := get secs (ix / n_u) in
    let* x := get u (ix mod n_u) in
    value s x 0) (seq 0 (n_u * length us)) in
  let* v1 := front v in
  let* v2 := back v in
  let* kv := build_simple_mult_flat_knots_range v1 v2 nv q in
  let* P := approx_grid ldlt dt Q ku kv u v p q in
  mk_surf P ku kv p q.

(** loft_approx(bs_lst, spine, p, q, n_poles_u, n_poles_v, n_u), gbs/bssbuild.h l.389-405 *)
Definition loft_approx_poles (ldlt : solver) (extrema : curve T -> curve T -> result T) (dt : nat)
    (cs : list (curve T)) (spine : curve T) (p q nu nv n_u : nat) : result (surf T) :=
  if length cs <? 2 then Throw LengthError else
  let* c0 := front cs in
  let* a := front (c_knots c0) in
  let* b := back (c_knots c0) in
  let* ku := build_simple_mult_flat_knots_range a b nu p in
  loft_approx_knots ldlt extrema dt cs spine ku p q nv n_u.

(** loft_approx(bs_lst, spine, v_degree_max), gbs/bssbuild.h l.418-443 *)
Definition loft_approx (ldlt : solver) (extrema : curve T -> curve T -> result T) (dt : nat)
    (cs : list (curve T)) (spine : curve T) (q_max : nat) : result (surf T) :=
  if length cs <? 2 then Throw LengthError else
  let* us := unify_curves cs in
  let* c0 := front us in
  let ns := length us in
  let n_u := max (4 * length (c_poles c0)) 30 in
  loft_approx_knots ldlt extrema dt cs spine (c_knots c0) (c_deg c0) (max (min q_max (ns - 1)) 1) ns n_u.
End Spine.
