(** Model of the unification of surface knots (gbs/bsstools.h) and of Gordon surfaces
    (gbs/bssbuild.h).  No proofs in this file.  The simplifications are those of
    Model_Skin.v; extrema_curve_curve (a numerical minimisation) and distance are arguments. *)
From Coq Require Import List Arith Bool.
From Verif Require Import Model_Base Model_Knots Model_Curve Model_Interp Model_Surface
  Model_Elevate Model_Unify Model_Skin.
Import ListNotations.
Local Open Scope nat_scope.

Section Gordon.
Context {T : Type} `{Num T}.

(** BSSurfaceInfo: rows of poles (one per V index), flat knots and degrees *)
Definition sinfo := (list (list (pt T)) * list T * list T * nat * nat)%type.

(** info, gbs/bssurf.h l.469-479 *)
Definition surf_info (s : surf T) : result sinfo :=
  let* m := nPolesV s in
  let* rows := mapM (polesU s) (seq 0 m) in
  Ok (rows, s_ku s, s_kv s, s_degU s, s_degV s).

(** unify_knots(km_out_set, k_out_set, poles_out_set, degree, km_in), gbs/bsstools.h l.9-27:
    every row starts from the knots as they were; those of the last row are kept, none at all
    when there is no row. *)
Definition unify_rows (p : nat) (km : list (T * nat)) (k : list T) (rows : list (list (pt T)))
    (km_in : list (T * nat)) : result (list (T * nat) * list T * list (list (pt T))) :=
  foldM (fun (st : list (T * nat) * list T * list (list (pt T))) P =>
    let '(_, _, done) := st in
    let* (km', k', P') := unify_into p (km, k, P) km_in in
    Ok (km', k', done ++ [P'])) ([], [], []) rows.

(** The two calls around a transposition, gbs/bsstools.h l.58-62 and l.75-78 *)
Definition unify_grid (p q : nat) (kmU kmV : list (T * nat)) (kU kV : list T) (rows : list (list (pt T)))
    (inU inV : list (T * nat)) :=
  let* (kmU, kU, rows) := unify_rows p kmU kU rows inU in
  let* cols := transpose_poles pzero rows in
  let* (kmV, kV, cols) := unify_rows q kmV kV cols inV in
  let* rows := transpose_poles pzero cols in
  Ok (kmU, kmV, kU, kV, rows).

(** unify_knots(surfaces_info), gbs/bsstools.h l.30-80 *)
Definition unify_surfaces (ss : list sinfo) : result (list sinfo) :=
  match ss with
  | [] => Undef EmptyFront
  | (rows0, ku0, kv0, p0, q0) :: rest =>
    let* a := front ku0 in
    let* b := back ku0 in
    let* c := front kv0 in
    let* d := back kv0 in
    let* kmU0 := unflat_pairs ku0 in
    let* kmV0 := unflat_pairs kv0 in
    let* (kmU0, kmV0, ku0, kv0, rows0, rest) := foldM (fun st (S : sinfo) =>
        let '(kmU0, kmV0, ku0, kv0, rows0, done) := st in
        let '(rows, ku, kv, p, q) := S in
        let* ku := change_bounds a b ku in
        let* kv := change_bounds c d kv in
        let* kmU := unflat_pairs ku in
        let* kmV := unflat_pairs kv in
        let* (kmU0, kmV0, ku0, kv0, rows0) := unify_grid p0 q0 kmU0 kmV0 ku0 kv0 rows0 kmU kmV in
        Ok (kmU0, kmV0, ku0, kv0, rows0, done ++ [(rows, ku, kv, p, q)]))
      (kmU0, kmV0, ku0, kv0, rows0, []) rest in
    let* rest := mapM (fun S : sinfo =>
        let '(rows, ku, kv, p, q) := S in
        let* kmU := unflat_pairs ku in
        let* kmV := unflat_pairs kv in
        let* (_, _, ku, kv, rows) := unify_grid p q kmU kmV ku kv rows kmU0 kmV0 in
        Ok (rows, ku, kv, p, q)) rest in
    Ok ((rows0, ku0, kv0, p0, q0) :: rest)
  end.

(** ** Gordon surfaces *)
(** extrema_curve_curve(crv1, crv2, tol): the parameters of the closest points and their
    distance, gbs/extrema.h *)
Definition extrema_t := curve T -> curve T -> result (T * T * T).

(** build_intersections(first_curve, last_curve, crv, tol), gbs/bssbuild.h l.482-505 *)
Definition intersections_on (extrema : extrema_t) (tol : T) (cs : list (curve T)) (c : curve T)
  : result (list T) :=
  mapM (fun ci =>
    let* (u, _, d) := extrema c ci in
    if nltb tol d then Throw InvalidArgument else Ok u) cs.

(** build_intersections(first_u, last_u, first_v, last_v, tol), gbs/bssbuild.h l.527-559: the
    parameters on the first U curve, those on the first V curve, the points *)
Definition build_intersections (extrema : extrema_t) (dist : pt T -> pt T -> T) (tol : T)
    (us vs : list (curve T)) : result (list T * list T * list (pt T)) :=
  let* v0 := front vs in
  let* v := intersections_on extrema tol us v0 in
  let* u0 := front us in
  let* u := intersections_on extrema tol vs u0 in
  let* Q := mapM (fun i =>
    let* cu := get us i in
    mapM (fun j =>
      let* cv := get vs j in
      let* uj := get u j in
      let* Qu := value cu uj 0 in
      let* vi := get v i in
      let* Qv := value cv vi 0 in
      if nltb tol (dist Qu Qv) then Throw InvalidArgument else
      Ok (pscal (ndiv n1 (nadd n1 n1)) (padd Qu Qv))) (seq 0 (length vs))) (seq 0 (length us)) in
  Ok (u, v, concat Q).

(** A loop calling [f] until the degree reaches the one asked for, gbs/bssbuild.h l.577-580,
    l.583-586, l.600-607 *)
Definition elevate_to (f : surf T -> result (surf T)) (from to : nat) (s : surf T) : result (surf T) :=
  for_ from (to - from) (fun _ s => f s) s.

(** std::ranges::transform of two ranges into the first one: the shorter one stops it *)
Fixpoint transform2 (f : pt T -> pt T -> pt T) (a b : list (pt T)) : list (pt T) :=
  match a, b with
  | x :: a', y :: b' => f x y :: transform2 f a' b'
  | _, _ => a
  end.

(** gordon, gbs/bssbuild.h l.561-641; get_max_degree, l.87-99.  The two asserts compare degrees
    that the loops have made equal. *)
Definition gordon (lu : solver) (extrema : extrema_t) (dist : pt T -> pt T -> T) (dim : nat) (tol : T)
    (us vs : list (curve T)) : result (surf T) :=
  let* p := max_degree (map c_deg us) in
  let* q := max_degree (map c_deg vs) in
  let* (u, v, Q) := build_intersections extrema dist tol us vs in
  let p_ := min p (length u - 1) in
  let q_ := min q (length v - 1) in
  let* Lu := loft lu dim us v q_ in
  let* Lu := elevate_to increaseDegreeV (s_degV Lu) q Lu in
  let* Lv := loft lu dim vs u p_ in
  let* Lv := elevate_to increaseDegreeV (s_degV Lv) p Lv in
  let* Lv := invertUV Lv in
  let* ku := build_simple_mult_flat_knots u p_ in
  let* kv := build_simple_mult_flat_knots v q_ in
  let* P := grid_poles lu dim Q ku kv u v p_ q_ in
  let* Tuv := mk_surf P ku kv p_ q_ in
  let* Tuv := elevate_to increaseDegreeU p_ p Tuv in
  let* Tuv := elevate_to increaseDegreeV q_ q Tuv in
  let* iu := surf_info Lu in
  let* iv := surf_info Lv in
  let* iuv := surf_info Tuv in
  let* ss := unify_surfaces [iu; iv; iuv] in
  let* (rows_u, ku, kv, _, _) := get ss 0 in
  let* (rows_v, _, _, _, _) := get ss 1 in
  let* (rows_uv, _, _, _, _) := get ss 2 in
  mk_surf (transform2 psub (transform2 padd (flatten_poles rows_u) (flatten_poles rows_v)) (flatten_poles rows_uv))
    ku kv p q.
End Gordon.
