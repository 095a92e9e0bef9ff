(** Model of gbs-mesh/tfi.h: transfinite interpolation of a lattice of curves, and of
    uniform_distrib_params of gbs/bscanalysis.h and check_p_curves_bounds of
    gbs/curvescheck.h.  The arc length law abs_curv and the sparse solver of Eigen are
    arguments.  msh_curves_set_sizes (rounded average lengths) is not modelled: the numbers
    of points per section are inputs; so is the overload with one list of parameters per
    curve.  No proofs in this file. *)
From Coq Require Import List Arith Bool.
From Verif Require Import Model_Base Model_Curve Model_Interp Model_Wrap.
Import ListNotations.
Local Open Scope nat_scope.

Section Tfi.
Context {T : Type} `{Num T}.
(** abs_curv(crv, u1, u2): the arc length law, bounds()[1] and operator() *)
Variable abs_curv : gcurve T -> T -> T -> result (T * (T -> result T)).

(** uniform_distrib_params, gbs/bscanalysis.h l.338-366.  With n = 0 front() is undefined,
    with n = 1 std::generate runs over a reversed range. *)
Definition uniform_distrib_params (crv : gcurve T) (u1 u2 : T) (n : nat) : result (list T) :=
  match n with
  | 0 => Undef EmptyFront
  | 1 => Undef BadIterator
  | S (S m) =>
    let* (len, f_u) := abs_curv crv u1 u2 in
    let* dm := divc len (nsub (nofnat n) n1) in
    let* (mid, _) := for_ 0 m (fun _ (st : list T * T) =>
        let '(l, m_) := st in
        let m_ := nadd m_ dm in
        let* v := f_u m_ in
        Ok (l ++ [v], m_)) ([], n0) in
    let u_lst := u1 :: mid ++ [u2] in
    if is_sorted u_lst then Ok u_lst else Throw LengthError
  end.

(** check_p_curves_bounds, gbs/curvescheck.h l.35-48 *)
Definition check_bounds (crvs : list (gcurve T)) : result bool :=
  match crvs with
  | [] => Undef BadIterator
  | c0 :: cs => Ok (forallb (fun c => nltb (nabs (nsub (g_lo c) (g_lo c0))) neps &&
                                      nltb (nabs (nsub (g_hi c) (g_hi c0))) neps) cs)
  end.

(** The parameters of one curve, gbs-mesh/tfi.h l.352-368 *)
Definition curve_params (crv : gcurve T) (nui : list nat) (u : list T) : result (list T) :=
  for_ 0 (length u - 1) (fun ui params =>
    let* u1 := get u ui in
    let* u2 := get u (ui + 1) in
    let* n := get nui ui in
    let* seg := uniform_distrib_params crv u1 u2 n in
    let seg := if ui =? length u - 2 then seg else removelast seg in
    Ok (params ++ seg)) [].

(** X[i_][i][n]: a grid of lists of derivatives *)
Definition grid3 := list (list (list (pt T))).
Definition at3 (X : grid3) (a b n : nat) : result (pt T) :=
  let* r := get X a in let* l := get r b in get l n.

(** msh_curves_set<T,dim,P>, gbs-mesh/tfi.h l.332-383 *)
Definition msh_curves_set (P : nat) (crvs : list (gcurve T)) (nui : list nat) (u : list T)
  : result grid3 :=
  if negb (length nui + 1 =? length u) then Throw OutOfRangeError else
  let* ok := check_bounds crvs in
  if negb ok then Throw InvalidArgument else
  let* params := mapM (fun crv => curve_params crv nui u) crvs in
  let* p0 := get params 0 in
  mapM (fun i_ =>
    mapM (fun i =>
      let* crv := get crvs i in
      let* pi := get params i in
      mapM (fun n => let* x := get pi i_ in g_value crv x n) (seq 0 P))
      (seq 0 (length crvs))) (seq 0 (length p0)).

(** BSCfunction::operator(), gbs/bscurve.h l.686-693 *)
Definition fvalue (f : curve T) (x : T) : result T :=
  let* q := value f x 0 in Ok (q 0).

(** build_tfi_blend_function_with_derivatives<T, P, slope_control>, gbs-mesh/tfi.h
    l.43-59; [sc] is slope_control as a number *)
Definition blend_data (L nc i n : nat) : list (list (pt T)) :=
  map (fun a => map (fun b => if (a =? i) && (b =? n) then (fun _ => n1) else pzero) (seq 0 nc)) (seq 0 L).
Definition build_tfi_blend (sparse : @solver T) (P sc : nat) (ksi_i : list T) : result (list (list (curve T))) :=
  let L := length ksi_i in
  mapM (fun i => mapM (fun n =>
      interpolate_hermite sparse 1 (P + sc) (blend_data L (P + sc) i n) ksi_i) (seq 0 P)) (seq 0 L).

(** The crossing points X_ksi_eth[i][j][n][m], gbs-mesh/tfi.h l.498-523 (not P == 1 or Q == 1:
    cells with n, m >= 1 keep their value-initialised zero without surface) *)
Definition grid4 := list (list (list (list (pt T)))).
Definition at4 (X : grid4) (a b n m : nat) : result (pt T) :=
  let* r := get X a in let* l := get r b in let* q := get l n in get q m.
Definition crossings (P Q : nat) (iso_ksi iso_eth : list (gcurve T)) (ksi_i eth_j : list T)
    (p_srf : option (gsurf T)) : result grid4 :=
  mapM (fun i => mapM (fun j => mapM (fun n => mapM (fun m =>
    let* x := get ksi_i i in
    let* y := get eth_j j in
    match p_srf with
    | Some srf => srf x y m n
    | None => if m =? 0 then let* crv := get iso_ksi i in g_value crv y n
              else if n =? 0 then let* crv := get iso_eth j in g_value crv x m
              else Ok pzero
    end) (seq 0 Q)) (seq 0 P)) (seq 0 (length eth_j))) (seq 0 (length ksi_i)).

(** arr.push_back(arr.back() + index - 1), gbs-mesh/tfi.h l.524-528 *)
Definition node_numbers (n_iso : list nat) : result (list T) :=
  for_ 0 (length n_iso) (fun i arr =>
    let* b := back arr in
    let* n := get n_iso i in
    Ok (arr ++ [nsub (nadd b (nofnat n)) n1])) [n0].

(** interpolate(values, u, p) of functions, gbs/bscinterp.h l.646-653 *)
Definition interpolate_fn (sparse : @solver T) (Q u : list T) (p : nat) : result (curve T) :=
  interpolate sparse 1 (map (fun x => fun _ => x) Q) u p.

(** One node, gbs-mesh/tfi.h l.617-648 *)
Definition tfi_node (P Q : nat) (alpha beta : list (list (curve T))) (X_ksi X_eth : grid3) (X_ksi_eth : grid4)
    (L M : nat) (ksi eth : curve T) (i_ j_ : nat) : result (pt T) :=
  let* x := fvalue ksi (nofnat i_) in
  let* y := fvalue eth (nofnat j_) in
  let blend (fs : list (list (curve T))) (i n : nat) (t : T) : result T :=
    let* l := get fs i in let* f := get l n in fvalue f t in
  let* U := for_ 0 L (fun i U => for_ 0 P (fun n U =>
      let* a := blend alpha i n x in
      let* X := at3 X_ksi j_ i n in Ok (padd U (pscal a X))) U) pzero in
  let* V := for_ 0 M (fun j V => for_ 0 Q (fun m V =>
      let* b := blend beta j m y in
      let* X := at3 X_eth i_ j m in Ok (padd V (pscal b X))) V) pzero in
  let* UV := for_ 0 L (fun i W => for_ 0 M (fun j W => for_ 0 P (fun n W => for_ 0 Q (fun m W =>
      let* a := blend alpha i n x in
      let* b := blend beta j m y in
      let* X := at4 X_ksi_eth i j n m in Ok (padd W (pscal (nmul a b) X))) W) W) W) pzero in
  Ok (psub (padd U V) UV).

(** tfi_mesh_2d(X_ksi, X_eth, X_ksi_eth, ksi_i, eth_j, ksi, eth), gbs-mesh/tfi.h l.593-655.
    The parallel loop writes distinct cells, so the order of its iterations does not
    matter; an exception inside it would end the program. *)
Definition tfi_mesh_2d (sparse : @solver T) (P Q sc : nat) (X_ksi X_eth : grid3) (X_ksi_eth : grid4)
    (ksi_i eth_j : list T) (ksi eth : curve T) : result (list (pt T)) :=
  let* alpha := build_tfi_blend sparse P sc ksi_i in
  let* beta := build_tfi_blend sparse Q sc eth_j in
  let ni := length X_eth in
  let nj := length X_ksi in
  if ni <? 2 then Throw LengthError else
  for_ 0 ni (fun i_ pts => for_ 0 nj (fun j_ pts =>
    let* v := tfi_node P Q alpha beta X_ksi X_eth X_ksi_eth (length ksi_i) (length eth_j) ksi eth i_ j_ in
    set pts (j_ + nj * i_) v) pts) (filled (ni * nj) pzero).

(** msh_curves_lattice and tfi_mesh_2d(iso_ksi, iso_eth, ksi_i, eth_j, ...), gbs-mesh/tfi.h
    l.482-533 and l.675-697; the result is the nodes, X_ksi.size() and X_eth.size() *)
Definition tfi_mesh (sparse : @solver T) (P Q sc : nat) (iso_ksi iso_eth : list (gcurve T)) (ksi_i eth_j : list T)
    (n_iso_ksi n_iso_eth : list nat) (p_srf : option (gsurf T))
  : result (list (pt T) * nat * nat) :=
  let* X_ksi := msh_curves_set P iso_ksi n_iso_ksi eth_j in
  let* X_eth := msh_curves_set Q iso_eth n_iso_eth ksi_i in
  let* X_ksi_eth := crossings P Q iso_ksi iso_eth ksi_i eth_j p_srf in
  let* arr_i := node_numbers n_iso_eth in
  let* arr_j := node_numbers n_iso_ksi in
  let* ksi := interpolate_fn sparse ksi_i arr_i 1 in
  let* eth := interpolate_fn sparse eth_j arr_j 1 in
  let* pts := tfi_mesh_2d sparse P Q sc X_ksi X_eth X_ksi_eth ksi_i eth_j ksi eth in
  Ok (pts, length X_ksi, length X_eth).
End Tfi.
