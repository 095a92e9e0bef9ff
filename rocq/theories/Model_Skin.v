(** Model of the surface builders: interpolation of point grids and of constraints
    (gbs/bssinterp.h), least squares on grids and constraints (gbs/bssapprox.h), lofts
    (gbs/loft/loftBase.h, gbs/loft/loftGeneric.h, gbs/bssbuild.h).  No proofs in this file.

    Simplifications, valid for the whole file: those of Model_Interp.v (sizes are
    mathematical integers, the factorisations of Eigen are arguments of type [solver],
    applied to one right-hand side at a time). *)
From Coq Require Import List Arith ZArith Bool.
From Verif Require Import Model_Base Model_Knots Model_Math Model_Basis Model_Curve Model_Interp
  Model_Surface Model_Unify.
Import ListNotations.
Local Open Scope nat_scope.

Section Skin.
Context {T : Type} `{Num T}.

(** The loops "for iu: fill_basis_row(Mu, iu, u[iu], k, p, 0)" of gbs/bssinterp.h l.149-157
    and gbs/bssapprox.h l.60-67: a matrix of u.size() rows and n columns. *)
Definition row_matrix (k u : list T) (p n : nat) : result mat :=
  for_ 0 (length u) (fun i N =>
    let* ui := get u i in fill_basis_row N i ui k p 0) (mzero (length u) n).

(** poles[i + nu*j][d] = X_d(i, j), the matrix X_d being given by its nu rows. *)
Definition poles_of_grids (nu nv : nat) (X : list (list (list T))) : list (pt T) :=
  map (fun ix d => match nth_error X d with
                   | Some rows => match nth_error rows (ix mod nu) with
                                  | Some r => match nth_error r (ix / nu) with Some x => x | None => n0 end
                                  | None => n0
                                  end
                   | None => n0
                   end) (seq 0 (nu * nv)).

(** The two families of solves of gbs/bssinterp.h l.170-171 and gbs/bssapprox.h l.83-84:
    [cols] holds the columns of the right-hand side; the result holds the rows of
    Cu^-1 M Cv^-T. *)
Definition two_solves (lu : solver) (Cu Cv : mat) (cols : list (list T)) (nu : nat)
  : result (list (list T)) :=
  let* A := mapM (lu Cu) cols in
  mapM (fun i => let* r := mapM (fun c => get c i) A in lu Cv r) (seq 0 nu).

(** build_poles(Q, k_flat_u, k_flat_v, u, v, p, q), gbs/bssinterp.h l.130-180; [lu] stands for
    partialPivLu. *)
Definition grid_poles (lu : solver) (dim : nat) (Q : list (pt T)) (ku kv u v : list T) (p q : nat)
  : result (list (pt T)) :=
  let nu := length u in
  let nv := length v in
  if negb (length Q =? nu * nv) then Throw LengthError else
  let* Mu := row_matrix ku u p nu in
  let* Mv := row_matrix kv v q nv in
  let* X := mapM (fun d =>
    let* cols := mapM (fun iv => mapM (fun iu =>
        let* x := get Q (iu + nu * iv) in Ok (x d)) (seq 0 nu)) (seq 0 nv) in
    two_solves lu Mu Mv cols nu) (seq 0 dim) in
  Ok (poles_of_grids nu nv X).

(** extract_U and extract_V, gbs/bssinterp.h l.22-47; Q.size() % 0 is undefined *)
Definition extract_U (iV : nat) (Q : list (pt T)) (nc : nat) : result (list (pt T)) :=
  if nc =? 0 then Undef DivByZero else
  if negb (length Q mod nc =? 0) then Throw LengthError else
  mapM (fun i => get Q (iV * nc + i)) (seq 0 nc).
Definition extract_V (iU : nat) (Q : list (pt T)) (nc : nat) : result (list (pt T)) :=
  if nc =? 0 then Undef DivByZero else
  if negb (length Q mod nc =? 0) then Throw LengthError else
  mapM (fun j => get Q (iU + nc * j)) (seq 0 (length Q / nc)).

(** avg_p, gbs/bssinterp.h l.193-212: the mean of the parametrisations of [ni] lists of [nj]
    points; [param] is curve_parametrization(pts, mode, true).  The division p_new / ni comes
    before the sum. *)
Definition avg_params (param : list (pt T) -> result (list T)) (ext : nat -> result (list (pt T)))
    (ni nj : nat) : result (list T) :=
  for_ 0 ni (fun i acc =>
    let* pts := ext i in
    let* pi := param pts in
    for_ 0 (length pi) (fun j acc =>
      let* x := get pi j in
      let* q := divc x (nofnat ni) in
      let* a := get acc j in
      set acc j (nadd a q)) acc) (filled nj n0).

(** interpolate(Q, n_poles_v, p, q, mode), gbs/bssinterp.h l.182-229 *)
Definition interpolate_grid (lu : solver) (param : list (pt T) -> result (list T)) (dim : nat)
    (Q : list (pt T)) (nv p q : nat) : result (surf T) :=
  if nv =? 0 then Undef DivByZero else
  if negb (length Q mod nv =? 0) then Throw LengthError else
  let nu := length Q / nv in
  let* u := avg_params param (fun i => extract_U i Q nu) nv nu in
  let* u := adimension u in
  let* ku := build_simple_mult_flat_knots u p in
  let* v := avg_params param (fun i => extract_V i Q nu) nu nv in
  let* v := adimension v in
  let* kv := build_simple_mult_flat_knots v q in
  let* P := grid_poles lu dim Q ku kv u v p q in
  mk_surf P ku kv p q.

(** bss_constraint, gbs/bssinterp.h l.8-10: parameters, value, derivation orders *)
Record scons := mksc { sc_u : T; sc_v : T; sc_x : pt T; sc_du : nat; sc_dv : nat }.

(** One row of the matrices of gbs/bssinterp.h l.259-290 and gbs/bssapprox.h l.112-144; the
    collocation matrix has n * m columns. *)
Definition fill_surf_row (N : mat) (row : nat) (c : scons) (ku kv : list T) (p q : nat) : result mat :=
  if (p <? sc_du c) || (q <? sc_dv c) then Ok N else
  let* n := npoles ku p in
  let* m := npoles kv q in
  let* (span_u, i_min, ii_max) := basis_band_extent n p (sc_u c) ku in
  let* (span_v, j_min, jj_max) := basis_band_extent m q (sc_v c) kv in
  if (p <=? stack_max) && (q <=? stack_max) then
    let* Nu := basis_ders span_u p (sc_du c) (sc_u c) ku in
    let* Nv := basis_ders span_v q (sc_dv c) (sc_v c) kv in
    for_ 0 (jj_max + 1) (fun jj N =>
      for_ 0 (ii_max + 1) (fun ii N =>
        let* a := get Nu ii in
        let* b := get Nv jj in
        mset N row ((i_min + ii) + n * (j_min + jj)) (nmul a b)) N) N
  else
    for_ 0 (jj_max + 1) (fun jj N =>
      for_ 0 (ii_max + 1) (fun ii N =>
        let* a := basis_function (sc_u c) (i_min + ii) p (sc_du c) ku in
        let* b := basis_function (sc_v c) (j_min + jj) q (sc_dv c) kv in
        mset N row ((i_min + ii) + n * (j_min + jj)) (nmul a b)) N) N.
Definition surf_matrix (Q : list scons) (ku kv : list T) (p q cols : nat) : result mat :=
  for_ 0 (length Q) (fun k N =>
    let* c := get Q k in fill_surf_row N k c ku kv p q) (mzero (length Q) cols).

(** build_poles(constraints, k_flat_u, k_flat_v, p, q), gbs/bssinterp.h l.246-309; [lu] stands
    for solve_collocation. *)
Definition surf_constraint_poles (lu : solver) (dim : nat) (Q : list scons) (ku kv : list T) (p q : nat)
  : result (list (pt T)) :=
  let n := length Q in
  let* N := surf_matrix Q ku kv p q n in
  let* X := mapM (fun d => lu N (map (fun c => sc_x c d) Q)) (seq 0 dim) in
  Ok (poles_of_columns n X).

(** The four searches of get_constraints_bounds, gbs/bssinterp.h l.12-20: the first smallest
    element for [lt]; dereferencing end() of an empty vector is undefined. *)
Definition first_best (lt : T -> T -> bool) (l : list T) : result T :=
  match l with
  | [] => Undef BadIterator
  | x :: t => Ok (fold_left (fun best y => if lt y best then y else best) t x)
  end.

(** interpolate(constraints, n_polesv, p, q, bounds, mults), gbs/bssinterp.h l.323-351 *)
Definition interpolate_surf_constraints (lu : solver) (dim : nat) (Q : list scons) (nv p q : nat)
    (u1 u2 v1 v2 : T) (mu mv : nat) : result (surf T) :=
  let* u_min := first_best nltb (map sc_u Q) in
  let* u_max := first_best (fun a b => nltb b a) (map sc_u Q) in
  let* v_min := first_best nltb (map sc_v Q) in
  let* v_max := first_best (fun a b => nltb b a) (map sc_v Q) in
  if nltb u_min u1 || nltb u2 u_max || nltb v_min v1 || nltb v2 v_max then Throw InvalidArgument else
  if nv =? 0 then Undef DivByZero else
  if negb (length Q mod nv =? 0) then Throw LengthError else
  let nu := length Q / nv in
  let* a := subi nu (p + 1) in
  let* b := subi nv (q + 1) in
  if (mu =? 0) || (mv =? 0) then Undef DivByZero else
  let* ku := build_mult_flat_knots_range u1 u2 (2 + a / mu) p mu in
  let* kv := build_mult_flat_knots_range v1 v2 (2 + b / mv) q mv in
  let* n := npoles ku p in
  if negb (n =? nu) then Throw InvalidArgument else
  let* m := npoles kv q in
  if negb (m =? nv) then Throw InvalidArgument else
  let* P := surf_constraint_poles lu dim Q ku kv p q in
  mk_surf P ku kv p q.

(** ** Least squares *)
(** check_approx_sizes_surf, gbs/bssapprox.h l.17-34 *)
Definition check_approx_sizes_surf (nu p nv q n : nat) : result unit :=
  if (nu <? p + 1) || (nv <? q + 1) then Throw LengthError
  else if n <? nu * nv then Throw LengthError else Ok tt.

(** approx(Q, k_flat_u, k_flat_v, u, v, p, q), gbs/bssapprox.h l.35-93; [ldlt] stands for
    Eigen's LDLT.  A vector with fewer points than the grid is read out of bounds. *)
Definition approx_grid (ldlt : solver) (dim : nat) (Q : list (pt T)) (ku kv u v : list T) (p q : nat)
  : result (list (pt T)) :=
  let* nu := npoles ku p in
  let* nv := npoles kv q in
  let* _ := check_approx_sizes_surf nu p nv q (length Q) in
  let* Mu := row_matrix ku u p nu in
  let* Mv := row_matrix kv v q nv in
  let* X := mapM (fun d =>
    let* Qd := mapM (fun iv => mapM (fun iu =>
        let* x := get Q (iu + length u * iv) in Ok (x d)) (seq 0 (length u))) (seq 0 (length v)) in
    (* Mu^T Qd Mv, column by column *)
    let B := map (fun c => trans_mul Mu c) Qd in
    let cols := map (fun j => map (fun i => nsum (length v) (fun iv =>
        nmul (match nth_error B iv with
              | Some c => match nth_error c i with Some x => x | None => n0 end
              | None => n0 end) (m_cell Mv iv j))) (seq 0 nu)) (seq 0 nv) in
    two_solves ldlt (gram Mu) (gram Mv) cols nu) (seq 0 dim) in
  Ok (poles_of_grids nu nv X).

(** approx(constraints, k_flat_u, k_flat_v, p, q), gbs/bssapprox.h l.95-168; [qr] stands for
    colPivHouseholderQr, a least squares solver. *)
Definition approx_surf_constraints (qr : solver) (dim : nat) (Q : list scons) (ku kv : list T) (p q : nat)
  : result (surf T) :=
  let* n := npoles ku p in
  let* m := npoles kv q in
  let* _ := check_approx_sizes_surf n p m q (length Q) in
  let* N := surf_matrix Q ku kv p q (n * m) in
  let* X := mapM (fun d => qr N (map (fun c => sc_x c d) Q)) (seq 0 dim) in
  mk_surf (poles_of_columns (n * m) X) ku kv p q.

(** ** Lofts *)
(** build_loft_surface_poles_core<T, dim, nc>, gbs/loft/loftBase.h l.25-46: [cols] are the
    columns of B, nu * dim of them; the pole (i, j) is X(j, i * dim + d) and sits at
    j * nu + i.  A right-hand side of another size than the matrix is undefined. *)
Definition loft_core (lu : solver) (dim nc nu : nat) (cols : list (list T)) (kv v : list T) (q : nat)
  : result (list (pt T)) :=
  let nv := nc * length v in
  let* N := build_poles_matrix nc kv v q nv nv in
  let* X := mapM (fun b => if length b =? nv then lu N b else Undef BadIndex) cols in
  Ok (map (fun ix d => if d <? dim then
             match nth_error X (ix mod nu * dim + d) with
             | Some x => match nth_error x (ix / nu) with Some y => y | None => n0 end
             | None => n0
             end else n0) (seq 0 (nv * nu))).

(** build_loft_surface_poles, gbs/loft/loftBase.h l.60-79 *)
Definition loft_poles (lu : solver) (dim : nat) (curves : list (list (pt T))) (kv v : list T) (q : nat)
  : result (list (pt T)) :=
  let* c0 := get curves 0 in
  let nu := length c0 in
  let* cols := mapM (fun ix =>
    mapM (fun c => let* x := get c (ix / dim) in Ok (x (ix mod dim))) curves) (seq 0 (nu * dim)) in
  loft_core lu dim 1 nu cols kv v q.

(** loft(curves_info, v, flat_v, q), gbs/loft/loftBase.h l.101-124: poles, flat_u and p.  The
    curves are unified in place. *)
Definition loft_info (lu : solver) (dim : nat) (cs : list info) (v kv : list T) (q : nat)
  : result (list (pt T) * list T * nat) :=
  let* cs := unify_degree cs in
  let* cs := unify_knots cs in
  let* (_, ku, p) := get cs 0 in
  let* P := loft_poles lu dim (map (fun c : info => fst (fst c)) cs) kv v q in
  Ok (P, ku, p).

(** get_bs_curves_info, gbs/bsctools.h l.91-128 *)
Definition curves_info (cs : list (curve T)) : list info :=
  map (fun c => (c_poles c, c_knots c, c_deg c)) cs.

(** std::min(q, n_sections - 1) when there are sections, gbs/loft/loftGeneric.h l.34-36 *)
Definition clamp_degree (q n : nat) : nat := match n with 0 => q | S m => min q m end.

(** loft_generic(first, last, v, flat_v, q), gbs/loft/loftGeneric.h l.24-44.  The rational
    version builds a BSSurfaceRational from the same data, [dim] counting the weight. *)
Definition loft_knots (lu : solver) (dim : nat) (cs : list (curve T)) (v kv : list T) (q : nat)
  : result (surf T) :=
  let q := clamp_degree q (length cs) in
  let* (P, ku, p) := loft_info lu dim (curves_info cs) v kv q in
  mk_surf P ku kv p q.

(** loft_generic(first, last, v, q), gbs/loft/loftGeneric.h l.88-107, through
    gbs/loft/loftBase.h l.151-160 *)
Definition loft (lu : solver) (dim : nat) (cs : list (curve T)) (v : list T) (q : nat)
  : result (surf T) :=
  let q := clamp_degree q (length cs) in
  let* kv := build_simple_mult_flat_knots v q in
  let* (P, ku, p) := loft_info lu dim (curves_info cs) v kv q in
  mk_surf P ku kv p q.

(** loft_averaged_params, gbs/loft/loftBase.h l.181-209; [param] is
    curve_parametrization(row, mode, false). *)
Definition loft_averaged_params (param : list (pt T) -> result (list T)) (cs : list info)
  : result (list T) :=
  let nv := length cs in
  let* (P0, _, _) := front cs in
  let* (v, n) := for_ 0 (length P0) (fun i (st : list T * nat) =>
    let (v, n) := st in
    let* row := mapM (fun C : info => get (fst (fst C)) i) cs in
    let* par := param row in
    let* total := back par in
    if nleb total n0 then Ok (v, n) else
    let* v := for_ 0 nv (fun j v =>
      let* x := get par j in
      let* r := divc x total in
      let* a := get v j in
      set v j (nadd a r)) v in
    Ok (v, S n)) (filled nv n0, 0) in
  if n =? 0 then make_range n0 n1 nv
  else mapM (fun x => divc x (nofnat n)) v.

(** loft(curves_info, q_max), gbs/loft/loftBase.h l.211-230, and loft_generic(first, last,
    q_max), gbs/loft/loftGeneric.h l.143-156.  std::min(q_max, n_curves - 1) wraps for no
    curve, which unify_degree has already rejected. *)
Definition loft_auto (lu : solver) (param : list (pt T) -> result (list T)) (dim : nat)
    (cs : list (curve T)) (q_max : nat) : result (surf T) :=
  let* us := unify_degree (curves_info cs) in
  let* us := unify_knots us in
  let* v := loft_averaged_params param us in
  let q := clamp_degree q_max (length us) in
  let* kv := build_simple_mult_flat_knots v q in
  let* (P, ku, p) := loft_info lu dim us v kv q in
  mk_surf P ku kv p q.
End Skin.
