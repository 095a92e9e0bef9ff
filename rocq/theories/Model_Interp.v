(** Model of gbs/bscinterp.h: assembly of the collocation matrices, the banded LU
    factorisation, pole computation and interpolation; and of the matrix assembly
    of gbs/knotsfunctions.ixx.  No proofs in this file.

    Simplifications, valid for the whole file:
    - sizes and Eigen indices are mathematical integers (no wrap-around of long or
      int); a negative size_t difference used as an index is [Undef BadIndex];
    - Eigen's factorisations (SparseLU, PartialPivLU, HouseholderQR, ...) are not
      modelled: the functions that call them take the solver as an argument. *)
From Coq Require Import List Arith ZArith Bool.
From Verif Require Import Model_Base Model_Knots Model_Basis Model_Curve.
Import ListNotations.
Local Open Scope nat_scope.

Section Interp.
Context {T : Type} `{Num T}.

(** ** Dense matrices *)
(** MatrixX<T>: [m_rows] x [m_cols] cells; Eigen's index assertion is compiled out,
    an access outside is undefined. *)
Record mat := mkmat { m_rows : nat; m_cols : nat; m_cell : nat -> nat -> T }.
Definition mzero (r c : nat) : mat := mkmat r c (fun _ _ => n0).
Definition mget (N : mat) (i j : nat) : result T :=
  if (i <? m_rows N) && (j <? m_cols N) then Ok (m_cell N i j) else Undef BadIndex.
Definition mset (N : mat) (i j : nat) (v : T) : result mat :=
  if (i <? m_rows N) && (j <? m_cols N)
  then Ok (mkmat (m_rows N) (m_cols N)
             (fun a b => if (a =? i) && (b =? j) then v else m_cell N a b))
  else Undef BadIndex.

(** A linear solver of Eigen: matrix and right-hand side to solution. *)
Definition solver := mat -> list T -> result (list T).

(** basis_band_extent, gbs/knotsfunctions.ixx l.885-891 *)
Definition basis_band_extent (n_basis p : nat) (u : T) (k : list T) : result (nat * nat * nat) :=
  let* span := find_span n_basis p u k in
  let i_min := if p <=? span then span - p else 0 in
  let* r_max := (if i_min + p <? n_basis then Ok p
                 else let* a := subi n_basis 1 in subi a i_min) in
  Ok (span, i_min, r_max).

(** k.size() - p - 1 *)
Definition basis_count (k : list T) (p : nat) : result nat := subi (length k) (p + 1).

(** fill_basis_row, gbs/knotsfunctions.ixx l.901-918 *)
Definition fill_basis_row (N : mat) (row : nat) (u : T) (k : list T) (p d : nat) : result mat :=
  if p <? d then Ok N else
  let* nb := basis_count k p in
  let* (span, i_min, r_max) := basis_band_extent nb p u k in
  if p <=? stack_max then
    let* Nd := basis_ders span p d u k in
    for_ 0 (r_max + 1) (fun r N =>
      let* v := get Nd r in mset N row (i_min + r) v) N
  else
    for_ 0 (r_max + 1) (fun r N =>
      let* v := basis_function u (i_min + r) p d k in mset N row (i_min + r) v) N.

(** fill_basis_band, gbs/knotsfunctions.ixx l.924-943 *)
Definition fill_basis_band (N : mat) (row0 : nat) (u : T) (k : list T) (p d_max : nat) : result mat :=
  let* nb := basis_count k p in
  let* (span, i_min, r_max) := basis_band_extent nb p u k in
  let dd := min d_max p in
  if p <=? stack_max then
    let* ders := ders_basis_funs_st span p dd u k in
    for_ 0 (dd + 1) (fun d N =>
      for_ 0 (r_max + 1) (fun r N =>
        let* v := geti ders (d * (p + 1) + r) in mset N (row0 + d) (i_min + r) v) N) N
  else
    for_ 0 (dd + 1) (fun d N =>
      for_ 0 (r_max + 1) (fun r N =>
        let* v := basis_function u (i_min + r) p d k in mset N (row0 + d) (i_min + r) v) N) N.

(** build_poles_matrix<T,nc>, gbs/knotsfunctions.ixx l.945-954: the caller's matrix
    is rows x cols. *)
Definition build_poles_matrix (nc : nat) (k u : list T) (p rows cols : nat) : result mat :=
  for_ 0 (length u) (fun i N =>
    let* ui := get u i in fill_basis_band N (nc * i) ui k p (nc - 1)) (mzero rows cols).

(** assemble_collocation_sparse, gbs/bscinterp.h l.132-165.  Each (row, column) is
    emitted at most once, so setFromTriplets is modelled by writing the cell. *)
Definition assemble_collocation_sparse (k u : list T) (deg nc n_poles : nat) : result mat :=
  build_poles_matrix nc k u deg n_poles n_poles.

(** ** band_lu, gbs/bscinterp.h l.181-335 *)
(** The members n, kl, ku, M; W = kl + ku + 1. *)
Record band := mkband { b_n : nat; b_kl : nat; b_ku : nat; b_M : list T }.
Definition b_W (B : band) : nat := b_kl B + b_ku B + 1.
(** at(i, j), l.187-188: M[i*W + (j - i + kl)] *)
Definition b_ix (kl W i j : nat) : result nat :=
  let* o := subi (j + kl) i in Ok (i * W + o).
Definition bget (kl W : nat) (M : list T) (i j : nat) : result T :=
  let* ix := b_ix kl W i j in get M ix.
Definition bset (kl W : nat) (M : list T) (i j : nat) (v : T) : result (list T) :=
  let* ix := b_ix kl W i j in set M ix v.

(** numeric_limits<T>::epsilon(): knot_eps is 100 times it (gbs/gbsconstants.h). *)
Definition machine_eps : T := ndiv neps (nofnat 100).
(** interp_band_max_growth = 1e4, gbs/gbsconstants.h l.57 *)
Definition max_growth : T := nmul (nofnat 100) (nofnat 100).

(** factorize_inplace l.260-264: the loop on j *)
Definition elim_cell (kl W : nat) (k i : nat) (lik : T) (j : nat) (M : list T) : result (list T) :=
  let* x := bget kl W M i j in
  let* y := bget kl W M k j in
  bset kl W M i j (nsub x (nmul lik y)).
(** l.256-265: the loop on i; [None] is the early return false. *)
Definition elim_row (n kl ku k : nat) (akk : T) (i : nat) (st : option (list T))
  : result (option (list T)) :=
  match st with
  | None => Ok None
  | Some M =>
    let W := kl + ku + 1 in
    let* a := bget kl W M i k in
    let* lik := divc a akk in
    if nltb max_growth (nabs lik) then Ok None else
    let* M := bset kl W M i k lik in
    let jmax := min (k + ku) (n - 1) in
    let* M := for_ (k + 1) (jmax - k) (elim_cell kl W k i lik) M in
    Ok (Some M)
  end.
(** l.250-266: the loop on k *)
Definition elim_col (n kl ku : nat) (tol : T) (k : nat) (st : option (list T))
  : result (option (list T)) :=
  match st with
  | None => Ok None
  | Some M =>
    let* akk := bget kl (kl + ku + 1) M k k in
    if nleb (nabs akk) tol then Ok None else
    let imax := min (k + kl) (n - 1) in
    for_ (k + 1) (imax - k) (elim_row n kl ku k akk) (Some M)
  end.
(** factorize_inplace, gbs/bscinterp.h l.247-268: [Some] of the factorised band when
    it returns true, [None] when it returns false (the caller then drops it). *)
Definition factorize_inplace (B : band) (scale : T) : result (option band) :=
  let tol := nmul (nmul scale machine_eps) (nofnat 16) in
  let* r := for_ 0 (b_n B) (elim_col (b_n B) (b_kl B) (b_ku B) tol) (Some (b_M B)) in
  Ok (match r with
      | None => None
      | Some M => Some (mkband (b_n B) (b_kl B) (b_ku B) M)
      end).

(** solve(b, x), gbs/bscinterp.h l.316-334; [x] is the caller's uninitialised
    buffer. *)
Definition solve_forward (B : band) (b : list T) (i : nat) (x : list (option T)) :=
  let* s := get b i in
  let kmin := i - b_kl B in
  let* s := for_ kmin (i - kmin) (fun k s =>
      let* a := bget (b_kl B) (b_W B) (b_M B) i k in
      let* xk := geti x k in
      Ok (nsub s (nmul a xk))) s in
  seti x i s.
Definition solve_back (B : band) (r : nat) (x : list (option T)) :=
  let i := b_n B - 1 - r in
  let* s := geti x i in
  let jmax := min (i + b_ku B) (b_n B - 1) in
  let* s := for_ (i + 1) (jmax - i) (fun j s =>
      let* a := bget (b_kl B) (b_W B) (b_M B) i j in
      let* xj := geti x j in
      Ok (nsub s (nmul a xj))) s in
  let* d := bget (b_kl B) (b_W B) (b_M B) i i in
  let* q := divc s d in
  seti x i q.
Definition band_solve (B : band) (b : list T) : result (list T) :=
  let* x := for_ 0 (b_n B) (solve_forward B b) (uninit (b_n B)) in
  let* x := for_ 0 (b_n B) (solve_back B) x in
  read_cells (b_n B) x.

(** std::max(scale, std::abs(v)) *)
Definition max_abs (scale v : T) : T := if nltb scale (nabs v) then nabs v else scale.
(** int(kl_ < 0 ? 0 : kl_) *)
Definition width (z : Z) : nat := if (z <? 0)%Z then 0 else Z.to_nat z.

(** assemble_and_factorize, gbs/bscinterp.h l.197-238, pass 1 (l.208-219): the
    extents of all rows and the two half widths. *)
Definition band_pass1 (nb deg nc dd : nat) (k u : list T)
  : result (list (nat * nat * nat) * Z * Z) :=
  for_ 0 (length u) (fun i st =>
    let '(ext, kl, ku) := st in
    let* ui := get u i in
    let* e := basis_band_extent nb deg ui k in
    let '(_, i_min, r_max) := e in
    Ok (ext ++ [e],
        Z.max kl (Z.of_nat (nc * i + dd) - Z.of_nat i_min),
        Z.max ku (Z.of_nat (i_min + r_max) - Z.of_nat (nc * i)))) ([], 0%Z, 0%Z).
(** pass 2 (l.225-236), state (M, scale) *)
Definition band_pass2 (deg nc dd kl W : nat) (k u : list T) (ext : list (nat * nat * nat))
    (M : list T) : result (list T * T) :=
  for_ 0 (length u) (fun i st =>
    let* ui := get u i in
    let* (span, i_min, r_max) := get ext i in
    let* ders := ders_basis_funs_st span deg dd ui k in
    for_ 0 (dd + 1) (fun d st =>
      for_ 0 (r_max + 1) (fun r st =>
        let '(M, scale) := st in
        let* v := geti ders (d * (deg + 1) + r) in
        let* M := bset kl W M (nc * i + d) (i_min + r) v in
        Ok (M, max_abs scale v)) st) st) (M, n0).
(** The assembled band and its scale, before factorisation. *)
Definition band_assemble (k u : list T) (deg nc n_poles : nat) : result (band * T) :=
  let* nb := basis_count k deg in
  let dd := min (nc - 1) deg in
  let* (ext, kl_, ku_) := band_pass1 nb deg nc dd k u in
  let kl := width kl_ in
  let ku := width ku_ in
  let W := kl + ku + 1 in
  let* (M, scale) := band_pass2 deg nc dd kl W k u ext (filled (n_poles * W) n0) in
  Ok (mkband n_poles kl ku M, scale).
Definition assemble_and_factorize (k u : list T) (deg nc n_poles : nat) : result (option band) :=
  if stack_max <? deg then Ok None else
  let* (B, scale) := band_assemble k u deg nc n_poles in
  factorize_inplace B scale.

(** assemble_and_factorize_constraints, gbs/bscinterp.h l.276-312.  Pass 1
    (l.285-295); [None] is the early return false. *)
Definition cband_pass1 (nb deg : nat) (k us : list T) (ds : list nat)
  : result (option (list (nat * nat * nat) * Z * Z)) :=
  for_ 0 (length us) (fun i st =>
    match st with
    | None => Ok None
    | Some (ext, kl, ku) =>
      let* di := get ds i in
      if deg <? di then Ok None else
      let* ui := get us i in
      let* e := basis_band_extent nb deg ui k in
      let '(_, i_min, r_max) := e in
      Ok (Some (ext ++ [e], Z.max kl (Z.of_nat i - Z.of_nat i_min),
                Z.max ku (Z.of_nat (i_min + r_max) - Z.of_nat i)))
    end) (Some ([], 0%Z, 0%Z)).
(** l.302-311, state (M, scale) *)
Definition cband_pass2 (deg kl W : nat) (k us : list T) (ds : list nat)
    (ext : list (nat * nat * nat)) (M : list T) : result (list T * T) :=
  for_ 0 (length us) (fun i st =>
    let* ui := get us i in
    let* di := get ds i in
    let* (span, i_min, r_max) := get ext i in
    let* Nd := basis_ders span deg di ui k in
    for_ 0 (r_max + 1) (fun r st =>
      let '(M, scale) := st in
      let* v := get Nd r in
      let* M := bset kl W M i (i_min + r) v in
      Ok (M, max_abs scale v)) st) (M, n0).
Definition assemble_and_factorize_constraints (us : list T) (ds : list nat) (k : list T) (deg : nat)
  : result (option band) :=
  if stack_max <? deg then Ok None else
  let n := length us in
  let* nb := basis_count k deg in
  let* p1 := cband_pass1 nb deg k us ds in
  match p1 with
  | None => Ok None
  | Some (ext, kl_, ku_) =>
    let kl := width kl_ in
    let ku := width ku_ in
    let W := kl + ku + 1 in
    if n <? W * 2 then Ok None else
    let* (M, scale) := cband_pass2 deg kl W k us ds ext (filled (n * W) n0) in
    factorize_inplace (mkband n kl ku M) scale
  end.

(** ** Poles *)
(** poles[i][d] = X(i, d) from the solved columns (one per coordinate). *)
Definition poles_of_columns (n : nat) (X : list (list T)) : list (pt T) :=
  map (fun i c => match nth_error X c with
                  | Some x => match nth_error x i with Some v => v | None => n0 end
                  | None => n0
                  end) (seq 0 n).

(** collocation_solver, gbs/bscinterp.h l.339-375: prepare, then one solve per
    column.  [sparse] stands for the SparseLU fallback. *)
Definition collocation_solve (sparse : solver) (k u : list T) (deg nc n_poles : nat)
    (cols : list (list T)) : result (list (list T)) :=
  let* f := assemble_and_factorize k u deg nc n_poles in
  match f with
  | Some B => mapM (band_solve B) cols
  | None => let* N := assemble_collocation_sparse k u deg nc n_poles in mapM (sparse N) cols
  end.

(** B(nc*i + deriv, d) = Q[i][deriv][d], l.391-396: column [d]; Q[i] is an array of
    [nc] points. *)
Definition rhs_column (Q : list (list (pt T))) (d : nat) : list T :=
  map (fun q => q d) (concat Q).

(** build_poles(Q, k_flat, u, deg), gbs/bscinterp.h l.377-409 *)
Definition build_poles (sparse : solver) (dim nc : nat) (Q : list (list (pt T)))
    (k u : list T) (deg : nat) : result (list (pt T)) :=
  let n_poles := length Q * nc in
  let* X := collocation_solve sparse k u deg nc n_poles (map (rhs_column Q) (seq 0 dim)) in
  Ok (poles_of_columns n_poles X).

(** build_poles(Q_cols, k_flat, u, deg), gbs/bscinterp.h l.419-460: all the columns
    of all the point sets share one factorisation; the results are concatenated.
    The sets are read with the size of the first one. *)
Definition build_poles_batch (sparse : solver) (dim nc : nat) (Qs : list (list (list (pt T))))
    (k u : list T) (deg : nat) : result (list (pt T)) :=
  match Qs with
  | [] => Ok []
  | Q0 :: _ =>
    let n_poles := length Q0 * nc in
    let* cols := mapM (fun Q => if length Q0 <=? length Q
                                then Ok (map (rhs_column (firstn (length Q0) Q)) (seq 0 dim))
                                else Undef BadIndex) Qs in
    let* X := collocation_solve sparse k u deg nc n_poles (concat cols) in
    Ok (concat (map (fun c => poles_of_columns n_poles (firstn dim (skipn (c * dim) X)))
                    (seq 0 (length Qs))))
  end.

(** constrPoint: value, parameter, derivative order (gbs/bscinterp.h l.25-31) *)
Record cpoint := mkcp { cp_v : pt T; cp_u : T; cp_d : nat }.

(** build_poles(constrPoint...), gbs/bscinterp.h l.462-524.  [sort] stands for
    std::sort with the order of l.478 (applied only to unsorted input, l.481-486;
    here to every input, [sort] leaving sorted input alone or not);
    [lu] for solve_collocation (dense or sparse LU). *)
Definition build_poles_constraints (lu : solver) (sort : list cpoint -> list cpoint)
    (dim : nat) (Q : list cpoint) (k : list T) (deg : nat) : result (list (pt T)) :=
  let n := length Q in
  let Qs := sort Q in
  let* f := assemble_and_factorize_constraints (map cp_u Qs) (map cp_d Qs) k deg in
  match f with
  | Some B =>
    let* X := mapM (fun d => band_solve B (map (fun q => cp_v q d) Qs)) (seq 0 dim) in
    Ok (poles_of_columns n X)
  | None =>
    let* N := for_ 0 n (fun i N =>
        let* q := get Q i in fill_basis_row N i (cp_u q) k deg (cp_d q)) (mzero n n) in
    let* X := mapM (fun d => lu N (map (fun q => cp_v q d) Q)) (seq 0 dim) in
    Ok (poles_of_columns n X)
  end.

(** ** Interpolation *)
(** interpolate(Q, u), gbs/bscinterp.h l.556-578 with add_computed = false: degree
    2 nc - 1, multiplicities (p+1, nc, ..., nc, p+1); m has Q.size() entries, with
    none m.front() is undefined, with one std::fill has a reversed range. *)
Definition interpolate_hermite (sparse : solver) (dim nc : nat) (Q : list (list (pt T)))
    (u : list T) : result (curve T) :=
  let p := 2 * nc - 1 in
  match length Q with
  | 0 => Undef EmptyFront
  | 1 => Undef BadIterator
  | S (S n) =>
    let* k := flat_knots u ((p + 1) :: repeat nc n ++ [p + 1]) in
    let* poles := build_poles sparse dim nc Q k u p in
    mk_curve poles k p
  end.

(** interpolate(Q, u, p), gbs/bscinterp.h l.624-630 *)
Definition interpolate (sparse : solver) (dim : nat) (Q : list (pt T)) (u : list T) (p : nat)
  : result (curve T) :=
  let* k := build_simple_mult_flat_knots u p in
  let* poles := build_poles sparse dim 1 (map (fun q => [q]) Q) k u p in
  mk_curve poles k p.

(** interpolate(Q, p, mode), gbs/bscinterp.h l.632-640; [param] is
    curve_parametrization(pts, mode, true). *)
Definition interpolate_mode (sparse : solver) (param : list (pt T) -> result (list T))
    (dim : nat) (Q : list (pt T)) (p : nat) : result (curve T) :=
  if length Q <=? p then Throw DomainError else
  let* u := param Q in interpolate sparse dim Q u p.

(** interpolate(pt_begin, pt_end, cstr_lst, p), gbs/bscinterp.h l.691-755; [lu] stands
    for partialPivLu. *)
Definition interpolate_constraints (lu : solver) (dim : nat) (ub : T) (qb : pt T) (ue : T) (qe : pt T)
    (cstr : list cpoint) (p : nat) : result (curve T) :=
  let nc := length cstr in
  let n := nc + 2 in
  if n <? p + 1 then Throw InvalidArgument else
  let u := fold_left (fun u c => insert_ordered u (cp_u c)) cstr [ub; ue] in
  let* k := build_simple_mult_flat_knots u p in
  let* N := fill_basis_row (mzero n n) 0 ub k p 0 in
  let* N := for_ 0 nc (fun i N =>
      let* c := get cstr i in fill_basis_row N (i + 1) (cp_u c) k p (cp_d c)) N in
  let* N := fill_basis_row N (n - 1) ue k p 0 in
  let* X := mapM (fun d => lu N (qb d :: map (fun c => cp_v c d) cstr ++ [qe d])) (seq 0 dim) in
  mk_curve (poles_of_columns n X) k p.

(** ** Approximation, gbs/bscapprox.h *)
(** sum_{i<n} f i, in index order *)
Definition nsum (n : nat) (f : nat -> T) : T := forp 0 n (fun i s => nadd s (f i)) n0.
(** N.transpose() * N and N.transpose() * b *)
Definition gram (N : mat) : mat :=
  mkmat (m_cols N) (m_cols N)
    (fun i j => nsum (m_rows N) (fun r => nmul (m_cell N r i) (m_cell N r j))).
Definition trans_mul (N : mat) (b : list T) : list T :=
  map (fun j => nsum (m_rows N) (fun r =>
    nmul (m_cell N r j) (match nth_error b r with Some v => v | None => n0 end)))
    (seq 0 (m_cols N)).
(** solve_approx_banded, gbs/bscapprox.h l.22-37, one column; [ldlt] stands for the
    dense or sparse LDLT.  A row count of B that is not the one of N is undefined
    (Eigen's assertion is compiled out). *)
Definition solve_approx_banded (ldlt : solver) (N : mat) (b : list T) : result (list T) :=
  if length b =? m_rows N then ldlt (gram N) (trans_mul N b) else Undef BadIndex.

(** check_approx_sizes, gbs/bscapprox.h l.47-61 *)
Definition check_approx_sizes (n_poles p n_pts : nat) : result unit :=
  if n_poles <? p + 1 then Throw LengthError
  else if n_pts <? n_poles then Throw LengthError else Ok tt.

(** N_full, gbs/bscapprox.h l.90-93 *)
Definition inner_rows (k u : list T) (p n_poles : nat) : result mat :=
  let* m := subi (length u) 2 in
  for_ 0 m (fun i N =>
    let* ui := get u (i + 1) in fill_basis_row N i ui k p 0) (mzero m n_poles).

(** approx_bound_fixed, gbs/bscapprox.h l.79-120.  middleCols(1, n_poles - 2) with
    fewer than two poles is undefined. *)
Definition approx_bound_fixed (ldlt : solver) (dim : nat) (pts : list (pt T)) (p n_poles : nat)
    (u k : list T) : result (curve T) :=
  let* _ := check_approx_sizes n_poles p (length pts) in
  let* Nf := inner_rows k u p n_poles in
  let* m := subi n_poles 2 in
  let N := mkmat (m_rows Nf) m (fun i j => m_cell Nf i (j + 1)) in
  let* pb := front pts in
  let* pe := back pts in
  let* npt := subi (length pts) 2 in
  let* X := mapM (fun d =>
      let* b := mapM (fun i =>
          let* q := get pts (i + 1) in
          let* nb := mget Nf i 0 in
          let* ne := mget Nf i (n_poles - 1) in
          Ok (nsub (nsub (q d) (nmul (pb d) nb)) (nmul (pe d) ne))) (seq 0 npt) in
      solve_approx_banded ldlt N b) (seq 0 dim) in
  mk_curve (pb :: poles_of_columns m X ++ [pe]) k p.

(** approx(pts, p, n_poles, u, k_flat), gbs/bscapprox.h l.133-158 *)
Definition approx_free (ldlt : solver) (dim : nat) (pts : list (pt T)) (p n_poles : nat)
    (u k : list T) : result (curve T) :=
  let* _ := check_approx_sizes n_poles p (length pts) in
  let* N := build_poles_matrix 1 k u p (length u) n_poles in
  let* X := mapM (fun d => solve_approx_banded ldlt N (map (fun q => q d) pts)) (seq 0 dim) in
  mk_curve (poles_of_columns n_poles X) k p.

(** approx(pts, p, n_poles, u, fix_bound), gbs/bscapprox.h l.171-188 *)
Definition approx (ldlt : solver) (dim : nat) (pts : list (pt T)) (p n_poles : nat)
    (u : list T) (fix_bound : bool) : result (curve T) :=
  let* _ := check_approx_sizes n_poles p (length pts) in
  let* u1 := front u in
  let* u2 := back u in
  let* k := build_simple_mult_flat_knots_range u1 u2 n_poles p in
  if fix_bound then approx_bound_fixed ldlt dim pts p n_poles u k
  else approx_free ldlt dim pts p n_poles u k.
End Interp.
