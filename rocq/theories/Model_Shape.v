(** Model of gbs/bscshaping.h and gbs/bssshaping.h: poles of a curve or of a surface moved so
    that it meets constraints.  No proofs in this file.

    Simplifications, valid for the whole file:
    - the Cholesky factorisation of Eigen ([llt]) and its LU with partial pivoting ([lu]) are
      arguments;
    - the template parameter dim is an argument; coordinates from [dim] on do not exist in the
      code, here they are left alone;
    - a size i2 - i1 + 1 that wraps around size_t is [Undef BadIndex]. *)
From Coq Require Import List Arith Bool.
From Verif Require Import Model_Base Model_Knots Model_Basis Model_Curve Model_Interp Model_Surface Model_Skin.
Import ListNotations.
Local Open Scope nat_scope.

Section Shape.
Context {T : Type} `{Num T}.

(** B * B.transpose(), gbs/bscshaping.h l.50 and gbs/bssshaping.h l.68 *)
Definition outer (B : mat) : mat :=
  mkmat (m_rows B) (m_rows B)
    (fun i j => nsum (m_cols B) (fun c => nmul (m_cell B i c) (m_cell B j c))).

(** DP[i] from DX[i], gbs/bscshaping.h l.48-72 and gbs/bssshaping.h l.66-90 *)
Definition shape_solve (lu llt : solver) (B : mat) (b : list T) : result (list T) :=
  let m := m_rows B in
  let n := m_cols B in
  if m <? n then let* y := llt (outer B) b in Ok (trans_mul B y)
  else if n <? m then llt (gram B) (trans_mul B b)
  else lu B b.

(** The matrix B, gbs/bscshaping.h l.26-35: m constraints, poles i1 .. i1 + n - 1 *)
Definition shape_matrix (cs : list cpoint) (k : list T) (p i1 n : nat) : result mat :=
  for_ 0 (length cs) (fun i B =>
    let* c := get cs i in
    for_ i1 n (fun j B =>
      let* v := basis_function (cp_u c) j p (cp_d c) k in
      mset B i (j - i1) v) B) (mzero (length cs) n).

(** poles[i][j] = poles[i][j] + DP[j](i - i1), gbs/bscshaping.h l.74-80 *)
Definition shift_poles (poles D : list (pt T)) (i1 n : nat) : result (list (pt T)) :=
  for_ i1 n (fun i P =>
    let* q := get P i in
    let* d := get D (i - i1) in
    set P i (padd q d)) poles.

(** move_to_constraints_delta, gbs/bscshaping.h l.20-81 *)
Definition move_to_constraints_delta (lu llt : solver) (dim : nat) (poles : list (pt T))
    (cs : list cpoint) (k : list T) (p i1 i2 : nat) : result (list (pt T)) :=
  let* n := subi (i2 + 1) i1 in
  let* B := shape_matrix cs k p i1 n in
  let* X := mapM (fun d => shape_solve lu llt B (map (fun c => cp_v c d) cs)) (seq 0 dim) in
  shift_poles poles (poles_of_columns n X) i1 n.

(** moved_to_constraints_delta, gbs/bscshaping.h l.84-92 *)
Definition moved_to_constraints_delta (lu llt : solver) (dim : nat) (c : curve T)
    (cs : list cpoint) (i1 i2 : nat) : result (curve T) :=
  let* P := move_to_constraints_delta lu llt dim (c_poles c) cs (c_knots c) (c_deg c) i1 i2 in
  mk_curve P (c_knots c) (c_deg c).

(** find_span_range(crv, constraints), gbs/bscshaping.h l.94-110 *)
Definition spans_of (c : curve T) (cs : list cpoint) : result (nat * nat) :=
  let n := length (c_poles c) in
  let* i1 := subi n 1 in
  foldM (fun st q =>
    let* r := find_span_range n (c_deg c) (cp_u q) (c_knots c) in
    Ok (min (fst st) (fst r), max (snd st) (snd r))) (i1, 0) cs.

(** convert_constraints_to_delta, gbs/bscshaping.h l.112-123 *)
Definition to_delta (c : curve T) (cs : list cpoint) : result (list cpoint) :=
  mapM (fun q =>
    let* v := value c (cp_u q) (cp_d q) in
    Ok (mkcp (psub (cp_v q) v) (cp_u q) (cp_d q))) cs.

(** i1 = max(1, i1), i2 = min(n - 2, i2) when fix_bounds, gbs/bscshaping.h l.140-144 *)
Definition inner_range (fix_bounds : bool) (n i1 i2 : nat) : result (nat * nat) :=
  if fix_bounds then let* b := subi n 2 in Ok (max 1 i1, min b i2) else Ok (i1, i2).

(** moved_to_constraints, gbs/bscshaping.h l.134-147.  The differences of l.137 are computed
    and dropped: l.146 passes the constraints themselves. *)
Definition moved_to_constraints (lu llt : solver) (dim : nat) (c : curve T) (cs : list cpoint)
    (fix_bounds : bool) : result (curve T) :=
  let* _ := to_delta c cs in
  let* (i1, i2) := spans_of c cs in
  let* (i1, i2) := inner_range fix_bounds (length (c_poles c)) i1 i2 in
  moved_to_constraints_delta lu llt dim c cs i1 i2.

(** move_to_constraints, gbs/bscshaping.h l.149-153 *)
Definition move_to_constraints (lu llt : solver) (dim : nat) (c : curve T) (cs : list cpoint)
    (fix_bounds : bool) : result (curve T) :=
  let* c' := moved_to_constraints lu llt dim c cs fix_bounds in
  copyPoles c (c_poles c').

(** moved_to_point, gbs/bscshaping.h l.185-206, with move_to_point_delta, l.168-172 *)
Definition moved_to_point (lu llt : solver) (dim : nat) (c : curve T) (x : pt T) (u : T)
    (fix_bounds : bool) : result (curve T) :=
  let n := length (c_poles c) in
  let* (i1, i2) := find_span_range n (c_deg c) u (c_knots c) in
  let* (i1, i2) := inner_range fix_bounds n i1 i2 in
  let* v := value c u 0 in
  let* P := move_to_constraints_delta lu llt dim (c_poles c) [mkcp (psub x v) u 0]
              (c_knots c) (c_deg c) i1 i2 in
  mk_curve P (c_knots c) (c_deg c).

(** move_to_point, gbs/bscshaping.h l.218-222 *)
Definition move_to_point (lu llt : solver) (dim : nat) (c : curve T) (x : pt T) (u : T)
    (fix_bounds : bool) : result (curve T) :=
  let* c' := moved_to_point lu llt dim c x u fix_bounds in
  copyPoles c (c_poles c').

(** ** Surfaces *)
(** The matrix B, gbs/bssshaping.h l.34-53.  The orders of derivation of the constraints
    (l.41-42) are read and not used: the basis functions themselves are stored. *)
Definition surf_shape_matrix (cs : list scons) (ku kv : list T) (p q i1 nu j1 nv : nat) : result mat :=
  for_ 0 (length cs) (fun r B =>
    let* c := get cs r in
    for_ j1 nv (fun j B =>
      let* Nv := basis_function (sc_v c) j q 0 kv in
      for_ i1 nu (fun i B =>
        let* Nu := basis_function (sc_u c) i p 0 ku in
        mset B r (i - i1 + nu * (j - j1)) (nmul Nu Nv)) B) B) (mzero (length cs) (nu * nv)).

(** poles[i + npoles_u * j] moved, gbs/bssshaping.h l.92-103 *)
Definition surf_shift_poles (poles D : list (pt T)) (npu i1 nu j1 nv : nat) : result (list (pt T)) :=
  for_ j1 nv (fun j P =>
    for_ i1 nu (fun i P =>
      let* a := get P (i + npu * j) in
      let* d := get D (i - i1 + nu * (j - j1)) in
      set P (i + npu * j) (padd a d)) P) poles.

(** move_to_constraints_delta, gbs/bssshaping.h l.25-104 *)
Definition surf_move_delta (lu llt : solver) (dim : nat) (poles : list (pt T)) (cs : list scons)
    (ku kv : list T) (p q i1 i2 j1 j2 : nat) : result (list (pt T)) :=
  let* nu := subi (i2 + 1) i1 in
  let* nv := subi (j2 + 1) j1 in
  let* npu := subi (length ku) (p + 1) in
  let* B := surf_shape_matrix cs ku kv p q i1 nu j1 nv in
  let* X := mapM (fun d => shape_solve lu llt B (map (fun c => sc_x c d) cs)) (seq 0 dim) in
  surf_shift_poles poles (poles_of_columns (nu * nv) X) npu i1 nu j1 nv.

(** moved_to_constraints_delta, gbs/bssshaping.h l.106-119 *)
Definition surf_moved_delta (lu llt : solver) (dim : nat) (s : surf T) (cs : list scons)
    (i1 i2 j1 j2 : nat) : result (surf T) :=
  let* P := (if 0 <? length cs
             then surf_move_delta lu llt dim (s_poles s) cs (s_ku s) (s_kv s) (s_degU s) (s_degV s) i1 i2 j1 j2
             else Ok (s_poles s)) in
  mk_surf P (s_ku s) (s_kv s) (s_degU s) (s_degV s).

(** find_span_range(srf, constraints), gbs/bssshaping.h l.121-146 *)
Definition surf_spans_of (s : surf T) (cs : list scons) : result (nat * nat * (nat * nat)) :=
  let* nu := nPolesU s in
  let* nv := nPolesV s in
  let* i1 := subi nu 1 in
  let* j1 := subi nv 1 in
  foldM (fun st c =>
    let* a := find_span_range nu (s_degU s) (sc_u c) (s_ku s) in
    let* b := find_span_range nv (s_degV s) (sc_v c) (s_kv s) in
    Ok (min (fst (fst st)) (fst a), max (snd (fst st)) (snd a),
        (min (fst (snd st)) (fst b), max (snd (snd st)) (snd b)))) (i1, 0, (j1, 0)) cs.

(** convert_constraints_to_delta, gbs/bssshaping.h l.148-161 *)
Definition surf_to_delta (s : surf T) (cs : list scons) : result (list scons) :=
  mapM (fun c =>
    let* v := surf_value s (sc_u c) (sc_v c) (sc_du c) (sc_dv c) in
    Ok (mksc (sc_u c) (sc_v c) (psub (sc_x c) v) (sc_du c) (sc_dv c))) cs.

(** moved_to_constraints, gbs/bssshaping.h l.172-192 *)
Definition surf_moved_to_constraints (lu llt : solver) (dim : nat) (s : surf T) (cs : list scons)
    (fix_bounds : bool) : result (surf T) :=
  let* nu := nPolesU s in
  let* nv := nPolesV s in
  let* (ru, rv) := surf_spans_of s cs in
  let* (i1, i2) := inner_range fix_bounds nu (fst ru) (snd ru) in
  let* (j1, j2) := inner_range fix_bounds nv (fst rv) (snd rv) in
  let* ds := surf_to_delta s cs in
  surf_moved_delta lu llt dim s ds i1 i2 j1 j2.

(** moved_to_point, gbs/bssshaping.h l.204-212 *)
Definition surf_moved_to_point (lu llt : solver) (dim : nat) (s : surf T) (x : pt T) (u v : T)
    (fix_bounds : bool) : result (surf T) :=
  surf_moved_to_constraints lu llt dim s [mksc u v x 0 0] fix_bounds.

(** move_to_point, gbs/bssshaping.h l.214-224 *)
Definition surf_move_to_point (lu llt : solver) (dim : nat) (s : surf T) (x : pt T) (u v : T)
    (fix_bounds : bool) : result (surf T) :=
  let* s' := surf_moved_to_constraints lu llt dim s [mksc u v x 0 0] fix_bounds in
  surf_copyPoles s (s_poles s').

End Shape.
