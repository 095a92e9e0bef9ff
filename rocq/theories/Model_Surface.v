(** Model of the tensor-product evaluators of gbs/basisfunctions.ixx, of the pole grid
    tools of gbs/polestools.h and of the surface classes of gbs/bssurf.h.  No proofs in
    this file.  Poles are stored U first: pole (i,j) has index i + nU*j. *)
From Coq Require Import List Arith ZArith Bool.
From Verif Require Import Model_Base Model_Basis Model_Knots Model_Rational Model_Curve.
Import ListNotations.
Local Open Scope nat_scope.

Section Surface.
Context {T : Type} `{Num T}.

(** The number of poles in one direction: knots.size() - deg - 1, gbs/bssurf.h l.751-764.
    A wrapped size_t is reported as BadIndex (the constructor below keeps the wrap). *)
Definition npoles (k : list T) (p : nat) : result nat := subi (length k) (p + 1).

(** eval_value_decasteljau (surface), gbs/basisfunctions.ixx l.785-838 *)
Definition surf_eval (u v : T) (ku kv : list T) (poles : list (pt T)) (p q du dv : nat)
  : result (pt T) :=
  if (p <? du) || (q <? dv) then Ok pzero else
  let* nU := npoles ku p in
  let* nV := npoles kv q in
  let* i := find_span nU p u ku in
  let* j := find_span nV q v kv in
  let i_min := if p <=? i then i - p else 0 in
  let j_min := if q <=? j then j - q else 0 in
  if (p <=? stack_max) && (q <=? stack_max) then
    let* Nu := basis_ders i p du u ku in
    let* Nv := basis_ders j q dv v kv in
    for_ 0 (q + 1) (fun rj acc =>
      let* nv := get Nv rj in
      let row := nU * (j_min + rj) in
      for_ 0 (p + 1) (fun ri acc =>
        let* nu := get Nu ri in
        let* pole := get poles (i_min + ri + row) in
        Ok (padd acc (pscal (nmul nu nv) pole))) acc) pzero
  else
    for_ j_min (j + 1 - j_min) (fun jj acc =>
      let* Nvv := basis_function v jj q dv kv in
      for_ i_min (i + 1 - i_min) (fun ii acc =>
        let* Nuu := basis_function u ii p du ku in
        let* pole := get poles (ii + nU * jj) in
        Ok (padd acc (pscal (nmul Nuu Nvv) pole))) acc) pzero.

(** eval_ders_decasteljau (surface), gbs/basisfunctions.ixx l.501-561: the table of all
    orders, row-major with stride nv+1 *)
Definition surf_ders (u v : T) (ku kv : list T) (poles : list (pt T)) (p q nu nv : nat)
  : result (list (pt T)) :=
  let SKL := filled ((nu + 1) * (nv + 1)) pzero in
  let du := min nu p in
  let dv := min nv q in
  let* nU := npoles ku p in
  let* nV := npoles kv q in
  let* i := find_span nU p u ku in
  let* j := find_span nV q v kv in
  let i_min := if p <=? i then i - p else 0 in
  let j_min := if q <=? j then j - q else 0 in
  if (p <=? stack_max) && (q <=? stack_max) then
    let* dersU := ders_basis_funs_st i p du u ku in
    let* dersV := ders_basis_funs_st j q dv v kv in
    for_ 0 (du + 1) (fun a SKL =>
      for_ 0 (dv + 1) (fun b SKL =>
        for_ 0 (q + 1) (fun rj SKL =>
          let* nvw := geti dersV (b * (q + 1) + rj) in
          let row := nU * (j_min + rj) in
          for_ 0 (p + 1) (fun ri SKL =>
            let* nuw := geti dersU (a * (p + 1) + ri) in
            let* pole := get poles (i_min + ri + row) in
            let* c := get SKL (a * (nv + 1) + b) in
            set SKL (a * (nv + 1) + b) (padd c (pscal (nmul nuw nvw) pole))) SKL) SKL) SKL) SKL
  else
    for_ 0 (du + 1) (fun a SKL =>
      for_ 0 (dv + 1) (fun b SKL =>
        for_ j_min (j + 1 - j_min) (fun jj SKL =>
          let* Nvv := basis_function v jj q b kv in
          for_ i_min (i + 1 - i_min) (fun ii SKL =>
            let* Nuu := basis_function u ii p a ku in
            let* pole := get poles (ii + nU * jj) in
            let* c := get SKL (a * (nv + 1) + b) in
            set SKL (a * (nv + 1) + b) (padd c (pscal (nmul Nuu Nvv) pole))) SKL) SKL) SKL) SKL.

(** eval_rational_ders (surface), gbs/basisfunctions.ixx l.577-634 (the two branches
    differ by where the table is allocated) *)
Definition surf_rational_ders (dim : nat) (u v : T) (ku kv : list T) (poles : list (pt T))
    (p q nu nv : nat) : result (list (pt T)) :=
  let stride := nv + 1 in
  let* A := surf_ders u v ku kv poles p q nu nv in
  let* A0 := get A 0 in
  let w00 := weight dim A0 in
  for_ 0 (nu + 1) (fun k SKL =>
    for_ 0 (nv + 1) (fun l SKL =>
      let* val := get A (k * stride + l) in
      let* val := for_ 1 l (fun j val =>
        let* b := binomial_law mul_size l j in
        let* Aj := get A j in
        let* C := get SKL (k * stride + (l - j)) in
        Ok (rat_sub val b (weight dim Aj) C)) val in
      let* val := for_ 1 k (fun i val =>
        let* bi := binomial_law mul_size k i in
        let* Ai := get A (i * stride) in
        let* C := get SKL ((k - i) * stride + l) in
        let val := rat_sub val bi (weight dim Ai) C in
        let* v2 := for_ 1 l (fun j v2 =>
          let* b := binomial_law mul_size l j in
          let* Aij := get A (i * stride + j) in
          let* C := get SKL ((k - i) * stride + (l - j)) in
          Ok (padd v2 (pscal (nmul b (weight dim Aij)) C))) pzero in
        Ok (psub val (pscal bi v2))) val in
      if neqb w00 n0 then Undef DivByZero else
      set SKL (k * stride + l) (fun c => ndiv (val c) w00)) SKL)
    (filled ((nu + 1) * (nv + 1)) pzero).

(** inverted_uv_poles, gbs/bssurf.h l.27-39; poles.size() / 0 is undefined *)
Definition inverted_uv_poles {A} (zero : A) (poles : list A) (n_new_u : nat) : result (list A) :=
  if n_new_u =? 0 then Undef DivByZero else
  let n_v := length poles / n_new_u in
  for_ 0 n_new_u (fun i t =>
    for_ 0 n_v (fun j t =>
      let* x := get poles (j + n_v * i) in
      set t (i + n_new_u * j) x) t) (filled (length poles) zero).

(** transpose_poles(poles), gbs/polestools.h l.15-31 *)
Definition write2 {A} (g : list (list A)) (j i : nat) (x : A) : result (list (list A)) :=
  let* row := get g j in
  let* row := set row i x in
  set g j row.
Definition transpose_poles {A} (zero : A) (poles : list (list A)) : result (list (list A)) :=
  match poles with
  | [] => Ok []
  | r0 :: _ =>
    for_ 0 (length poles) (fun i g =>
      for_ 0 (length r0) (fun j g =>
        let* row := get poles i in
        let* x := get row j in
        write2 g j i x) g) (filled (length r0) (filled (length poles) zero))
  end.

(** transpose_block, gbs/polestools.h l.44-56 *)
Definition transpose_block {A} (input : list (list A)) (startRow startCol bs : nat)
    (output : list (list A)) : result (list (list A)) :=
  let* r0 := get input 0 in
  let endRow := min (startRow + bs) (length input) in
  let endCol := min (startCol + bs) (length r0) in
  for_ startRow (endRow - startRow) (fun i g =>
    for_ startCol (endCol - startCol) (fun j g =>
      let* row := get input i in
      let* x := get row j in
      write2 g j i x) g) output.

(** for (i = 0; i < n; i += bs) st = body i st; never ends for bs = 0 < n *)
Fixpoint for_step {S : Type} (fuel i n bs : nat) (body : nat -> S -> result S) (st : S) : result S :=
  if n <=? i then Ok st else
  match fuel with
  | O => Fuel
  | Datatypes.S f => let* st := body i st in for_step f (i + bs) n bs body st
  end.

(** transpose_poles(poles, blockSize), gbs/polestools.h l.65-80 *)
Definition transpose_poles_blocked {A} (zero : A) (poles : list (list A)) (bs : nat)
  : result (list (list A)) :=
  let* r0 := get poles 0 in
  let nu := length poles in
  let nv := length r0 in
  for_step nu 0 nu bs (fun i g =>
    for_step nv 0 nv bs (fun j g => transpose_block poles i j bs g) g)
    (filled nv (filled nu zero)).

(** flatten_poles, gbs/polestools.h l.88-104 *)
Definition flatten_poles {A} (poles : list (list A)) : list A := concat poles.

(** The members of BSSurfaceGeneral, gbs/bssurf.h l.418-424 *)
Record surf := mks {
  s_degU : nat; s_degV : nat; s_poles : list (pt T); s_ku : list T; s_kv : list T;
  s_u1 : T; s_u2 : T; s_v1 : T; s_v2 : T }.

(** check_curve called with a number of poles that may have wrapped *)
Definition check_curve_z (np : Z) (knots : list T) (p : nat) : result bool :=
  let* (ks, _) := knots_and_mults knots in
  Ok (is_sorted ks && ((Z.of_nat p + 1 + np) mod size_mod =? Z.of_nat (length knots))%Z
      && (Z.of_nat p + 1 <=? np)%Z).
Definition npoles_z (k : list T) (p : nat) : Z :=
  ((Z.of_nat (length k) - Z.of_nat p - 1) mod size_mod)%Z.

(** Constructor from flat knots, gbs/bssurf.h l.436-458 *)
Definition mk_surf (poles : list (pt T)) (ku kv : list T) (p q : nat) : result surf :=
  let* u1 := front ku in
  let* u2 := back ku in
  let* v1 := front kv in
  let* v2 := back kv in
  if ((npoles_z ku p * npoles_z kv q) mod size_mod =? Z.of_nat (length poles))%Z then
    let* okU := check_curve_z (npoles_z ku p) ku p in
    if okU then
      let* okV := check_curve_z (npoles_z kv q) kv q in
      if okV then Ok (mks p q poles ku kv u1 u2 v1 v2) else Throw InvalidArgument
    else Throw InvalidArgument
  else Throw InvalidArgument.

(** Constructor from knots and multiplicities, l.460-466 *)
Definition mk_surf_mult (poles : list (pt T)) (ku kv : list T) (mu mv : list nat) (p q : nat)
  : result surf :=
  let* fu := flat_knots ku mu in
  let* fv := flat_knots kv mv in
  mk_surf poles fu fv p q.

Definition nPolesU (s : surf) : result nat := npoles (s_ku s) (s_degU s).
Definition nPolesV (s : surf) : result nat := npoles (s_kv s) (s_degV s).

(** pole(i, j), l.672-700 *)
Definition surf_pole (s : surf) (i j : nat) : result (pt T) :=
  let* n := nPolesU s in
  let id := j + i * n in
  if length (s_poles s) <=? id then Throw OutOfRangeError else get (s_poles s) id.

(** polesU(j), l.711-722: past the last row the copied range starts at or after end() *)
Definition polesU (s : surf) (j : nat) : result (list (pt T)) :=
  let* n := nPolesU s in
  let* m := nPolesV s in
  if j <? m then mapM (fun i => get (s_poles s) (j * n + i)) (seq 0 n)
  else if j * n =? length (s_poles s) then Ok (filled n pzero)
  else Undef BadIterator.

(** polesV(i), l.733-744 *)
Definition polesV (s : surf) (i : nat) : result (list (pt T)) :=
  let* n := nPolesU s in
  let* m := nPolesV s in
  mapM (fun j => get (s_poles s) (i + j * n)) (seq 0 m).

Definition with_u (s : surf) (P : list (pt T)) (k : list T) (u1 u2 : T) : surf :=
  mks (s_degU s) (s_degV s) P k (s_kv s) u1 u2 (s_v1 s) (s_v2 s).

(** insertKnotU, l.596-617 *)
Definition insertKnotU (s : surf) (u : T) (mult : nat) : result (Z * surf) :=
  let* m := nPolesV s in
  let* (ik, ku, P) := for_ 0 m (fun j st =>
    let '(_, _, acc) := st in
    let* Pj := polesU s j in
    let* (ik, k, Pj) := insert_knots u (s_degU s) mult (s_ku s) Pj in
    Ok (ik, k, acc ++ Pj)) (0%Z, [], []) in
  Ok (ik, with_u s P ku (s_u1 s) (s_u2 s)).

(** insertKnotV, l.629-652 *)
Definition insertKnotV (s : surf) (v : T) (mult : nat) : result (Z * surf) :=
  let* n := nPolesU s in
  let* (ik, kv, P) := for_ 0 n (fun i st =>
    let '(_, _, acc) := st in
    let* Pi := polesV s i in
    let* (ik, k, Pi) := insert_knots v (s_degV s) mult (s_kv s) Pi in
    Ok (ik, k, acc ++ Pi)) (0%Z, [], []) in
  let* P := inverted_uv_poles pzero P n in
  Ok (ik, mks (s_degU s) (s_degV s) P (s_ku s) kv (s_u1 s) (s_u2 s) (s_v1 s) (s_v2 s)).

(** copyPoles and movePoles, l.785-806 *)
Definition surf_copyPoles (s : surf) (P : list (pt T)) : result surf :=
  if length P =? length (s_poles s) then Ok (with_u s P (s_ku s) (s_u1 s) (s_u2 s))
  else Throw LengthError.

(** changeUBounds, changeVBounds, l.840-862 *)
Definition changeUBounds (s : surf) (a b : T) : result surf :=
  let* k := change_bounds a b (s_ku s) in
  Ok (with_u s (s_poles s) k a b).
Definition changeVBounds (s : surf) (a b : T) : result surf :=
  let* k := change_bounds a b (s_kv s) in
  Ok (mks (s_degU s) (s_degV s) (s_poles s) (s_ku s) k (s_u1 s) (s_u2 s) a b).

(** invertUV, l.909-915 *)
Definition invertUV (s : surf) : result surf :=
  let* nV := nPolesV s in
  let* P := inverted_uv_poles pzero (s_poles s) nV in
  let* u1 := front (s_kv s) in
  let* u2 := back (s_kv s) in
  let* v1 := front (s_ku s) in
  let* v2 := back (s_ku s) in
  Ok (mks (s_degV s) (s_degU s) P (s_kv s) (s_ku s) u1 u2 v1 v2).

(** Rows [j*n, j*n + n) of the pole vector, one after the other, through [f]:
    std::reverse on the range (l.936-939), copies of the range (l.968-974) *)
Definition slice (P : list (pt T)) (j n : nat) : result (list (pt T)) :=
  if j * n + n <=? length P then Ok (firstn n (skipn (j * n) P)) else Undef BadIterator.

(** reverseU, l.922-940: the poles beyond the last row (none in a valid surface) stay *)
Definition reverseU (s : surf) : result surf :=
  let* k1 := front (s_ku s) in
  let* k2 := back (s_ku s) in
  let* nU := nPolesU s in
  let* nV := nPolesV s in
  let* P := for_ 0 nV (fun j acc => let* r := slice (s_poles s) j nU in Ok (acc ++ rev r)) [] in
  Ok (with_u s (P ++ skipn (nU * nV) (s_poles s))
        (map (fun x => nsub (nadd k1 k2) x) (rev (s_ku s))) (s_u1 s) (s_u2 s)).
(** reverseV, l.947-952 *)
Definition reverseV (s : surf) : result surf :=
  let* s := invertUV s in let* s := reverseU s in invertUV s.

(** trimU, l.964-986 *)
Definition trimU (s : surf) (u1 u2 : T) : result surf :=
  let* nU := nPolesU s in
  let* nV := nPolesV s in
  let* (k, P) := for_ 0 nV (fun j st =>
    let* r := slice (s_poles s) j nU in
    let* (k, r) := trim (s_degU s) (s_ku s) r u1 u2 in
    Ok (k, snd st ++ r)) ([], []) in
  Ok (with_u s P k u1 u2).
(** trimV, l.998-1003 *)
Definition trimV (s : surf) (v1 v2 : T) : result surf :=
  let* s := invertUV s in let* s := trimU s v1 v2 in invertUV s.

(** The guards of value, derivatives and isoU/isoV, l.818-821, 1055-1058 *)
Definition out_u (s : surf) (u : T) : bool := nltb u (nsub (s_u1 s) neps) || nltb (nadd (s_u2 s) neps) u.
Definition out_v (s : surf) (v : T) : bool := nltb v (nsub (s_v1 s) neps) || nltb (nadd (s_v2 s) neps) v.

(** isoU, l.1013-1025: the copy is not checked again, the curve is *)
Definition isoU (s : surf) (u : T) : result (curve T) :=
  if out_u s u then Throw OutOfBoundsEval else
  let* (j, s') := insertKnotU s u (s_degU s) in
  if (j <? 0)%Z then Undef BadIndex else
  let* P := polesV s' (Z.to_nat j) in
  mk_curve P (s_kv s') (s_degV s').
(** isoV, l.1034-1046 *)
Definition isoV (s : surf) (v : T) : result (curve T) :=
  if out_v s v then Throw OutOfBoundsEval else
  let* (i, s') := insertKnotV s v (s_degV s) in
  if (i <? 0)%Z then Undef BadIndex else
  let* P := polesU s' (Z.to_nat i) in
  mk_curve P (s_ku s') (s_degU s').

(** BSSurface::value, l.1053-1062 *)
Definition surf_value (s : surf) (u v : T) (du dv : nat) : result (pt T) :=
  if out_u s u then Throw OutOfBoundsEval else
  if out_v s v then Throw OutOfBoundsEval else
  surf_eval u v (s_ku s) (s_kv s) (s_poles s) (s_degU s) (s_degV s) du dv.

(** BSSurfaceGeneral::derivatives, l.817-831 *)
Definition surf_derivatives (s : surf) (u v : T) (nu nv : nat) : result (list (pt T)) :=
  if out_u s u then Throw OutOfBoundsEval else
  if out_v s v then Throw OutOfBoundsEval else
  surf_ders u v (s_ku s) (s_kv s) (s_poles s) (s_degU s) (s_degV s) nu nv.
Definition surf_rational_derivatives (dim : nat) (s : surf) (u v : T) (nu nv : nat)
  : result (list (pt T)) :=
  if out_u s u then Throw OutOfBoundsEval else
  if out_v s v then Throw OutOfBoundsEval else
  surf_rational_ders dim u v (s_ku s) (s_kv s) (s_poles s) (s_degU s) (s_degV s) nu nv.

(** BSSurfaceRational::value, l.1084-1103 *)
Definition surf_rational_value (dim : nat) (s : surf) (u v : T) (du dv : nat) : result (pt T) :=
  if out_u s u then Throw OutOfBoundsEval else
  if out_v s v then Throw OutOfBoundsEval else
  if (du =? 0) && (dv =? 0) then
    let* q := surf_eval u v (s_ku s) (s_kv s) (s_poles s) (s_degU s) (s_degV s) du dv in
    Ok (weight_projection dim q)
  else
    let* SKL := surf_rational_derivatives dim s u v du dv in
    get SKL (du * (dv + 1) + dv).

End Surface.
Arguments surf : clear implicits.
