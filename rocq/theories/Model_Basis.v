(** Model of gbs/basisfunctions.ixx: knot span search, basis functions, their
    derivatives, evaluation of non-rational curves.  No proofs in this file. *)
From Coq Require Import List Arith ZArith Bool.
From Verif Require Import Model_Base.
Import ListNotations.
Local Open Scope nat_scope.

Section Basis.
Context {T : Type} `{Num T}.

(** bspline_stack_max_degree, gbs/gbsconstants.h *)
Definition stack_max : nat := 24.

(** The while loop of find_span, gbs/basisfunctions.ixx l.294-305. [fuel] bounds
    the number of iterations; running out is reported as [Fuel]. *)
Fixpoint find_span_loop (fuel : nat) (u : T) (k : list T) (low high mid : nat) : result nat :=
  match fuel with
  | O => Fuel
  | S f =>
    let* km := get k mid in
    let* go := (if nltb u km then Ok true
                else let* km1 := get k (mid + 1) in Ok (nleb km1 u)) in
    if (go : bool) then
      let low' := if nltb u km then low else mid in
      let high' := if nltb u km then mid else high in
      let next_mid := (low' + high') / 2 in
      if next_mid =? mid then Ok mid
      else find_span_loop f u k low' high' next_mid
    else Ok mid
  end.

(** find_span(n, p, u, k), gbs/basisfunctions.ixx l.275-307; the iterator returned
    is given as an index.  Fuel: one more than the knots. *)
Definition find_span (n p : nat) (u : T) (k : list T) : result nat :=
  let n_book := if 0 <? n then n - 1 else 0 in
  let* kn1 := get k (n_book + 1) in
  if nleb kn1 u then Ok n_book
  else find_span_loop (S (length k)) u k p (n_book + 1) ((p + (n_book + 1)) / 2).

(** find_span_range, gbs/basisfunctions.ixx l.310-318 *)
Definition find_span_range (n p : nat) (u : T) (k : list T) : result (nat * nat) :=
  let* i2 := find_span n p u k in
  Ok ((if p <? i2 then i2 - p else 0), i2).

(** basis_function(u, it, p, last), gbs/basisfunctions.ixx l.41-71: recursive basis
    function; [it] is the index of the iterator.  The quirk of l.56-69 is kept: a
    knot difference not above knot_eps is itself added to the result. *)
Fixpoint basis_function_rec (u : T) (it p : nat) (k : list T) : result T :=
  let* u_last := back k in
  let* ui := get k it in
  let* ui1 := get k (it + 1) in
  match p with
  | O =>
    Ok (if (nleb ui u && nltb u ui1)
           || (nltb (nabs (nsub ui1 u_last)) neps && nltb (nabs (nsub u u_last)) neps)
        then n1 else n0)
  | S q =>
    let* uip := get k (it + p) in
    let* ui1p := get k (it + (p + 1)) in
    let C1 := nsub uip ui in
    let C2 := nsub ui1p ui1 in
    let* c1 := (if nltb neps C1 then
                  let* f := divc (nsub u ui) C1 in
                  let* b := basis_function_rec u it q k in Ok (nmul f b)
                else Ok C1) in
    let* c2 := (if nltb neps C2 then
                  let* f := divc (nsub ui1p u) C2 in
                  let* b := basis_function_rec u (it + 1) q k in Ok (nmul f b)
                else Ok C2) in
    Ok (nadd c1 c2)
  end.

(** basis_function(u, it, p, d, last), gbs/basisfunctions.ixx l.86-114 *)
Fixpoint basis_function_der (u : T) (it p d : nat) (k : list T) : result T :=
  match d with
  | O => basis_function_rec u it p k
  | S e =>
    match p with
    | O => Ok n0
    | S q =>
      if p <? d then Ok n0 else
      let* ui := get k it in
      let* ui1 := get k (it + 1) in
      let* uip := get k (it + p) in
      let* ui1p := get k (it + (p + 1)) in
      let C1 := nsub uip ui in
      let C2 := nsub ui1p ui1 in
      let* c1 := (if nltb neps C1 then
                    let* b := basis_function_der u it q e k in divc b C1
                  else Ok C1) in
      let* c2 := (if nltb neps C2 then
                    let* b := basis_function_der u (it + 1) q e k in divc b C2
                  else Ok C2) in
      Ok (nmul (nofnat p) (nsub c1 c2))
    end
  end.

(** Inner loop of basis_funcs, gbs/basisfunctions.ixx l.157-162, on the state
    (N, saved). *)
Definition basis_funcs_inner (lft rgt : list (option T)) (j r : nat)
    (st : list (option T) * T) : result (list (option T) * T) :=
  let (N, saved) := st in
  let* nr := geti N r in
  let* rr := geti rgt (r + 1) in
  let* lj := geti lft (j - r) in
  let* temp := divc nr (nadd rr lj) in
  let* N := seti N r (nadd saved (nmul rr temp)) in
  Ok (N, nmul lj temp).

(** Outer loop body, gbs/basisfunctions.ixx l.152-163, on the state
    (N, lft, rgt). *)
Definition basis_funcs_outer (i : nat) (u : T) (k : list T) (j : nat)
    (st : list (option T) * list (option T) * list (option T)) :=
  let '(N, lft, rgt) := st in
  let* ij := subi (i + 1) j in
  let* kl := get k ij in
  let* lft := seti lft j (nsub u kl) in
  let* kr := get k (i + j) in
  let* rgt := seti rgt j (nsub kr u) in
  let* (N, saved) := for_ 0 j (basis_funcs_inner lft rgt j) (N, n0) in
  let* N := seti N j saved in
  Ok (N, lft, rgt).

(** basis_funcs(i, p, u, k, T* N), gbs/basisfunctions.ixx l.146-166.  [N] is the
    caller's array of bspline_stack_max_degree+1 cells (l.371, l.799). *)
Definition basis_funcs_st (i p : nat) (u : T) (k : list T) : result (list (option T)) :=
  let N := uninit (stack_max + 1) in
  let lft := uninit (stack_max + 1) in
  let rgt := uninit (stack_max + 1) in
  let* N := seti N 0 n1 in
  let* (N, _, _) := for_ 1 p (basis_funcs_outer i u k) (N, lft, rgt) in
  Ok N.

(** The first [m] cells of a stack array, read one after the other by the caller. *)
Definition read_cells {A} (m : nat) (l : list (option A)) : result (list A) :=
  mapM (geti l) (seq 0 m).

(** What the caller of basis_funcs reads back: N[0..p]. *)
Definition basis_funcs (i p : nat) (u : T) (k : list T) : result (list T) :=
  let* N := basis_funcs_st i p u k in read_cells (p + 1) N.

(** ** ders_basis_funs, gbs/basisfunctions.ixx l.178-251 *)
(** l.197-203: NDU inner loop on the state (ndu, saved). *)
Definition ndu_inner (p : nat) (lft rgt : list (option T)) (j r : nat)
    (st : list (option T) * T) : result (list (option T) * T) :=
  let (ndu, saved) := st in
  let s := p + 1 in
  let* rr := geti rgt (r + 1) in
  let* lj := geti lft (j - r) in
  let* ndu := seti ndu (j * s + r) (nadd rr lj) in
  let* a := geti ndu (r * s + (j - 1)) in
  let* b := geti ndu (j * s + r) in
  let* temp := divc a b in
  let* ndu := seti ndu (r * s + j) (nadd saved (nmul rr temp)) in
  Ok (ndu, nmul lj temp).

(** l.192-206 *)
Definition ndu_outer (i p : nat) (u : T) (k : list T) (j : nat)
    (st : list (option T) * list (option T) * list (option T)) :=
  let '(ndu, lft, rgt) := st in
  let s := p + 1 in
  let* ij := subi (i + 1) j in
  let* kl := get k ij in
  let* lft := seti lft j (nsub u kl) in
  let* kr := get k (i + j) in
  let* rgt := seti rgt j (nsub kr u) in
  let* (ndu, saved) := for_ 0 j (ndu_inner p lft rgt j) (ndu, n0) in
  let* ndu := seti ndu (j * s + j) saved in
  Ok (ndu, lft, rgt).

Definition sq_stack : nat := (stack_max + 1) * (stack_max + 1).

(** l.191-206 *)
Definition ndu_table (i p : nat) (u : T) (k : list T) : result (list (option T)) :=
  let* ndu := seti (uninit sq_stack) 0 n1 in
  let* (ndu, _, _) := for_ 1 p (ndu_outer i p u k)
                        (ndu, uninit (stack_max + 1), uninit (stack_max + 1)) in
  Ok ndu.

(** l.229-233: loop on j, state (a, d). *)
Definition ders_mid (p : nat) (ndu : list (option T)) (s1 s2 : nat) (rk pk : Z) (j : nat)
    (st : list (option T) * T) : result (list (option T) * T) :=
  let (a, d) := st in
  let s := p + 1 in
  let sz := Z.of_nat s in
  let* x := geti a (s1 * s + j) in
  let* y := (let* j1 := subi j 1 in geti a (s1 * s + j1)) in
  let* q := getz ndu ((pk + 1) * sz + (rk + Z.of_nat j))%Z in
  let* v := divc (nsub x y) q in
  let* a := seti a (s2 * s + j) v in
  let* w := getz ndu ((rk + Z.of_nat j) * sz + pk)%Z in
  Ok (a, nadd d (nmul v w)).

(** l.216-241: loop on kk for a fixed r, state (a, ders, s1, s2). *)
Definition ders_order (p r : nat) (ndu : list (option T)) (kk : nat)
    (st : list (option T) * list (option T) * nat * nat) :=
  let '(a, ders, s1, s2) := st in
  let s := p + 1 in
  let sz := Z.of_nat s in
  let rk := (Z.of_nat r - Z.of_nat kk)%Z in
  let pk := (Z.of_nat p - Z.of_nat kk)%Z in
  let* (a, d) := (if kk <=? r then
                    let* x := geti a (s1 * s + 0) in
                    let* q := getz ndu ((pk + 1) * sz + rk)%Z in
                    let* v := divc x q in
                    let* a := seti a (s2 * s + 0) v in
                    let* w := getz ndu (rk * sz + pk)%Z in
                    Ok (a, nmul v w)
                  else Ok (a, n0)) in
  let j1 := (if (-1 <=? rk)%Z then 1 else - rk)%Z in
  let j2 := (if (Z.of_nat r - 1 <=? pk)%Z then Z.of_nat kk - 1
             else Z.of_nat p - Z.of_nat r)%Z in
  let* (a, d) := for_ (Z.to_nat j1) (Z.to_nat (j2 - j1 + 1)%Z)
                   (ders_mid p ndu s1 s2 rk pk) (a, d) in
  let* (a, d) := (if (Z.of_nat r <=? pk)%Z then
                    let* x := geti a (s1 * s + (kk - 1)) in
                    let* q := getz ndu ((pk + 1) * sz + Z.of_nat r)%Z in
                    let* v := divc (nopp x) q in
                    let* a := seti a (s2 * s + kk) v in
                    let* w := getz ndu (Z.of_nat r * sz + pk)%Z in
                    Ok (a, nadd d (nmul v w))
                  else Ok (a, d)) in
  let* ders := seti ders (kk * s + r) d in
  Ok (a, ders, s2, s1).

(** l.212-242: loop on r; the array [a] is shared by all r. *)
Definition ders_row (p n : nat) (ndu : list (option T)) (r : nat)
    (st : list (option T) * list (option T)) :=
  let (a, ders) := st in
  let* a := seti a (0 * (p + 1) + 0) n1 in
  let* (a, ders, _, _) := for_ 1 n (ders_order p r ndu) (a, ders, 0, 1) in
  Ok (a, ders).

(** l.250-251: ders[kk*(p+1)+j] *= fac *)
Definition ders_scale_cell (p kk : nat) (fac : T) (j : nat) (ders : list (option T)) :=
  let* x := geti ders (kk * (p + 1) + j) in
  seti ders (kk * (p + 1) + j) (nmul x fac).
(** l.247-253: T(p - kk) is computed on size_t; kk <= n <= p at every call. *)
Definition ders_scale (p kk : nat) (st : list (option T) * T) :=
  let (ders, fac) := st in
  let* ders := for_ 0 (p + 1) (ders_scale_cell p kk fac) ders in
  let* pk := subi p kk in
  Ok (ders, nmul fac (nofnat pk)).

(** ders_basis_funs(i, p, n, u, k, T* ders), gbs/basisfunctions.ixx l.178-254;
    [ders] is the caller's (24+1)*(24+1) array (l.269, l.418, l.476). *)
Definition ders_basis_funs_st (i p n : nat) (u : T) (k : list T) : result (list (option T)) :=
  let s := p + 1 in
  let* ndu := ndu_table i p u k in
  let* ders := for_ 0 (p + 1)
      (fun j ders => let* x := geti ndu (j * s + p) in seti ders j x) (uninit sq_stack) in
  let* (_, ders) := for_ 0 (p + 1) (ders_row p n ndu) (uninit (2 * (stack_max + 1)), ders) in
  let* (ders, _) := for_ 1 n (ders_scale p) (ders, nofnat p) in
  Ok ders.

(** What callers read back: the (n+1) x (p+1) cells. *)
Definition ders_basis_funs (i p n : nat) (u : T) (k : list T) : result (list T) :=
  let* ders := ders_basis_funs_st i p n u k in read_cells ((n + 1) * (p + 1)) ders.

(** basis_ders, gbs/basisfunctions.ixx l.263-276 *)
Definition basis_ders (i p d : nat) (u : T) (k : list T) : result (list T) :=
  if d =? 0 then basis_funcs i p u k
  else
    let* ders := ders_basis_funs_st i p d u k in
    mapM (fun j => geti ders (d * (p + 1) + j)) (seq 0 (p + 1)).

(** basis_function(u, i, p, d, k), gbs/basisfunctions.ixx l.331-335 *)
Definition basis_function (u : T) (i p d : nat) (k : list T) : result T :=
  basis_function_der u i p d k.

(** eval_value_decasteljau (curve), gbs/basisfunctions.ixx l.350-392; the flag
    use_span_reduction is ignored by the code and lft out. *)
Definition eval_value (u : T) (k : list T) (poles : list (pt T)) (p d : nat) : result (pt T) :=
  if p <? d then Ok pzero else
  let n_poles := length poles in
  let* i := find_span n_poles p u k in
  let i_min := if p <=? i then i - p else 0 in
  if p <=? stack_max then
    let* Nd := basis_ders i p d u k in
    for_ 0 (p + 1) (fun r acc =>
      let* N := get Nd r in
      let* pole := get poles (i_min + r) in
      Ok (padd acc (pscal N pole))) pzero
  else
    for_ i_min (i + 1 - i_min) (fun ip acc =>
      let* N := basis_function u ip p d k in
      let* pole := get poles ip in
      Ok (padd acc (pscal N pole))) pzero.

(** eval_ders_decasteljau, gbs/basisfunctions.ixx l.405-440: C^(kk)(u) for kk in
    0..n.  The order of the two loops over (kk, r) is kept. *)
Definition eval_ders (u : T) (k : list T) (poles : list (pt T)) (p n : nat)
  : result (list (pt T)) :=
  let CK := filled (n + 1) pzero in
  let du := min n p in
  let n_poles := length poles in
  let* i := find_span n_poles p u k in
  let i_min := if p <=? i then i - p else 0 in
  if p <=? stack_max then
    let* ders := ders_basis_funs_st i p du u k in
    for_ 0 (du + 1) (fun kk CK =>
      for_ 0 (p + 1) (fun r CK =>
        let* N := geti ders (kk * (p + 1) + r) in
        let* pole := get poles (i_min + r) in
        let* c := get CK kk in
        set CK kk (padd c (pscal N pole))) CK) CK
  else
    for_ 0 (du + 1) (fun kk CK =>
      for_ i_min (i + 1 - i_min) (fun ip CK =>
        let* N := basis_function u ip p kk k in
        let* pole := get poles ip in
        let* c := get CK kk in
        set CK kk (padd c (pscal N pole))) CK) CK.

End Basis.
