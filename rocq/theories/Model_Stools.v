(** Model of the surface tools of gbs/bsstools.h: join, split, extensions to a curve and by a
    length.  No proofs in this file.

    Simplifications, valid for the whole file: polynomial surfaces and curves (rational =
    false); [norm] is the Euclidean norm of gbs/vecop.ixx; [lu] and [ldlt] are the linear
    solvers of Model_Interp; the asserts of the split functions are compiled out. *)
From Coq Require Import List Arith Bool.
From Verif Require Import Model_Base Model_Knots Model_Basis Model_Curve Model_Surface Model_Interp Model_Elevate Model_Gordon Model_Connect.
Import ListNotations.
Local Open Scope nat_scope.

Section Stools.
Context {T : Type} `{Num T}.

(** The copies taken by join, l.179-180, and extended, l.376, 386 and 397: the constructor checks and resets the bounds *)
Definition as_bssurf (s : surf T) : result (surf T) :=
  mk_surf (s_poles s) (s_ku s) (s_kv s) (s_degU s) (s_degV s).

(** The comparison of the v knots, l.184-192 *)
Definition same_v_knots (k1 k2 : list T) : result unit :=
  if length k2 =? length k1 then
    for_ 0 (length k2) (fun i _ =>
      let* a := get k2 i in
      let* b := get k1 i in
      if nltb neps (nabs (nsub a b)) then Throw RuntimeError else Ok tt) tt
  else Throw RuntimeError.

(** join of two surfaces along u, l.174-240 *)
Definition surf_join (s1 s2 : surf T) : result (surf T) :=
  let* s1 := as_bssurf s1 in
  let* s2 := as_bssurf s2 in
  let* s1 := elevate_to increaseDegreeU (s_degU s1) (s_degU s2) s1 in
  let* s2 := elevate_to increaseDegreeU (s_degU s2) (s_degU s1) s2 in
  let* _ := same_v_knots (s_kv s1) (s_kv s2) in
  let* nu := nPolesU s1 in
  let* nv := nPolesV s1 in
  let* nu2 := nPolesU s2 in
  let* P := for_ 0 nv (fun i acc =>
      let* a := slice (s_poles s1) i nu in
      let* b := slice (s_poles s2) i nu2 in
      match b with
      | [] => Undef BadIterator
      | _ :: b' => Ok (acc ++ a ++ b')
      end) [] in
  let* e := back (s_ku s1) in
  let* b := front (s_ku s2) in
  let dk := nsub e b in
  let k2 := map (fun x => nadd x dk) (s_ku s2) in
  if length k2 <? s_degU s2 + 1 then Undef BadIterator else
  mk_surf P (removelast (s_ku s1) ++ skipn (s_degU s2 + 1) k2) (s_kv s1) (s_degU s1) (s_degV s1).

(** split_u, l.249-265, and split_v, l.274-290 *)
Definition split_u (s : surf T) (u : T) : result (surf T * surf T) :=
  let* a := trimU s (s_u1 s) u in
  let* b := trimU s u (s_u2 s) in
  Ok (a, b).
Definition split_v (s : surf T) (v : T) : result (surf T * surf T) :=
  let* a := trimV s (s_v1 s) v in
  let* b := trimV s v (s_v2 s) in
  Ok (a, b).

(** The parameter length of the extension, l.134-144: the mean of distance / speed over np
    parameters *)
Definition mean_extension (norm : pt T -> T) (s : surf T) (c : curve T) (np : nat) : result T :=
  let* v1 := front (s_kv s) in
  let* v2 := back (s_kv s) in
  let* u2 := back (s_ku s) in
  for_ 0 np (fun i du =>
    let* x := divc (nmul (nsub v2 v1) (nofnat i)) (nsub (nofnat np) n1) in
    let v := nadd v1 x in
    let* t := surf_value s u2 v 1 0 in
    let* a := surf_value s u2 v 0 0 in
    let* b := value c v 0 in
    let* x := divc (norm (psub a b)) (norm t) in
    let* x := divc x (nofnat np) in
    Ok (nadd du x)) n0.

(** The extension row by row up to u_new, l.145-171: the degree and the knots are those of
    the first row.  A curve with less poles than the surface has rows is read out of bounds. *)
Definition extention_to_curve_at (lu : solver) (dim : nat) (s : surf T) (c : curve T) (u2 u_new : T)
    (natural : bool) (max_cont : option nat) : result (surf T) :=
  let* nu := nPolesU s in
  let* nv := nPolesV s in
  let* (P, pk) := for_ 0 nv (fun i st =>
      let* row := slice (s_poles s) i nu in
      let* iso := mk_curve row (s_ku s) (s_degU s) in
      let* q := get (c_poles c) i in
      let* e := extention_to_point_at lu dim iso q u2 u_new natural max_cont in
      Ok (fst st ++ c_poles e, if i =? 0 then Some (c_deg e, c_knots e) else snd st)) ([], None) in
  match pk with
  | None => Undef Uninit
  | Some (p, k) => mk_surf P k (s_kv s) p (s_degV s)
  end.

(** extention_to_curve, l.119-171; np = 100 in the program *)
Definition extention_to_curve (lu : solver) (norm : pt T -> T) (dim np : nat) (s : surf T) (c : curve T)
    (natural : bool) (max_cont : option nat) : result (surf T) :=
  let* u2 := back (s_ku s) in
  let* du := mean_extension norm s c np in
  extention_to_curve_at lu dim s c u2 (nadd u2 du) natural max_cont.

(** extended_to_curve, l.293-298 *)
Definition extended_to_curve (lu : solver) (norm : pt T -> T) (dim np : nat) (s : surf T) (c : curve T)
    (natural : bool) (max_cont : option nat) : result (surf T) :=
  let* e := extention_to_curve lu norm dim np s c natural max_cont in
  surf_join s e.

(** The curve at the distance l of the end of a surface, l.300-321 *)
Definition offset_curve (ldlt : solver) (norm : pt T -> T) (dim : nat) (s : surf T) (l : T) : result (curve T) :=
  let* nv := nPolesV s in
  let np := nv * 10 in
  let u2 := s_u2 s in
  let* vs := mapM (fun i =>
      let* x := divc (nmul (nsub (s_v2 s) (s_v1 s)) (nofnat i)) (nsub (nofnat np) n1) in
      Ok (nadd (s_v1 s) x)) (seq 0 np) in
  let* pts := mapM (fun v =>
      let* q := surf_value s u2 v 0 0 in
      let* t := surf_value s u2 v 1 0 in
      let* t := pdiv t (norm t) in
      Ok (padd q (pscal l t))) vs in
  approx_bound_fixed ldlt dim pts (s_degV s) nv vs (s_kv s).

(** extended(srf, l_ext), l.325-330 *)
Definition surf_extended (lu ldlt : solver) (norm : pt T -> T) (dim np : nat) (s : surf T) (l : T)
    (natural : bool) (max_cont : option nat) : result (surf T) :=
  let* c := offset_curve ldlt norm dim s l in
  extended_to_curve lu norm dim np s c natural max_cont.

(** enum class SurfaceBound, l.332, and extended(srf, l_ext, location), l.367-408 *)
Inductive surface_bound := UStart | UEnd | VStart | VEnd.
Definition surf_extended_at (lu ldlt : solver) (norm : pt T -> T) (dim np : nat) (s : surf T) (l : T)
    (location : surface_bound) (natural : bool) (max_cont : option nat) : result (surf T) :=
  match location with
  | UEnd => surf_extended lu ldlt norm dim np s l natural max_cont
  | UStart =>
    let* s := as_bssurf s in
    let* s := reverseU s in
    let* e := surf_extended lu ldlt norm dim np s l natural max_cont in
    reverseU e
  | VStart =>
    let* s := as_bssurf s in
    let* s := invertUV s in
    let* s := reverseU s in
    let* e := surf_extended lu ldlt norm dim np s l natural max_cont in
    let* e := reverseU e in
    invertUV e
  | VEnd =>
    let* s := as_bssurf s in
    let* s := invertUV s in
    let* e := surf_extended lu ldlt norm dim np s l natural max_cont in
    invertUV e
  end.
End Stools.
