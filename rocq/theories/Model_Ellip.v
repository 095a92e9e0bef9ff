(** Moving the nodes of grids and meshes: /repo/gbs-mesh/smoothing.h,
    /repo/inc/topology/halfEdgeMeshSmoothing.h, getNeighboringVertices of
    /repo/inc/topology/halfEdgeMeshGetters.h and the Python binding of the former in
    /repo/python/gbsbindmesh.cpp.  Arithmetic is exact.  No proofs in this file. *)
From Coq Require Import List Arith Bool.
From Verif Require Import Model_Base Model_Mesh Model_Geom.
Import ListNotations.

Section Ellip.
Context {T : Type} `{Num T}.
Local Open Scope nat_scope.
Let two : T := nadd n1 n1.

(** X of elliptic_structured_smoothing, gbs-mesh/smoothing.h l.15-18: node (i, j) of a grid
    of rows of nj nodes, both coordinates at once *)
Definition node_at (pts : list (p2 T)) (nj i j : nat) : result (p2 T) := get pts (j + nj * i).

(** f of elliptic_structured_smoothing, l.21-28, for one coordinate: the neighbours in the
    four directions and the four corners, [ip] standing for i + 1 and [im] for i - 1 *)
Definition relax (a b c dk de : T) (ip im jp jm pp pm mm mp : T) : result T :=
  let* a1 := divc a dk in let* a2 := divc a1 dk in
  let* c1 := divc c de in let* c2 := divc c1 de in
  let* b1 := divc b two in let* b2 := divc b1 dk in let* b3 := divc b2 de in
  let s := nsub (nadd (nmul a2 (nadd ip im)) (nmul c2 (nadd jp jm)))
                (nmul b3 (nsub (nadd (nsub pp pm) mm) mp)) in
  let* s1 := divc s two in
  divc s1 (nadd a2 c2).

(** What node (i, j) becomes, l.40-49.  The steps d_ksi and d_eth are computed once before the
    loops there; a division by zero in them matters only if a node is moved.  i and j are at
    least 1, so that i - 1 and j - 1 do not wrap. *)
Definition moved (pts : list (p2 T)) (ni nj i j : nat) : result (p2 T) :=
  let* dk := divc n1 (nsub (nofnat ni) n1) in
  let* de := divc n1 (nsub (nofnat nj) n1) in
  let* ip := node_at pts nj (i + 1) j in
  let* im := node_at pts nj (i - 1) j in
  let* jp := node_at pts nj i (j + 1) in
  let* jm := node_at pts nj i (j - 1) in
  let* x_ksi := divc (nsub (fst ip) (fst im)) (nmul two dk) in
  let* y_ksi := divc (nsub (snd ip) (snd im)) (nmul two dk) in
  let* x_eth := divc (nsub (fst jp) (fst jm)) (nmul two de) in
  let* y_eth := divc (nsub (snd jp) (snd jm)) (nmul two de) in
  let a := nadd (nmul x_eth x_eth) (nmul y_eth y_eth) in
  let b := nadd (nmul x_ksi x_eth) (nmul y_ksi y_eth) in
  let c := nadd (nmul x_ksi x_ksi) (nmul y_ksi y_ksi) in
  let* pp := node_at pts nj (i + 1) (j + 1) in
  let* pm := node_at pts nj (i + 1) (j - 1) in
  let* mm := node_at pts nj (i - 1) (j - 1) in
  let* mp := node_at pts nj (i - 1) (j + 1) in
  let* x := relax a b c dk de (fst ip) (fst im) (fst jp) (fst jm) (fst pp) (fst pm) (fst mm) (fst mp) in
  let* y := relax a b c dk de (snd ip) (snd im) (snd jp) (snd jm) (snd pp) (snd pm) (snd mm) (snd mp) in
  Ok (x, y).

(** The body of the two loops, l.38-58: it reads pts and writes pts_; the state is pts_ and
    err_max *)
Definition move_node (pts : list (p2 T)) (ni nj i j : nat) (st : list (p2 T) * T) : result (list (p2 T) * T) :=
  let* q := moved pts ni nj i j in
  let* pts_ := set (fst st) (j + nj * i) q in
  let* p := node_at pts nj i j in
  let err := nadd (nabs (nsub (fst q) (fst p))) (nabs (nsub (snd q) (snd p))) in
  Ok (pts_, nmax (snd st) err).

(** One pass of the do loop, l.35-60: i from i1 + 1 to i2 - 1, j from j1 + 1 to j2 - 1 *)
Definition sweep (pts : list (p2 T)) (ni nj i1 i2 j1 j2 : nat) (pts_ : list (p2 T)) : result (list (p2 T) * T) :=
  for_ (i1 + 1) (i2 - (i1 + 1)) (fun i st =>
    for_ (j1 + 1) (j2 - (j1 + 1)) (fun j st => move_node pts ni nj i j st) st) (pts_, n0).

(** The do loop, l.33-64: after each pass the two arrays are swapped.  [more] is how many
    further passes n_it allows. *)
Fixpoint sweeps (more : nat) (pts pts_ : list (p2 T)) (ni nj i1 i2 j1 j2 : nat) (tol : T) (it : nat)
  : result (list (p2 T) * nat * T) :=
  let* (q, err) := sweep pts ni nj i1 i2 j1 j2 pts_ in
  match more with
  | O => Ok (q, S it, err)
  | S more => if nltb tol err then sweeps more q pts ni nj i1 i2 j1 j2 tol (S it) else Ok (q, S it, err)
  end.
(** elliptic_structured_smoothing, l.6-66: the points left in pts, and the pair returned *)
Definition elliptic_structured_smoothing (pts : list (p2 T)) (nj i1 i2 j1 j2 n_it : nat) (tol : T)
  : result (list (p2 T) * nat * T) :=
  if nj =? 0 then Undef DivByZero else
  sweeps (n_it - 1) pts pts (length pts / nj) nj i1 i2 j1 j2 tol 0.

(** The Python function of the same name, python/gbsbindmesh.cpp l.192-197: the tolerance is
    given in the place of the number of iterations, and the default tolerance 1e-4 is used.
    [to_size] is the conversion of a double to size_t. *)
Definition elliptic_structured_smoothing_py (to_size : T -> nat) (pts : list (p2 T)) (nj i1 i2 j1 j2 n_it : nat) (tol : T)
  : result (list (p2 T)) :=
  let* (q, _, _) := elliptic_structured_smoothing pts nj i1 i2 j1 j2 (to_size tol)
                      (ndiv n1 (nmul (nofnat 100) (nofnat 100))) in
  Ok q.

(** The first loop of getNeighboringVertices, halfEdgeMeshGetters.h l.425-434.  The second
    component says that it met a half-edge without opposite.  A walk longer than the number
    of half-edges never ends. *)
Fixpoint ring_back (fuel : nat) (h : heap (p2 T)) (start e : nat) (acc : list ptr) : result (list ptr * bool) :=
  match fuel with
  | O => Fuel
  | S k =>
    let* r := get_e h e in
    match he_opp r with
    | None => Ok (acc, true)
    | Some o =>
      let* c := prev_of h o in
      let* rc := get_e h c in
      let acc := he_vertex rc :: acc in
      if c =? start then Ok (acc, false) else ring_back k h start c acc
    end
  end.
(** The second loop, l.439-447 *)
Fixpoint ring_forth (fuel : nat) (h : heap (p2 T)) (start e : nat) (acc : list ptr) : result (list ptr) :=
  match fuel with
  | O => Fuel
  | S k =>
    let* x := next_of h e in
    let* rx := get_e h x in
    match he_opp rx with
    | None => Ok acc
    | Some c =>
      let* rc := get_e h c in
      let acc := acc ++ [he_vertex rc] in
      if c =? start then Ok acc else ring_forth k h start c acc
    end
  end.
(** getNeighboringVertices, l.419-451 *)
Definition getNeighboringVertices (h : heap (p2 T)) (v : nat) : result (list ptr) :=
  let* r := get_v h v in
  let* start := deref (hv_edge r) in
  let* (acc, opened) := ring_back (length (h_e h)) h start start [] in
  if (opened : bool) then ring_forth (length (h_e h)) h start start acc else Ok acc.

(** laplacian_smoothing, halfEdgeMeshSmoothing.h l.7-17, in the plane *)
Definition laplacian_smoothing (h : heap (p2 T)) (v : nat) : result (heap (p2 T)) :=
  let* ns := getNeighboringVertices h v in
  let* cs := mapM (fun p => let* i := deref p in let* r := get_v h i in Ok (hv_coords r)) ns in
  let s := fold_left (fun s X => (nadd (fst s) (fst X), nadd (snd s) (snd X))) cs (n0, n0) in
  let* x := divc (fst s) (nofnat (length ns)) in
  let* y := divc (snd s) (nofnat (length ns)) in
  let* r := get_v h v in
  put_v h v (mkhv (x, y) (hv_edge r)).
End Ellip.
