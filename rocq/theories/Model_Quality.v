(** Further quality measures of a face, inc/topology/halfEdgeMeshQuality.h.  The surface is the
    function [srf] from its parameter plane, the square root is [root].  DistanceMeshSurface
    (l.85-146) indexes a std::list and calls functions that do not exist, so it cannot be
    instantiated and is left out.  Arithmetic is exact.  No proofs in this file. *)
From Coq Require Import List Arith Bool.
From Verif Require Import Model_Base Model_Vec Model_Knots Model_Mesh Model_Geom Model_Tess Model_Refine.
Import ListNotations.

Section Quality.
Context {T : Type} `{Num T}.
Notation mesh := (heap (p2 T)).
Variable root : T -> T.

(** getTriangleCoords, halfEdgeMeshGetters.h l.214-222 *)
Definition getTriangleCoords (h : mesh) (f : nat) : result (p2 T * p2 T * p2 T) :=
  let* fe := get_f h f in
  let* e := deref fe in
  let* en := next_of h e in
  let* a := end_coords h en in
  let* b := end_coords h e in
  let* ep := prev_of h e in
  let* c := end_coords h ep in
  Ok (a, b, c).

(** MaxEdgeSizeSurface, halfEdgeMeshQuality.h l.354-380 *)
Definition MaxEdgeSizeSurface (dim : nat) (srf : p2 T -> result (pt T)) : quality T := fun h f =>
  let* es := iter_edges h f in
  let* l := mapM (fun e =>
    let* r := get_e h e in
    match he_opp r with
    | Some _ =>
      let* b := end_coords h e in
      let* q := srf b in
      let* a := start_coords h e in
      let* p := srf a in
      let* m := edge_midpoint h e in
      Ok (sq_norm dim (psub q p), m)
    | None => Ok (n0, (n0, n0))
    end) es in
  worst_pair l.

(** DistanceMeshSurface3, l.576-636; the sum of the corners is in the order of the list, where
    std::reduce is free *)
Definition plus2 (a b : p2 T) : p2 T := (nadd (fst a) (fst b), nadd (snd a) (snd b)).
Definition times2 (s : T) (a : p2 T) : p2 T := (nmul s (fst a), nmul s (snd a)).
Definition DistanceMeshSurface3 (dim : nat) (srf : p2 T -> result (pt T)) : quality T := fun h f =>
  let* cs := getFaceCoords h f in
  let* es := getFaceEdges h f in
  let* inv := divc n1 (nofnat (length cs)) in
  let mid_uv := times2 inv (fold_left plus2 cs (n0, n0)) in
  let* s := foldM (fun m x => let* p := srf x in Ok (padd m p)) pzero cs in
  let mid := pscal inv s in
  let* l := mapM (fun e =>
    let* r := get_e h e in
    match he_opp r with
    | Some _ =>
      let* p1_uv := start_coords h e in
      let* p2_uv := end_coords h e in
      let m_uv := plus2 p1_uv (times2 half (nsub (fst p2_uv) (fst p1_uv), nsub (snd p2_uv) (snd p1_uv))) in
      let* p1 := srf p1_uv in
      let* p2 := srf p2_uv in
      let m := padd p1 (pscal half (psub p2 p1)) in
      let* q := srf m_uv in
      Ok (norm root dim (psub m q), m_uv)
    | None => Ok (n0, (n0, n0))
    end) es in
  let* q := srf mid_uv in
  worst_pair (l ++ [(norm root dim (psub mid q), mid_uv)]).

(** The smallest and the largest number of a vector, through std::minmax_element *)
Definition least_of (l : list T) : result T :=
  match l with [] => Undef BadIterator | a :: l => Ok (fold_left (fun b x => if nltb x b then x else b) l a) end.
Definition largest_of (l : list T) : result T :=
  match l with [] => Undef BadIterator | a :: l => Ok (fold_left (fun b x => if nltb x b then b else x) l a) end.
Definition three : T := nadd (nadd n1 n1) n1.
Definition centroid (a b c : p2 T) : result (p2 T) :=
  let* i := divc n1 three in Ok (times2 i (plus2 (plus2 a b) c)).
(** TriangleShape, l.461-504, in the plane; [lowest] is std::numeric_limits<T>::lowest() *)
Definition TriangleShape (lowest min_edge_length : T) : quality T := fun h f =>
  let* es := iter_edges h f in
  let* l := mapM (edge_sq_length h) es in
  let* mn := least_of l in
  let* mx := largest_of l in
  let* (a, b, c) := getTriangleCoords h f in
  let* g := centroid a b c in
  if nltb (root mx) min_edge_length then Ok (lowest, g) else
  let* q := divc mx mn in
  Ok (root q, g).

(** TriangleShape2, l.506-538, in the plane *)
Definition sin60_gap (sin60 : T) (a b c : p2 T) : T :=
  nabs (nsub sin60 (nabs (nadd (nmul (nsub (fst b) (fst a)) (nsub (fst c) (fst a)))
                               (nmul (nsub (snd b) (snd a)) (nsub (snd c) (snd a)))))).
Definition larger (x y : T) : T := if nltb x y then y else x.
Definition TriangleShape2 : quality T := fun h f =>
  let* (a, b, c) := getTriangleCoords h f in
  let sin60 := nmul (root three) half in
  let m := larger (sin60_gap sin60 a b c) (larger (sin60_gap sin60 b a c) (sin60_gap sin60 c b a)) in
  let* g := centroid a b c in
  Ok (m, g).

(** DeviationMeshSurface, l.271-310, on a surface of space: [du] and [dv] are the calls
    srf(uv,1,0) and srf(uv,0,1); the centroid of the images, l.297, is not used *)
Definition DeviationMeshSurface (srf du dv : p2 T -> result (pt T)) : quality T := fun h f =>
  let* (uv1, uv2, uv3) := getTriangleCoords h f in
  let* v1 := srf uv1 in
  let* v2 := srf uv2 in
  let* v3 := srf uv3 in
  let* g := centroid uv1 uv2 uv3 in
  let* tri_normal := adim root 3 (cross (psub v2 v1) (psub v3 v1)) in
  let* a := du g in
  let* b := dv g in
  let* srf_normal := adim root 3 (cross a b) in
  Ok (norm root 3 (psub tri_normal srf_normal), g).

(** Surface::tangent, gbs/bssurf.h l.231-234 *)
Definition tangent (du dv : p2 T -> result (pt T)) (x d : p2 T) : result (pt T) :=
  let* a := du x in
  let* b := dv x in
  Ok (padd (pscal (fst d) a) (pscal (snd d) b)).
(** DeviationMeshSurface2, l.312-352 *)
Definition DeviationMeshSurface2 (du dv : p2 T -> result (pt T)) : quality T := fun h f =>
  let* es := iter_edges h f in
  let* l := mapM (fun e =>
    let* r := get_e h e in
    match he_opp r with
    | Some _ =>
      let* p1_uv := start_coords h e in
      let* p2_uv := end_coords h e in
      let delta := (nsub (fst p2_uv) (fst p1_uv), nsub (snd p2_uv) (snd p1_uv)) in
      let mid_uv := plus2 p1_uv (times2 half delta) in
      let* v1 := tangent du dv p1_uv delta in
      let* v2 := tangent du dv p2_uv delta in
      let* dev := divc (norm root 3 (cross v1 v2)) (nmul (norm root 3 v1) (norm root 3 v2)) in
      Ok (dev, mid_uv)
    | None => Ok (n0, (n0, n0))
    end) es in
  worst_pair l.
End Quality.
