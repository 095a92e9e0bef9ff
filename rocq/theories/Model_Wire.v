(** Model of the wires of inc/topology: vertex.h, edge.h and wire.h.  Vertices and edges are
    shared objects: a vertex is its index in the list of vertices, an edge its index in the
    list of edges.  The curve of an edge appears through its bounds and through
    extrema_curve_point (a numerical minimisation), which is the argument [project].
    Not modelled: Wire::close, which does not compile when used (it applies -> twice), and
    tessellate.  No proofs in this file. *)
From Coq Require Import List Arith Bool.
From Verif Require Import Model_Base Model_Vec.
Import ListNotations.
Local Open Scope nat_scope.

(** class Edge, inc/topology/edge.h l.23-34, and the tolerance of BaseTopo,
    inc/topology/basetopo.h l.9-16 *)
Record edge (T : Type) := mke { e_curve : nat; e_v1 : nat; e_v2 : nat; e_u1 : T; e_u2 : T; e_tol : T }.
Arguments mke {T}. Arguments e_curve {T}. Arguments e_v1 {T}. Arguments e_v2 {T}.
Arguments e_u1 {T}. Arguments e_u2 {T}. Arguments e_tol {T}.
(** The vertices (their points, inc/topology/vertex.h) and edges that exist. *)
Record topo (T : Type) := mkt { t_points : list (pt T); t_edges : list (edge T) }.
Arguments mkt {T}. Arguments t_points {T}. Arguments t_edges {T}.
(** class Wire, inc/topology/wire.h l.14-17 *)
Record wire (T : Type) := mkw { w_edges : list nat; w_tol : T }.
Arguments mkw {T}. Arguments w_edges {T}. Arguments w_tol {T}.

Section Wire.
Context {T : Type} `{Num T}.
Variable sqrtf : T -> T.
Variable dim : nat.
(** extrema_curve_point(curve, point, knot_eps), gbs/extrema.h l.71-79: parameter and
    distance of the closest point *)
Variable project : nat -> pt T -> T * T.
(** bounds() of the curve *)
Variable bounds : nat -> T * T.

(** distance, gbs/vecop.ixx l.199-210 *)
Definition distance (a b : pt T) : T := norm sqrtf dim (psub a b).

(** setVertex1, inc/topology/edge.h l.138-152 *)
Definition set_vertex1 (h : topo T) (ed vtx : nat) : result (bool * topo T) :=
  let* e := get (t_edges h) ed in
  let* p := get (t_points h) vtx in
  let (u, d) := project (e_curve e) p in
  if nltb (e_tol e) d then Ok (false, h) else
  let (lo, hi) := bounds (e_curve e) in
  let u1 := if nltb (nabs (nsub u hi)) neps then lo else u in
  let* es := set (t_edges h) ed (mke (e_curve e) vtx (e_v2 e) u1 (e_u2 e) (e_tol e)) in
  Ok (true, mkt (t_points h) es).

(** setVertex2, inc/topology/edge.h l.154-168 *)
Definition set_vertex2 (h : topo T) (ed vtx : nat) : result (bool * topo T) :=
  let* e := get (t_edges h) ed in
  let* p := get (t_points h) vtx in
  let (u, d) := project (e_curve e) p in
  if nltb (e_tol e) d then Ok (false, h) else
  let (lo, hi) := bounds (e_curve e) in
  let u2 := if nltb (nabs (nsub u lo)) neps then hi else u in
  let* es := set (t_edges h) ed (mke (e_curve e) (e_v1 e) vtx (e_u1 e) u2 (e_tol e)) in
  Ok (true, mkt (t_points h) es).

(** vertex1() and vertex2() of the wire, inc/topology/wire.h l.205-215 *)
Definition wire_vertex1 (h : topo T) (w : wire T) : result nat :=
  let* f := front (w_edges w) in let* e := get (t_edges h) f in Ok (e_v1 e).
Definition wire_vertex2 (h : topo T) (w : wire T) : result nat :=
  let* b := back (w_edges w) in let* e := get (t_edges h) b in Ok (e_v2 e).

(** isClosed, inc/topology/wire.h l.217-228: the pointers are compared *)
Definition is_closed (h : topo T) (w : wire T) : result bool :=
  if length (w_edges w) =? 0 then Ok false else
  let* v1 := wire_vertex1 h w in
  let* v2 := wire_vertex2 h w in
  Ok (v1 =? v2).

(** Wire(shared_ptr<Edge>), inc/topology/wire.h l.118-122 with fuseVertex2 l.99-110 *)
Definition new_wire (tol : T) (h : topo T) (ed : nat) : result (topo T * wire T) :=
  let w := mkw [ed] tol in
  let* v1 := wire_vertex1 h w in
  let* e := get (t_edges h) ed in
  let* p := get (t_points h) v1 in
  let* q := get (t_points h) (e_v2 e) in
  if nltb (distance p q) tol then
    let* (_, h) := set_vertex2 h ed v1 in
    Ok (h, w)
  else Ok (h, w).

(** addEdge(shared_ptr<Edge>), inc/topology/wire.h l.124-172 *)
Definition add_edge (h : topo T) (w : wire T) (ed : nat) : result (bool * topo T * wire T) :=
  if length (w_edges w) =? 0 then Ok (true, h, mkw (w_edges w ++ [ed]) (w_tol w)) else
  let* cl := is_closed h w in
  if cl then Ok (false, h, w) else
  let* v1 := wire_vertex1 h w in
  let* v2 := wire_vertex2 h w in
  let* e := get (t_edges h) ed in
  if v1 =? e_v2 e then Ok (true, h, mkw (ed :: w_edges w) (w_tol w))
  else if v2 =? e_v1 e then Ok (true, h, mkw (w_edges w ++ [ed]) (w_tol w))
  else
    let* p2 := get (t_points h) v2 in
    let* q1 := get (t_points h) (e_v1 e) in
    let* (added, h, w) :=
      if nltb (distance p2 q1) (w_tol w) then
        let* (_, h) := set_vertex1 h ed v2 in
        Ok (true, h, mkw (w_edges w ++ [ed]) (w_tol w))
      else Ok (false, h, w) in
    let* v1 := wire_vertex1 h w in
    let* e := get (t_edges h) ed in
    let* p1 := get (t_points h) v1 in
    let* q2 := get (t_points h) (e_v2 e) in
    if nltb (distance p1 q2) (w_tol w) then
      let* (_, h) := set_vertex2 h ed v1 in
      if added then Ok (true, h, w)
      else Ok (true, h, mkw (ed :: w_edges w) (w_tol w))
    else Ok (added, h, w).

(** A sequence of addEdge calls; the answers are collected. *)
Fixpoint add_edges (h : topo T) (w : wire T) (l : list nat) : result (list bool * topo T * wire T) :=
  match l with
  | [] => Ok ([], h, w)
  | ed :: rest =>
    let* (b, h, w) := add_edge h w ed in
    let* (bs, h, w) := add_edges h w rest in
    Ok (b :: bs, h, w)
  end.

(** addEdge(const Edge&), inc/topology/wire.h l.174-179: a copy of the edge is added *)
Definition add_edge_copy (h : topo T) (w : wire T) (e : edge T) : result (bool * topo T * wire T) :=
  add_edge (mkt (t_points h) (t_edges h ++ [e])) w (length (t_edges h)).
End Wire.
