(** Model of gbs-mesh/mshedge.h: the distribution of points along an edge.  The sparse solver
    and the length of a piece of the curve are arguments.  No proofs in this file. *)
From Coq Require Import List Arith Bool.
From Verif Require Import Model_Base Model_Knots Model_Curve Model_Vec Model_Math Model_Wrap Model_Interp Model_Analysis Model_Tfi.
Import ListNotations.
Local Open Scope nat_scope.

Section MshEdge.
Context {T : Type} `{Num T}.
Variable sparse : @solver T.

(** The members of class msh_edge, gbs-mesh/mshedge.h l.10-14; the curve with its arc length
    parameter, the law, the points, the length and the number of points *)
Record medge := mke { e_crv : gcurve T; e_law : curve T; e_pts : list (pt T); e_len : T; e_n : nat }.

(** msh_edge(p_crv) and msh_edge(p_crv, bounds), gbs-mesh/mshedge.h l.16-38: the default
    arguments of abs_curv are 30 points and degree 3 (gbs/bscanalysis.h l.140); [len] is the
    length of the curve between two parameters *)
Definition new_edge_between (len : T -> T -> result T) (g : gcurve T) (u1 u2 : T) : result medge :=
  let* f := abs_curv_law sparse len u1 u2 30 3 in
  let* law := mk_curve [(fun _ => n0); (fun _ => n1)] [n0; n0; n1; n1] 1 in
  Ok (mke (reparametrized g (of_curve f)) law [] (c_hi f) 2).
Definition new_edge (len : T -> T -> result T) (g : gcurve T) : result medge :=
  new_edge_between len g (g_lo g) (g_hi g).

(** msh_edge::set_n_points, gbs-mesh/mshedge.h l.40-44; fmax goes through double, exact for
    the sizes below 2^53 *)
Definition set_n_points (e : medge) (n : nat) : medge :=
  mke (e_crv e) (e_law e) (repeat pzero (Nat.max 2 n)) (e_len e) (Nat.max 2 n).

(** msh_edge::update_law(h1, h2), gbs-mesh/mshedge.h l.46-51 *)
Definition update_law (e : medge) (h1 h2 : T) : result medge :=
  let l := e_len e in
  let n1_ := nsub (nofnat (e_n e)) n1 in
  let* a := divc h1 l in
  let* b := divc h2 l in
  let m := [n0; a; nsub n1 b; n1] in
  let* s := divc n1 n1_ in
  let ksi := [n0; s; nsub n1 s; n1] in
  let* law := interpolate sparse 1 (map (fun x (_ : nat) => x) m) ksi 2 in
  Ok (mke (e_crv e) law (e_pts e) l (e_n e)).

(** msh_edge::update_law(h1, h2, a1, a2), gbs-mesh/mshedge.h l.53-70 *)
Definition update_law4 (e : medge) (h1 h2 a1 a2 : T) : result medge :=
  let l := e_len e in
  let n1_ := nsub (nofnat (e_n e)) n1 in
  let* a := divc h1 l in
  let* b := divc h2 l in
  let* a' := divc (nmul a1 h1) l in
  let* b' := divc (nmul a2 h2) l in
  let m := [n0; a; nadd a a'; nsub (nsub n1 b) b'; nsub n1 b; n1] in
  let* s := divc n1 n1_ in
  let* s2 := divc (nofnat 2) n1_ in
  let ksi := [n0; s; s2; nsub n1 s2; nsub n1 s; n1] in
  let* law := interpolate sparse 1 (map (fun x (_ : nat) => x) m) ksi 2 in
  Ok (mke (e_crv e) law (e_pts e) l (e_n e)).

(** msh_edge::compute_pnts, gbs-mesh/mshedge.h l.72-86: front() and back() of the points, then
    one point per inner parameter *)
Definition inner_points (e : medge) (ksi : list T) (pts : list (pt T)) : result (list (pt T)) :=
  for_ 1 (length ksi - 2) (fun i st =>
    let* x := get ksi i in
    let* y := fvalue (e_law e) x in
    let* p := g_value (e_crv e) (nmul y (e_len e)) 0 in
    set st i p) pts.
Definition compute_pnts (e : medge) : result medge :=
  let* ksi := make_range n0 n1 (e_n e) in
  let* _ := front (e_pts e) in
  let* p0 := g_value (e_crv e) (g_lo (e_crv e)) 0 in
  let* pts := set (e_pts e) 0 p0 in
  let* p1 := g_value (e_crv e) (g_hi (e_crv e)) 0 in
  let* pts := set pts (length pts - 1) p1 in
  let* pts := inner_points e ksi pts in
  Ok (mke (e_crv e) (e_law e) pts (e_len e) (e_n e)).

(** msh_edge::points, gbs-mesh/mshedge.h l.88-91 *)
Definition edge_points (e : medge) : list (pt T) := e_pts e.

End MshEdge.
