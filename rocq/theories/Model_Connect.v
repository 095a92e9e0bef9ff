(** Model of the connections and extensions of gbs/bsctools.h: c2_connect, c3_connect,
    cn_connect, extention_to_point, extended_to_point and extended.
    No proofs in this file.

    Simplifications, valid for the whole file: the curves to be extended are polynomial
    (rational = false); [norm] is the Euclidean norm of gbs/vecop.ixx, [dist] the distance,
    [root] the square root, [length_of] the quadrature length(crv) of gbs/bscanalysis.h;
    [sparse] and [lu] are the linear solvers of Model_Interp. *)
From Coq Require Import List Arith Bool.
From Verif Require Import Model_Base Model_Knots Model_Basis Model_Curve Model_Interp Model_Math Model_Wrap Model_Unify.
Import ListNotations.
Local Open Scope nat_scope.

Section Connect.
Context {T : Type} `{Num T}.

(** interpolate(Q, CHORD_LENGTH), gbs/bscinterp.h l.587-595 *)
Definition hermite_chord (sparse : solver) (dist : pt T -> pt T -> T) (root : T -> T) (dim nc : nat)
    (Q : list (list (pt T))) : result (curve T) :=
  let* pts := mapM front Q in
  let* u := curve_parametrization dist root pts ChordLength false in
  interpolate_hermite sparse dim nc Q u.

(** Value and derivatives up to order n of a curve at u *)
Definition jet (g : gcurve T) (u : T) (n : nat) : result (list (pt T)) :=
  mapM (fun d => g_value g u d) (seq 0 (n + 1)).

(** c2_connect(crv1, crv2), gbs/bsctools.h l.467-480, and c3_connect(crv1, crv2), l.654-667:
    n = 2 and n = 3 *)
Definition connect (sparse : solver) (dist : pt T -> pt T -> T) (root : T -> T) (dim n : nat)
    (g1 g2 : gcurve T) : result (curve T) :=
  let* a := jet g1 (g_hi g1) n in
  let* b := jet g2 (g_lo g2) n in
  hermite_chord sparse dist root dim (n + 1) [a; b].

(** c2_connect(crv1, crv2, t1, t2), l.503-517: the third derivatives are multiplied *)
Definition c2_connect_scaled (sparse : solver) (dist : pt T -> pt T -> T) (root : T -> T) (dim : nat)
    (g1 g2 : gcurve T) (t1 t2 : T) : result (curve T) :=
  let* a := jet g1 (g_hi g1) 2 in
  let* a3 := g_value g1 (g_hi g1) 3 in
  let* b := jet g2 (g_lo g2) 2 in
  let* b3 := g_value g2 (g_lo g2) 3 in
  hermite_chord sparse dist root dim 4 [a ++ [pscal t1 a3]; b ++ [pscal t2 b3]].

(** cn_connect, l.481-500 *)
Definition cn_connect (lu : solver) (dim : nat) (g1 g2 : gcurve T) (du : T) (p n : nat) : result (curve T) :=
  let u1 := g_hi g1 in
  let u2 := g_lo g2 in
  let p := min p (2 * n + 1) in
  let* a := g_value g1 u1 0 in
  let* b := g_value g2 u2 0 in
  let* cs := mapM (fun i =>
      let* x := g_value g1 u1 i in
      let* y := g_value g2 u2 i in
      Ok [mkcp x n0 i; mkcp y du i]) (seq 1 n) in
  interpolate_constraints lu dim n0 a du b (concat cs) p.

(** point / norm: a zero norm divides by zero *)
Definition pdiv (q : pt T) (s : T) : result (pt T) := let* i := divc n1 s in Ok (pscal i q).

(** c2_connect(p1, p2, t1, t2, c1, c2, e) in the plane, l.519-573; [half_pi] is pi / 2 *)
Definition c2_ellipse (lu : solver) (norm : pt T -> T) (half_pi : T) (p1 p2 t1 t2 c1 c2 : pt T) (e : T)
  : result (curve T) :=
  let half := ndiv n1 (nadd n1 n1) in
  let d := norm (psub p1 p2) in
  let u2 := nmul half_pi d in
  let cstr := [mkcp t1 n0 1; mkcp c1 n0 2; mkcp t2 u2 1; mkcp c2 u2 2] in
  let* c := interpolate_constraints lu 2 n0 p1 u2 p2 cstr 3 in
  let um := nmul half (nadd n0 u2) in
  let* cr := value c um 2 in
  let* cr := pdiv cr (norm cr) in
  let cr := pscal (nmul (nmul half d) e) cr in
  let* tg := value c um 1 in
  let* tg := pdiv tg (norm tg) in
  let tg := pscal (nmul half d) tg in
  interpolate_constraints lu 2 n0 p1 u2 p2 (cstr ++ [mkcp tg um 1; mkcp cr um 2]) 4.

(** c2_connect(crv1, crv2, e) in the plane, l.582-597 *)
Definition c2_connect_ellipse (lu : solver) (norm : pt T -> T) (half_pi : T) (g1 g2 : gcurve T) (e : T)
  : result (curve T) :=
  let* a := jet g1 (g_hi g1) 2 in
  let* b := jet g2 (g_lo g2) 2 in
  let* p1 := get a 0 in let* t1 := get a 1 in let* c1 := get a 2 in
  let* p2 := get b 0 in let* t2 := get b 1 in let* c2 := get b 2 in
  c2_ellipse lu norm half_pi p1 p2 t1 t2 c1 c2 e.

(** The orders of the loop of extention_to_point, l.784-788: 1 <= i < p and i <= max_cont *)
Definition cont_orders (p : nat) (max_cont : option nat) : list nat :=
  seq 1 (match max_cont with None => p - 1 | Some m => min (p - 1) m end).

(** extention_to_point(crv, pt, u, u_new, natural_end, max_cont), l.776-796 *)
Definition extention_to_point_at (lu : solver) (dim : nat) (c : curve T) (q : pt T) (u u_new : T)
    (natural : bool) (max_cont : option nat) : result (curve T) :=
  let p := c_deg c in
  let* a := value c u 0 in
  let* cs := mapM (fun i => let* x := value c u i in Ok (mkcp x u i)) (cont_orders p max_cont) in
  let cs := if (2 <? p) && natural then cs ++ [mkcp pzero u_new 2] else cs in
  interpolate_constraints lu dim u a u_new q cs (min p (length cs + 1)).

(** extention_to_point(crv, pt, u, natural_end, max_cont), l.810-818 *)
Definition extention_to_point (lu : solver) (norm : pt T -> T) (dim : nat) (c : curve T) (q : pt T) (u : T)
    (natural : bool) (max_cont : option nat) : result (curve T) :=
  let* t := value c u 1 in
  let* e := value c (c_hi c) 0 in
  let dl := norm (psub e q) in
  let* du := divc dl (norm t) in
  let u_new := nadd u (nmul dl du) in
  extention_to_point_at lu dim c q u u_new natural max_cont.

(** extended_to_point(crv, pt, natural_end, max_cont), l.831-837 *)
Definition extended_to_point_end (lu : solver) (norm : pt T -> T) (dim : nat) (c : curve T) (q : pt T)
    (natural : bool) (max_cont : option nat) : result (curve T) :=
  let* e := extention_to_point lu norm dim c q (c_hi c) natural max_cont in
  join c e.

(** extended_to_point(crv, pt, at_end, natural_end, max_cont), l.850-865 *)
Definition extended_to_point (lu : solver) (norm : pt T -> T) (dim : nat) (c : curve T) (q : pt T)
    (at_end natural : bool) (max_cont : option nat) : result (curve T) :=
  if at_end then extended_to_point_end lu norm dim c q natural max_cont else
  let* r := as_bscurve c in
  let u2 := c_hi r in
  let* r := reverse r in
  let* r := extended_to_point_end lu norm dim r q natural max_cont in
  let* r := reverse r in
  let du := nsub (c_hi r) u2 in
  mk_curve (c_poles r) (map (fun x => nsub x du) (c_knots r)) (c_deg c).

(** extended(crv, l, at_end, relative, natural_end, max_cont), l.879-902 *)
Definition extended (lu : solver) (norm : pt T -> T) (length_of : curve T -> T) (dim : nat) (c : curve T) (l : T)
    (at_end relative natural : bool) (max_cont : option nat) : result (curve T) :=
  let l := if relative then nmul l (length_of c) else l in
  let* t := value c (if at_end then c_hi c else c_lo c) 1 in
  let t := if at_end then t else pscal (nopp n1) t in
  let* t := pdiv t (norm t) in
  let* p := value c (if at_end then c_hi c else c_lo c) 0 in
  extended_to_point lu norm dim c (padd p (pscal l t)) at_end natural max_cont.
End Connect.
