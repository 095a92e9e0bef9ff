(** Model of the helpers on one triangle, inc/topology/baseGeom.h.  [root] is std::sqrt, [hyp] is
    std::hypot, [tiny] is std::numeric_limits<T>::epsilon().  No proofs in this file. *)
From Coq Require Import List Arith Bool.
From Verif Require Import Model_Base Model_Vec Model_Geom Model_Quality.
Import ListNotations.
Local Open Scope nat_scope.

Section Triangle.
Context {T : Type} `{Num T}.
Variable root : T -> T.
Variable hyp : T -> T -> T.
Variable tiny : T.

(** The three lengths of perimeter and incenter, l.181-183 and 189-191 *)
Definition lengths3 (a b c : p2 T) : T * T * T :=
  (hyp (nsub (fst b) (fst c)) (nsub (snd b) (snd c)),
   hyp (nsub (fst a) (fst c)) (nsub (snd a) (snd c)),
   hyp (nsub (fst a) (fst b)) (nsub (snd a) (snd b))).
(** perimeter, l.179-185 *)
Definition perimeter (a b c : p2 T) : T :=
  let '(la, lb, lc) := lengths3 a b c in nadd (nadd la lb) lc.
(** incenter, l.187-198 *)
Definition incenter (a b c : p2 T) : result (p2 T) :=
  let '(la, lb, lc) := lengths3 a b c in
  let p := nadd (nadd la lb) lc in
  let* x := divc (nadd (nadd (nmul la (fst a)) (nmul lb (fst b))) (nmul lc (fst c))) p in
  let* y := divc (nadd (nadd (nmul la (snd a)) (nmul lb (snd b))) (nmul lc (snd c))) p in
  Ok (x, y).

(** surface_triangle_deviation, l.200-219; [du] and [dv] are the calls srf(uv,1,0), srf(uv,0,1) *)
Definition surface_triangle_deviation (srf du dv : p2 T -> result (pt T)) (uv1 uv2 uv3 : p2 T) : result T :=
  let* v1 := srf uv1 in
  let* v2 := srf uv2 in
  let* v3 := srf uv3 in
  let* g := centroid uv1 uv2 uv3 in
  let* tri_normal := adim root 3 (cross (psub v2 v1) (psub v3 v1)) in
  let* a := du g in
  let* b := dv g in
  let* srf_normal := adim root 3 (cross a b) in
  Ok (norm root 3 (psub tri_normal srf_normal)).

(** computeUV, l.233-267: the differences are taken from [a], so all three are reversed *)
Definition computeUV (dim : nat) (a b c p : pt T) : result (p2 T) :=
  let ab := psub a b in
  let ac := psub a c in
  let ap := psub a p in
  let ab_ab := dot dim ab ab in
  let ab_ac := dot dim ab ac in
  let ac_ac := dot dim ac ac in
  let ab_ap := dot dim ab ap in
  let ac_ap := dot dim ac ap in
  let det := nsub (nmul ab_ab ac_ac) (nmul ab_ac ab_ac) in
  if nltb (nabs det) tiny then Throw RuntimeError else
  let* u := divc (nsub (nmul ac_ac ab_ap) (nmul ab_ac ac_ap)) det in
  let* v := divc (nsub (nmul ab_ab ac_ap) (nmul ab_ac ab_ap)) det in
  Ok (u, v).

(** sphere_center, l.156-177; [None] is the point whose coordinates are NaN *)
Definition sphere_center (a b c : pt T) : result (option (pt T)) :=
  let A := nsub (b 0) (a 0) in let B := nsub (b 1) (a 1) in let C := nsub (b 2) (a 2) in
  let D := nsub (c 0) (a 0) in let E := nsub (c 1) (a 1) in let F := nsub (c 2) (a 2) in
  let G := nadd (nadd (nmul A (nsub (nmul E F) (nmul B F))) (nmul B (nsub (nmul D F) (nmul C F))))
                (nmul C (nsub (nmul B D) (nmul E D))) in
  let Q1 := nadd (nadd (nmul A A) (nmul B B)) (nmul C C) in
  let Q2 := nadd (nadd (nmul D D) (nmul E E)) (nmul F F) in
  let Q3 := nadd (nadd (nmul A A) (nmul C C)) (nmul B B) in
  let H_ := nadd (nadd (nmul Q1 (nsub (nmul E F) (nmul D F))) (nmul Q2 (nsub (nmul B F) (nmul C E))))
                 (nmul Q3 (nsub (nmul D E) (nmul B C))) in
  if nltb (nabs G) tiny then Ok None else
  let G2 := nmul (nadd n1 n1) G in
  let* x := divc H_ G2 in
  let* y := divc (nadd (nadd (nmul Q1 (nsub (nmul D F) (nmul E F))) (nmul Q2 (nsub (nmul C A) (nmul D B))))
                       (nmul Q3 (nsub (nmul E D) (nmul C B)))) G2 in
  let* z := divc (nadd (nadd (nmul Q1 (nsub (nmul B E) (nmul C D))) (nmul Q2 (nsub (nmul A C) (nmul B B))))
                       (nmul Q3 (nsub (nmul B D) (nmul A E)))) G2 in
  Ok (Some (fun i => match i with 0 => x | 1 => y | _ => z end)).
End Triangle.
