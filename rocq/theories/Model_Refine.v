(** Measuring and refining triangulations: /repo/inc/topology/halfEdgeMeshQuality.h,
    delaunay2DBoyerWatsonSurfaceMeshRefine of tessellations.h, and the face iterator of
    halfEdgeMeshData.h.  Arithmetic is exact.  No proofs in this file. *)
From Coq Require Import List Arith Bool.
From Verif Require Import Model_Base Model_Knots Model_Mesh Model_Geom Model_Tess.
Import ListNotations.

(** ** The face iterator, halfEdgeMeshData.h l.281-371 *)
Record face_iter := mkfi { fi_cur : ptr; fi_init : ptr; fi_end : bool }.
Section Iter.
Context {C : Type}.
(** begin and end of a face, l.354-371 *)
Definition face_begin (h : heap C) (f : nat) : result face_iter :=
  let* e := get_f h f in Ok (mkfi e e false).
Definition face_end (h : heap C) (f : nat) : result face_iter :=
  let* e := get_f h f in Ok (mkfi e e true).
(** operator++, l.307-318 *)
Definition fi_next (h : heap C) (i : face_iter) : result face_iter :=
  match fi_cur i, fi_end i with
  | Some e, false =>
    let* r := get_e h e in
    Ok (mkfi (he_next r) (fi_init i) (ptr_eqb (he_next r) (fi_init i)))
  | _, _ => Ok i
  end.
(** operator==, l.328-331, and operator!=, l.334-337 *)
Definition fi_eq (a b : face_iter) : bool := (fi_end a && fi_end b) || ptr_eqb (fi_cur a) (fi_cur b).
Definition fi_ne (a b : face_iter) : bool := negb (ptr_eqb (fi_cur a) (fi_cur b)) || negb (Bool.eqb (fi_end a) (fi_end b)).
(** The half-edges met by a loop that advances while the iterator is != last, as
    std::transform and std::distance do.  A loop longer than the number of half-edges plus one
    never ends. *)
Fixpoint fi_loop (fuel : nat) (h : heap C) (i last : face_iter) : result (list nat) :=
  match fuel with
  | O => Fuel
  | S k =>
    if fi_ne i last then
      let* e := deref (fi_cur i) in
      let* i := fi_next h i in
      let* l := fi_loop k h i last in
      Ok (e :: l)
    else Ok []
  end.
Definition iter_edges (h : heap C) (f : nat) : result (list nat) :=
  let* b := face_begin h f in
  let* e := face_end h f in
  fi_loop (S (length (h_e h))) h b e.
(** std::max_element on a face, with the given comparison: it returns its first argument if the
    iterators compare equal (==), and advances while they differ (!=) *)
Fixpoint fi_max (fuel : nat) (h : heap C) (less : nat -> nat -> result bool) (best i last : face_iter) : result face_iter :=
  match fuel with
  | O => Fuel
  | S k =>
    let* i := fi_next h i in
    if fi_ne i last then
      let* a := deref (fi_cur best) in
      let* b := deref (fi_cur i) in
      let* c := less a b in
      fi_max k h less (if (c : bool) then i else best) i last
    else Ok best
  end.
Definition max_edge (h : heap C) (less : nat -> nat -> result bool) (f : nat) : result nat :=
  let* b := face_begin h f in
  let* e := face_end h f in
  if fi_eq b e then deref (fi_cur b) else
  let* m := fi_max (S (length (h_e h))) h less b b e in
  deref (fi_cur m).
End Iter.

Section Refine.
Context {T : Type} `{Num T}.
Notation mesh := (heap (p2 T)).

(** getFaceCoords, halfEdgeMeshGetters.h l.190-204: the walk is that of getFaceEdges *)
Definition getFaceCoords (h : mesh) (f : nat) : result (list (p2 T)) :=
  let* es := getFaceEdges h f in mapM (end_coords h) es.

(** ** Area *)
(** The area added by sum_area(T, face), halfEdgeMeshQuality.h l.17-26: that of the first three
    corners; *std::next of a shorter list is undefined *)
Definition face_area (h : mesh) (f : nat) : result T :=
  let* cs := getFaceCoords h f in
  match cs with
  | a :: b :: c :: _ => Ok (tri_area2 a b c)
  | _ => Undef BadIterator
  end.
(** What std::reduce combines: a number or a face.  The four overloads of sum_area, l.17-45. *)
Inductive term := TNum (x : T) | TFace (f : nat).
Definition sum_area (h : mesh) (a b : term) : result T :=
  match a, b with
  | TNum x, TFace f => let* s := face_area h f in Ok (nadd x s)
  | TFace f, TNum x => let* s := face_area h f in Ok (nadd x s)
  | TNum x, TNum y => Ok (nadd x y)
  | TFace f, TFace g =>
    let* s := face_area h f in
    let* t := face_area h g in
    Ok (nadd (nadd n0 s) (nadd n0 t))
  end.
(** A schedule of std::reduce: the order in which the initial value and the elements are
    combined two by two.  The standard allows any order and any grouping. *)
Inductive schedule := Leaf (a : term) | Both (l r : schedule).
Fixpoint leaves (s : schedule) : list term :=
  match s with Leaf a => [a] | Both l r => leaves l ++ leaves r end.
Fixpoint run (h : mesh) (s : schedule) : result term :=
  match s with
  | Leaf a => Ok a
  | Both l r =>
    let* a := run h l in
    let* b := run h r in
    let* x := sum_area h a b in
    Ok (TNum x)
  end.
(** getTriangle2dMeshArea and getTriangle2dMeshAreaPar, l.54-83, for one schedule: the result
    is a number, as the initial value is one *)
Definition mesh_area (h : mesh) (s : schedule) : result T :=
  let* a := run h s in
  match a with TNum x => Ok x | TFace f => face_area h f end.
(** The schedule of the sequential version: elements added in order *)
Definition in_order (fs : list nat) : schedule := fold_left (fun s f => Both s (Leaf (TFace f))) fs (Leaf (TNum n0)).

(** ** Quality of a face: a number and the point to insert *)
Definition quality := mesh -> nat -> result (T * p2 T).
(** std::max_element of a vector of pairs by their first components, then a dereference *)
Definition worst_pair {A : Type} (l : list (T * A)) : result (T * A) :=
  match l with
  | [] => Undef BadIterator
  | a :: l => Ok (fold_left (fun b x => if nltb (fst b) (fst x) then x else b) l a)
  end.
Definition half : T := ndiv n1 (nadd n1 n1).
(** edge_midpoint and edge_sq_length, halfEdgeMeshGetters.h l.653-674 *)
Definition edge_midpoint (h : mesh) (e : nat) : result (p2 T) :=
  let* a := start_coords h e in
  let* b := end_coords h e in
  Ok (nmul half (nadd (fst a) (fst b)), nmul half (nadd (snd a) (snd b))).
Definition edge_sq_length (h : mesh) (e : nat) : result T :=
  let* a := start_coords h e in
  let* b := end_coords h e in
  let x := nsub (fst b) (fst a) in let y := nsub (snd b) (snd a) in
  Ok (nadd (nmul x x) (nmul y y)).
(** MaxEdgeSize, halfEdgeMeshQuality.h l.383-403, in the plane *)
Definition MaxEdgeSize : quality := fun h f =>
  let* es := iter_edges h f in
  let* l := mapM (fun e =>
    let* r := get_e h e in
    match he_opp r with
    | Some _ => let* d := edge_sq_length h e in let* m := edge_midpoint h e in Ok (d, m)
    | None => Ok (n0, (n0, n0))
    end) es in
  worst_pair l.
(** DistanceMeshSurface2, l.210-263.  [dist] is the distance of the images by the surface of
    two points of its parameter plane.  The vector is made with one pair (0, (0, 0)) per
    half-edge, and the measures are appended to them. *)
Definition DistanceMeshSurface2 (dist : p2 T -> p2 T -> result T) : quality := fun h f =>
  let* es := iter_edges h f in
  let* l := mapM (fun e =>
    let* r := get_e h e in
    match he_opp r with
    | Some _ =>
      let* p1 := start_coords h e in
      let* p2 := end_coords h e in
      let m := (nadd (fst p1) (nmul half (nsub (fst p2) (fst p1))), nadd (snd p1) (nmul half (nsub (snd p2) (snd p1)))) in
      let* l1m := dist p1 m in
      let* lm2 := dist p2 m in
      let* l12 := dist p2 p1 in
      let* dev := divc (nsub (nadd l1m lm2) l12) l12 in
      Ok (dev, m)
    | None => Ok (n0, (n0, n0))
    end) es in
  worst_pair (repeat (n0, (n0, n0)) (length es) ++ l).
(** The point inserted by TriangleShapeEdgeSplit, l.431-440: the middle of the half-edge that
    std::max_element returns, the measure of a half-edge without opposite being the lowest
    number ([None] here) *)
Definition inner_sq_length (h : mesh) (e : nat) : result (option T) :=
  let* r := get_e h e in
  match he_opp r with Some _ => let* d := edge_sq_length h e in Ok (Some d) | None => Ok None end.
Definition shorter (h : mesh) (e1 e2 : nat) : result bool :=
  let* l1 := inner_sq_length h e1 in
  let* l2 := inner_sq_length h e2 in
  Ok (match l1, l2 with
      | Some x, Some y => nltb x y
      | None, Some _ => true
      | _, None => false
      end).
Definition split_point (h : mesh) (f : nat) : result (p2 T) :=
  let* e := max_edge h (shorter h) f in edge_midpoint h e.

(** ** delaunay2DBoyerWatsonSurfaceMeshRefine, tessellations.h l.459-506 *)
(** The map face_quality: the last value stored for a face; operator[] gives 0 if there is none *)
Fixpoint lookup (cache : list (nat * T)) (f : nat) : T :=
  match cache with
  | [] => n0
  | (g, x) :: t => if g =? f then x else lookup t f
  end.
Definition store (q : quality) (h : mesh) (cache : list (nat * T)) (fs : list nat) : result (list (nat * T)) :=
  foldM (fun c f => let* r := q h f in Ok ((f, fst r) :: c)) cache fs.
Definition erase (cache : list (nat * T)) (fs : list nat) : list (nat * T) :=
  filter (fun p => negb (mem (fst p) fs)) cache.
(** std::max_element over the faces, whatever the execution policy, then a dereference *)
Definition worst_face (cache : list (nat * T)) (fs : list nat) : result nat :=
  match fs with
  | [] => Undef BadIterator
  | f :: fs => Ok (fold_left (fun b x => if nltb (lookup cache b) (lookup cache x) then x else b) fs f)
  end.
(** The loop, l.479-503: [n] is how many turns max_inner_points still allows; [go] says that
    crit > crit_max, crit being the largest number before the first turn. *)
Fixpoint refine_loop (n : nat) (q : quality) (crit_max : T) (go : bool) (h : mesh) (fs : list nat) (cache : list (nat * T))
  : result (mesh * list nat) :=
  match n with
  | O => Ok (h, fs)
  | S n =>
    if go then
      let* f := worst_face cache fs in
      let* (crit, xy) := q h f in
      let* (h, fs, r) := boyerWatson h fs xy in
      let (deleted, created) := match r with Some (_, d, c) => (d, c) | None => ([], []) end in
      let* cache := store q h (erase cache deleted) created in
      refine_loop n q crit_max (nltb crit_max crit) h fs cache
    else Ok (h, fs)
  end.
Definition refine (q : quality) (crit_max : T) (max_inner_points : nat) (h : mesh) (fs : list nat) : result (mesh * list nat) :=
  let* cache := store q h [] fs in
  refine_loop max_inner_points q crit_max true h fs cache.
End Refine.
Arguments quality : clear implicits.
