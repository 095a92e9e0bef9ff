(** Model of the removal of the faces on one side of a boundary, halfEdgeMeshEditors.h, and of the
    tests of orientation, halfEdgeMeshGeomTests.h.  No proofs in this file. *)
From Coq Require Import List Arith Bool.
From Verif Require Import Model_Base Model_Knots Model_Mesh Model_Geom Model_Tess Model_Refine Model_Quality.
Import ListNotations.
Local Open Scope nat_scope.

Section Take.
Context {T : Type} `{Num T}.
Notation mesh := (heap (p2 T)).

(** is_centroid_inside_boundary, halfEdgeMeshGeomTests.h l.252-266 *)
Definition is_centroid_inside_boundary (h : mesh) (f : nat) (boundary : list nat) (tol : T) : result bool :=
  let* cs := getFaceCoords h f in
  let* i := divc n1 (nofnat (length cs)) in
  is_inside h (times2 i (fold_left plus2 cs (n0, n0))) boundary tol.

(** std::ranges::find_if over the faces: the position of the first one that passes the test *)
Fixpoint find_face (test : nat -> result bool) (fs : list nat) : result (option nat) :=
  match fs with
  | [] => Ok None
  | f :: t =>
    let* b := test f in
    if b then Ok (Some 0) else let* r := find_face test t in Ok (option_map S r)
  end.

(** The loop of takeExternalFaces and takeInternalFaces, halfEdgeMeshEditors.h l.456-475 and
    489-508: the search starts over from the first face; the loop ends when no face is found, or
    when the one erased was the last of the list *)
Fixpoint take_loop (fuel : nat) (test : mesh -> nat -> result bool) (h : mesh) (fs taken : list nat)
  : result (mesh * list nat * list nat) :=
  match fuel with
  | O => Fuel
  | S m =>
    let* r := find_face (test h) fs in
    match r with
    | None => Ok (h, fs, taken)
    | Some i =>
      let* f := get fs i in
      let* (h, fs') := eraseFace h fs i in
      if i =? length fs' then Ok (h, fs', taken ++ [f]) else take_loop m test h fs' (taken ++ [f])
    end
  end.
Definition take_faces (test : mesh -> nat -> result bool) (h : mesh) (fs : list nat) : result (mesh * list nat * list nat) :=
  match fs with [] => Ok (h, [], []) | _ => take_loop (S (length fs)) test h fs [] end.
(** The faces left and the faces taken *)
Definition takeExternalFaces (h : mesh) (fs boundary : list nat) (tol : T) : result (mesh * list nat * list nat) :=
  take_faces (fun h f => let* b := is_centroid_inside_boundary h f boundary tol in Ok (negb b)) h fs.
Definition takeInternalFaces (h : mesh) (fs boundary : list nat) (tol : T) : result (mesh * list nat * list nat) :=
  take_faces (fun h f => is_centroid_inside_boundary h f boundary tol) h fs.

(** is_ccw, halfEdgeMeshGeomTests.h l.54-65 (assertions off), and are_face_ccw, l.161-166; are_ccw
    returns a comparison, so the number is 0 or 1 *)
Definition is_ccw (h : mesh) (f : nat) : result bool :=
  let* cs := getFaceCoords h f in
  match cs with
  | a :: b :: c :: _ => Ok (are_ccw a b c)
  | _ => Undef BadIterator
  end.
Fixpoint are_face_ccw (h : mesh) (fs : list nat) : result bool :=
  match fs with
  | [] => Ok true
  | f :: t => let* b := is_ccw h f in if b then are_face_ccw h t else Ok false
  end.

(** are_edges_2d_ccw, l.176-210; the sum is in the order of the list, where std::reduce is free *)
Definition edges_sum (h : mesh) (es : list nat) : result T :=
  foldM (fun t e =>
    let* q := end_coords h e in
    let* p := start_coords h e in
    Ok (nadd t (nmul (nsub (fst q) (fst p)) (nadd (snd q) (snd p))))) n0 es.
Definition are_edges_2d_ccw (h : mesh) (es : list nat) : result bool :=
  let* s := edges_sum h es in Ok (nltb s n0).
End Take.
