(** Plane triangulation: /repo/inc/topology/tessellations.h, edgeRecovery.h,
    halfEdgeMeshGeomTests.h and getEncompassingMesh of halfEdgeMeshGetters.h, on the mesh
    heap of Model_Mesh with coordinates in the plane. *)
From Coq Require Import List Arith Bool.
From Verif Require Import Model_Base Model_Mesh Model_Geom.
Import ListNotations.

Section Tess.
Context {T : Type} `{Num T}.
Notation mesh := (heap (p2 T)).

(** he->vertex->coords and he->previous->vertex->coords *)
Definition end_coords (h : mesh) (e : nat) : result (p2 T) :=
  let* v := end_of h e in let* r := get_v h v in Ok (hv_coords r).
Definition start_coords (h : mesh) (e : nat) : result (p2 T) :=
  let* p := prev_of h e in end_coords h p.

(** triangle_coords_ccw, tessellations.h l.69-76 *)
Definition triangle_coords (h : mesh) (f : nat) : result (p2 T * p2 T * p2 T) :=
  let* fe := get_f h f in
  let* e := deref fe in
  let* a := end_coords h e in
  let* e1 := next_of h e in
  let* b := end_coords h e1 in
  let* e2 := next_of h e1 in
  let* c := end_coords h e2 in
  Ok (a, b, c).

(** is_star_shaped, tessellations.h l.87-100 *)
Fixpoint all_left (h : mesh) (es : list nat) (xy : p2 T) : result bool :=
  match es with
  | [] => Ok true
  | e :: t =>
    let* A := start_coords h e in
    let* B := end_coords h e in
    if nleb (orient2d A B xy) n0 then Ok false else all_left h t xy
  end.
Definition is_star_shaped (h : mesh) (es : list nat) (xy : p2 T) : result bool :=
  match es with [] => Ok false | _ => all_left h es xy end.

(** in_circle(point, face), halfEdgeMeshGeomTests.h l.15-44 *)
Definition in_circle_face (h : mesh) (xy : p2 T) (f : nat) : result T :=
  let* (a, b, c) := triangle_coords h f in Ok (in_circle a b c xy).

(** is_inside, halfEdgeMeshGeomTests.h l.76-117 *)
Fixpoint ray_cast (h : mesh) (xy : p2 T) (es : list nat) (tol : T) (inside : bool) : result bool :=
  match es with
  | [] => Ok inside
  | e :: t =>
    let* a := start_coords h e in
    let* b := end_coords h e in
    if on_segment a b xy tol then Ok true else
    let a_above := nltb (snd xy) (snd a) in
    let b_above := nltb (snd xy) (snd b) in
    if xorb a_above b_above then
      let x_cross := nadd (fst a) (ndiv (nmul (nsub (snd xy) (snd a)) (nsub (fst b) (fst a)))
                                        (nsub (snd b) (snd a))) in
      ray_cast h xy t tol (if nltb (fst xy) x_cross then negb inside else inside)
    else ray_cast h xy t tol inside
  end.
Definition is_inside (h : mesh) (xy : p2 T) (es : list nat) (tol : T) : result bool :=
  ray_cast h xy es tol false.

(** is_locally_delaunay, halfEdgeMeshGeomTests.h l.127-152 (assertions off) *)
Definition is_locally_delaunay (h : mesh) (e : nat) : result T :=
  let* r := get_e h e in
  match he_opp r with
  | None => Ok n0
  | Some o =>
    let* t1 := deref (he_face r) in
    let* ro := get_e h o in
    let* t2 := deref (he_face ro) in
    let* x := next_of h e in
    let* q1 := end_coords h x in
    let* y := next_of h o in
    let* q2 := end_coords h y in
    let* i1 := in_circle_face h q1 t2 in
    let* i2 := in_circle_face h q2 t1 in
    Ok (nmin i1 i2)
  end.

(** ** boyerWatson, tessellations.h l.127-249 *)

(** step 1, l.136-171: None when the point coincides with a corner met during the search, and
    otherwise the seed, empty when the point is in none of the triangles *)
Fixpoint locate (h : mesh) (fs : list nat) (xy : p2 T) : result (option (list nat)) :=
  match fs with
  | [] => Ok (Some [])
  | f :: t =>
    let* (a, b, c) := triangle_coords h f in
    if p2_eqb xy a || p2_eqb xy b || p2_eqb xy c then Ok None else
    let o0 := orient2d a b xy in
    let o1 := orient2d b c xy in
    let o2 := orient2d c a xy in
    if nltb o0 n0 || nltb o1 n0 || nltb o2 n0 then locate h t xy else
    if neqb o0 n0 || neqb o1 n0 || neqb o2 n0 then
      let* fe := get_f h f in
      let* e := deref fe in
      let* x := next_of h e in
      let* y := next_of h x in
      let on := if neqb o0 n0 then x else if neqb o1 n0 then y else e in
      let* r := get_e h on in
      match he_opp r with
      | None => Ok (Some [f])
      | Some o =>
        let* ro := get_e h o in
        Ok (Some (match he_face ro with None => [f] | Some g => [f; g] end))
      end
    else Ok (Some [f])
  end.

(** membership in the set in_cavity / cavity_set *)
Definition mem (f : nat) (l : list nat) : bool := existsb (Nat.eqb f) l.
(** l.177-184: the first elements of the seed without repetition *)
Definition distinct (l : list nat) : list nat :=
  fold_left (fun acc f => if mem f acc then acc else acc ++ [f]) l [].
(** the inner loop l.189-201; the stack has its back() first *)
Fixpoint visit (h : mesh) (xy : p2 T) (es : list nat) (cavity stack : list nat)
  : result (list nat * list nat) :=
  match es with
  | [] => Ok (cavity, stack)
  | e :: t =>
    let* r := get_e h e in
    match he_opp r with
    | None => visit h xy t cavity stack
    | Some o =>
      let* ro := get_e h o in
      match he_face ro with
      | None => visit h xy t cavity stack
      | Some g =>
        if mem g cavity then visit h xy t cavity stack else
        let* d := in_circle_face h xy g in
        if nltb n0 d then visit h xy t (cavity ++ [g]) (g :: stack)
        else visit h xy t cavity stack
      end
    end
  end.
(** step 2, l.185-202: every face enters the stack at most once *)
Fixpoint flood (fuel : nat) (h : mesh) (xy : p2 T) (cavity stack : list nat) : result (list nat) :=
  match stack with
  | [] => Ok cavity
  | f :: stack =>
    match fuel with
    | O => Fuel
    | S k =>
      let* es := getTriangleEdges h f in
      let* (cavity, stack) := visit h xy es cavity stack in
      flood k h xy cavity stack
    end
  end.
(** l.206-211 *)
Definition single_star (h : mesh) (xy : p2 T) (K : list nat) : result (option (list nat)) :=
  let* loops := getOrientedFacesBoundaries h K in
  match loops with
  | [es] => let* s := is_star_shaped h es xy in Ok (if (s : bool) then Some es else None)
  | _ => Ok None
  end.
(** step 3, l.204-220: the cavity and its boundary, or None to give up *)
Definition find_cavity (h : mesh) (xy : p2 T) (seed : list nat) : result (option (list nat * list nat)) :=
  let K := distinct seed in
  let* K := flood (length (h_f h)) h xy K (rev K) in
  let* ok := single_star h xy K in
  match ok with
  | Some es => Ok (Some (K, es))
  | None =>
    let* ok := single_star h xy seed in
    Ok (match ok with Some es => Some (seed, es) | None => None end)
  end.
(** The mesh, the list of faces, and the new vertex with the faces deleted and created: None
    for the empty tuple, which leaves everything as it was.  The argument tol is not used. *)
Definition boyerWatson (h : mesh) (fs : list nat) (xy : p2 T)
  : result (mesh * list nat * option (nat * list nat * list nat)) :=
  let* s := locate h fs xy in
  match s with
  | None | Some [] => Ok (h, fs, None)
  | Some seed =>
    let* c := find_cavity h xy seed in
    match c with
    | None => Ok (h, fs, None)
    | Some (K, es) =>
      let deleted := filter (fun f => mem f K) fs in
      let kept := filter (fun f => negb (mem f K)) fs in
      let (h, v) := make_vertex h xy in
      let* (h, created) := add_vertex h es v in
      Ok (h, kept ++ created, Some (v, deleted, created))
    end
  end.
Fixpoint insert_points (h : mesh) (fs : list nat) (coords : list (p2 T)) : result (mesh * list nat) :=
  match coords with
  | [] => Ok (h, fs)
  | xy :: t =>
    let* (h, fs, _) := boyerWatson h fs xy in
    insert_points h fs t
  end.

(** getEncompassingMesh, halfEdgeMeshGetters.h l.625-650, with the default pc_offset = 10 *)
Definition getEncompassingMesh (l : list (p2 T)) : result (mesh * list nat) :=
  let* (mn, mx) := getCoordsMinMax l in
  let pc := ndiv (nofnat 10) (nofnat 100) in
  let mx := (nadd (fst mx) (nmul pc (nsub (fst mx) (fst mn))),
             nadd (snd mx) (nmul pc (nsub (snd mx) (snd mn)))) in
  let mn := (nsub (fst mn) (nmul pc (nsub (fst mx) (fst mn))),
             nsub (snd mn) (nmul pc (nsub (snd mx) (snd mn)))) in
  let h : mesh := mkh [] [] [] in
  let* (h, he1) := make_edge_at h (fst mx, snd mn) in
  let* (h, he2) := make_edge_at h (fst mn, snd mx) in
  let* (h, he3) := make_edge_at h mn in
  let* (h, hf1) := make_face h [he1; he2; he3] in
  let* (h, hf2) := add_face h hf1 (Some he2) mx in
  let* f1 := deref hf1 in
  let* f2 := deref hf2 in
  Ok (h, [f1; f2]).

(** getVerticesVectorFromFaces, halfEdgeMeshGetters.h l.554-568: the vertices without
    repetition.  They are listed by address there, in first-seen order here. *)
Fixpoint face_vertices (h : mesh) (fs : list nat) (acc : list nat) : result (list nat) :=
  match fs with
  | [] => Ok acc
  | f :: t =>
    let* vs := getFaceVertices h f in
    let* vs := mapM deref vs in
    face_vertices h t (fold_left (fun acc v => if mem v acc then acc else acc ++ [v]) vs acc)
  end.
(** the loop of remove_faces over the initial vertices, tessellations.h l.271-274 *)
Fixpoint remove_all (h : mesh) (fs : list nat) (vs : list nat) : result (mesh * list nat) :=
  match vs with
  | [] => Ok (h, fs)
  | v :: t => let* (h, fs, _) := remove_faces h fs v in remove_all h fs t
  end.
(** delaunay2DBoyerWatson, tessellations.h l.258-277.  [by_address] is the order in which the
    addresses of the vertices sort. *)
Definition delaunay2DBoyerWatson (by_address : list nat -> list nat) (coords : list (p2 T))
  : result (mesh * list nat) :=
  let* (h, fs) := getEncompassingMesh coords in
  let* vs := face_vertices h fs [] in
  let* (h, fs) := insert_points h fs coords in
  remove_all h fs (by_address vs).

(** ** recoverEdge, edgeRecovery.h l.33-184 *)

(** l.59-77: the first half-edge of the faces around p, away from p, that the segment crosses *)
Fixpoint crossed (h : mesh) (vp : nat) (p q : p2 T) (tol : T) (es : list nat) : result ptr :=
  match es with
  | [] => Ok None
  | e :: t =>
    let* r := get_e h e in
    let* pe := prev_of h e in
    let* rp := get_e h pe in
    if ptr_eqb (he_vertex r) (Some vp) || ptr_eqb (he_vertex rp) (Some vp)
    then crossed h vp p q tol t else
    let* a := start_coords h e in
    let* b := end_coords h e in
    if seg_seg_strict_intersection p q a b tol then Ok (Some e) else crossed h vp p q tol t
  end.
Fixpoint first_crossed (h : mesh) (vp : nat) (p q : p2 T) (tol : T) (fs : list ptr) : result ptr :=
  match fs with
  | [] => Ok None
  | f :: t =>
    let* f := deref f in
    let* es := getTriangleEdges h f in
    let* c := crossed h vp p q tol es in
    match c with Some e => Ok (Some e) | None => first_crossed h vp p q tol t end
  end.
(** l.83-111: the half-edges crossed after [e], at most [steps] iterations; None for nullptr.
    The last iteration may leave the chain incomplete, as in the code. *)
Fixpoint chain (steps : nat) (h : mesh) (vq : nat) (p q : p2 T) (tol : T) (e : nat)
  : result (option (list nat)) :=
  match steps with
  | O => Ok (Some [])
  | S k =>
    let* r := get_e h e in
    match he_opp r with
    | None => Ok None
    | Some i =>
      let* l := next_of h i in
      let* rl := get_e h l in
      if ptr_eqb (he_vertex rl) (Some vq) then Ok (Some []) else
      let* rt := prev_of h i in
      let* la := start_coords h l in
      let* lb := end_coords h l in
      let* ra := start_coords h rt in
      let* rb := end_coords h rt in
      if seg_seg_strict_intersection p q la lb tol then
        let* c := chain k h vq p q tol l in Ok (match c with Some c => Some (l :: c) | None => None end)
      else if seg_seg_strict_intersection p q ra rb tol then
        let* c := chain k h vq p q tol rt in Ok (match c with Some c => Some (rt :: c) | None => None end)
      else Ok None
    end
  end.
(** the inner loop l.126-174: the mesh, the half-edges left, the recovered one, any_flipped *)
Fixpoint flips (h : mesh) (vp vq : nat) (p q : p2 T) (tol : T) (es : list nat) (rec : ptr) (any : bool)
  : result (mesh * list nat * ptr * bool) :=
  match es with
  | [] => Ok (h, [], rec, any)
  | e :: t =>
    let* r := get_e h e in
    match he_opp r with
    | None => flips h vp vq p q tol t rec any
    | Some o =>
      let* f1 := deref (he_face r) in
      let* ro := get_e h o in
      let* f2 := deref (he_face ro) in
      let* A := start_coords h e in
      let* B := end_coords h e in
      let* x := next_of h e in
      let* C := end_coords h x in
      let* y := next_of h o in
      let* D := end_coords h y in
      if nleb (orient2d C B D) tol || nleb (orient2d D A C) tol then
        let* (h, es, rec, any) := flips h vp vq p q tol t rec any in Ok (h, e :: es, rec, any)
      else
        let* h := flip h f1 f2 in
        let* na := start_of h e in
        let* nb := end_of h e in
        if (Nat.eqb na vp && Nat.eqb nb vq) || (Nat.eqb na vq && Nat.eqb nb vp) then
          let* r := get_e h e in
          flips h vp vq p q tol t (if Nat.eqb na vp then Some e else he_opp r) true
        else
        let* a := start_coords h e in
        let* b := end_coords h e in
        if seg_seg_strict_intersection p q a b tol then
          let* (h, es, rec, any) := flips h vp vq p q tol t rec true in Ok (h, e :: es, rec, any)
        else flips h vp vq p q tol t rec true
    end
  end.
(** l.122-178; None for the nullptr of l.177 *)
Fixpoint passes (n : nat) (h : mesh) (vp vq : nat) (p q : p2 T) (tol : T) (es : list nat) (rec : ptr)
  : result (mesh * option ptr) :=
  match n, es with
  | O, _ | _, [] => Ok (h, Some rec)
  | S k, _ =>
    let* (h, es, rec, any) := flips h vp vq p q tol es rec false in
    if any then passes k h vp vq p q tol es rec else Ok (h, None)
  end.
(** [max_chain_steps] is 4096 in the code *)
Definition recoverEdge (max_chain_steps : nat) (h : mesh) (vp vq : ptr) (tol : T) : result (mesh * ptr) :=
  match vp, vq with
  | Some vp, Some vq =>
    if Nat.eqb vp vq then Ok (h, None) else
    let* e := findHalfEdge h (Some vp) (Some vq) in
    match e with
    | Some e => Ok (h, Some e)
    | None =>
      let* e := findHalfEdge h (Some vq) (Some vp) in
      match e with
      | Some e => let* r := get_e h e in Ok (h, he_opp r)
      | None =>
        let* rp := get_v h vp in
        let* rq := get_v h vq in
        let p := hv_coords rp in let q := hv_coords rq in
        let* fs := getFacesAttachedToVertex h vp in
        let* c := first_crossed h vp p q tol fs in
        match c with
        | None => Ok (h, None)
        | Some e =>
          let* c := chain max_chain_steps h vq p q tol e in
          match c with
          | None => Ok (h, None)
          | Some c =>
            let es := e :: c in
            let* (h, rec) := passes (length es * length es + 8) h vp vq p q tol es None in
            match rec with
            | None => Ok (h, None)
            | Some (Some e) => Ok (h, Some e)
            | Some None => let* e := findHalfEdge h (Some vp) (Some vq) in Ok (h, e)
            end
          end
        end
      end
    end
  | _, _ => Ok (h, None)
  end.
End Tess.
