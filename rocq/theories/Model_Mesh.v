(** Model of the half-edge mesh: inc/topology/halfEdgeMeshData.h, halfEdgeMeshGetters.h and
    halfEdgeMeshEditors.h.  No proofs in this file.

    A shared_ptr is [option nat]: [None] is nullptr, [Some i] the i-th object of its kind
    ever allocated.  Objects are never freed (the pointers form cycles).  Assertions are
    compiled out (NDEBUG); what the code then does with a null pointer is [Undef NullPtr].
    The vertex of a half-edge is the one it ENDS at: its start is previous->vertex. *)
From Coq Require Import List Arith Bool.
From Verif Require Import Model_Base.
Import ListNotations.
Local Open Scope nat_scope.

Definition ptr := option nat.
Definition ptr_eqb (a b : ptr) : bool :=
  match a, b with Some i, Some j => i =? j | None, None => true | _, _ => false end.
(** operator-> on a pointer *)
Definition deref (p : ptr) : result nat := match p with Some i => Ok i | None => Undef NullPtr end.

(** HalfEdge, halfEdgeMeshData.h l.50-62 *)
Record hedge := mkhe { he_vertex : ptr; he_face : ptr; he_next : ptr; he_prev : ptr; he_opp : ptr }.

Section Mesh.
Context {C : Type}.

(** HalfEdgeVertex, l.26-30 *)
Record hvert := mkhv { hv_coords : C; hv_edge : ptr }.
(** All the objects; a HalfEdgeFace (l.39-42) is its edge pointer. *)
Record heap := mkh { h_e : list hedge; h_v : list hvert; h_f : list ptr }.

Definition get_e (h : heap) (e : nat) : result hedge := get (h_e h) e.
Definition get_v (h : heap) (v : nat) : result hvert := get (h_v h) v.
Definition get_f (h : heap) (f : nat) : result ptr := get (h_f h) f.
Definition put_e (h : heap) (e : nat) (r : hedge) : result heap :=
  let* l := set (h_e h) e r in Ok (mkh l (h_v h) (h_f h)).
Definition put_v (h : heap) (v : nat) (r : hvert) : result heap :=
  let* l := set (h_v h) v r in Ok (mkh (h_e h) l (h_f h)).
Definition put_f (h : heap) (f : nat) (r : ptr) : result heap :=
  let* l := set (h_f h) f r in Ok (mkh (h_e h) (h_v h) l).
Definition set_vertex (h : heap) (e : nat) (v : ptr) : result heap :=
  let* r := get_e h e in put_e h e (mkhe v (he_face r) (he_next r) (he_prev r) (he_opp r)).
Definition set_next (h : heap) (e : nat) (x : ptr) : result heap :=
  let* r := get_e h e in put_e h e (mkhe (he_vertex r) (he_face r) x (he_prev r) (he_opp r)).
Definition set_prev (h : heap) (e : nat) (x : ptr) : result heap :=
  let* r := get_e h e in put_e h e (mkhe (he_vertex r) (he_face r) (he_next r) x (he_opp r)).
Definition set_opp (h : heap) (e : nat) (x : ptr) : result heap :=
  let* r := get_e h e in put_e h e (mkhe (he_vertex r) (he_face r) (he_next r) (he_prev r) x).
Definition set_vedge (h : heap) (v : nat) (x : ptr) : result heap :=
  let* r := get_v h v in put_v h v (mkhv (hv_coords r) x).

(** e->vertex, e->previous->vertex (both dereferenced afterwards) *)
Definition end_of (h : heap) (e : nat) : result nat := let* r := get_e h e in deref (he_vertex r).
Definition next_of (h : heap) (e : nat) : result nat := let* r := get_e h e in deref (he_next r).
Definition prev_of (h : heap) (e : nat) : result nat := let* r := get_e h e in deref (he_prev r).
Definition start_of (h : heap) (e : nat) : result nat := let* p := prev_of h e in end_of h p.

(** ** Creation (halfEdgeMeshData.h) *)

(** make_shared_h_vertex, l.97-101 *)
Definition make_vertex (h : heap) (c : C) : heap * nat :=
  (mkh (h_e h) (h_v h ++ [mkhv c None]) (h_f h), length (h_v h)).
(** make_shared_h_edge(vertex, face), l.74-88 *)
Definition make_edge (h : heap) (v : nat) (f : ptr) : result (heap * nat) :=
  let e := length (h_e h) in
  let h := mkh (h_e h ++ [mkhe (Some v) f None None None]) (h_v h) (h_f h) in
  let* r := get_v h v in
  let* h := match hv_edge r with None => set_vedge h v (Some e) | Some _ => Ok h end in
  Ok (h, e).
(** make_shared_h_edge(coords), l.111-116 *)
Definition make_edge_at (h : heap) (c : C) : result (heap * nat) :=
  let (h, v) := make_vertex h c in make_edge h v None.
(** make_shared_h_vertices, l.127-140 (sequential order of std::transform) *)
Fixpoint make_vertices (h : heap) (cs : list C) : heap * list nat :=
  match cs with
  | [] => (h, [])
  | c :: t => let (h, v) := make_vertex h c in let (h, vs) := make_vertices h t in (h, v :: vs)
  end.
(** make_shared_h_edges, l.151-164 *)
Fixpoint make_edges_at (h : heap) (cs : list C) : result (heap * list nat) :=
  match cs with
  | [] => Ok (h, [])
  | c :: t => let* (h, e) := make_edge_at h c in let* (h, es) := make_edges_at h t in Ok (h, e :: es)
  end.
(** make_HalfEdges, l.172-194: an open loop, no face, vertices without edge *)
Fixpoint bare_edges (h : heap) (cs : list C) : heap * list nat :=
  match cs with
  | [] => (h, [])
  | c :: t =>
    let (h, v) := make_vertex h c in
    let e := length (h_e h) in
    let h := mkh (h_e h ++ [mkhe (Some v) None None None None]) (h_v h) (h_f h) in
    let (h, es) := bare_edges h t in (h, e :: es)
  end.
Definition make_HalfEdges (h : heap) (cs : list C) : result (heap * list nat) :=
  let (h, es) := bare_edges h cs in
  let n := length es in
  let* h := for_ 0 n (fun i h =>
    let* e := get es i in
    let* p := get es ((i + n - 1) mod n) in
    let* x := get es ((i + 1) mod n) in
    let* h := set_prev h e (Some p) in
    set_next h e (Some x)) h in
  Ok (h, es).
(** make_loop, l.209-223 (n > 1 is only asserted) *)
Definition make_loop (h : heap) (es : list nat) (f : nat) : result heap :=
  let n := length es in
  let* e0 := match es with [] => Undef BadIterator | e :: _ => Ok e end in
  let* h := put_f h f (Some e0) in
  for_ 0 n (fun i h =>
    let* e := get es i in
    let* x := if i + 1 =? n then Ok e0 else get es (i + 1) in
    let* p := if i =? 0 then get es (n - 1) else get es (i - 1) in
    let* r := get_e h e in
    put_e h e (mkhe (he_vertex r) (Some f) (Some x) (Some p) (he_opp r))) h.
(** make_shared_h_face, l.240-274 *)
Definition make_face (h : heap) (es : list nat) : result (heap * ptr) :=
  if length es <? 2 then Ok (h, None) else
  let f := length (h_f h) in
  let h := mkh (h_e h) (h_v h) (h_f h ++ [None]) in
  let* h := make_loop h es f in
  Ok (h, Some f).

(** ** Getters (halfEdgeMeshGetters.h) *)

(** The loop of getFaceEdges, l.77-93: it ends at the first edge or at a null next.  A walk
    longer than the number of half-edges never ends. *)
Fixpoint walk (fuel : nat) (h : heap) (start e : nat) : result (list nat) :=
  match fuel with
  | O => Fuel
  | S k =>
    let* r := get_e h e in
    match he_next r with
    | None => Ok [e]
    | Some x => if x =? start then Ok [e] else let* l := walk k h start x in Ok (e :: l)
    end
  end.
Definition getFaceEdges (h : heap) (f : nat) : result (list nat) :=
  let* fe := get_f h f in
  match fe with None => Ok [] | Some e => walk (length (h_e h)) h e e end.
(** getFaceVertices, l.115-130 (the pointers pushed may be null) *)
Definition getFaceVertices (h : heap) (f : nat) : result (list ptr) :=
  let* es := getFaceEdges h f in
  mapM (fun e => let* r := get_e h e in Ok (he_vertex r)) es.
(** getFaceEdge, l.20-33: here a null next is dereferenced *)
Fixpoint find_edge (fuel : nat) (h : heap) (start : ptr) (e v : nat) : result ptr :=
  match fuel with
  | O => Fuel
  | S k =>
    let* r := get_e h e in
    if ptr_eqb (he_vertex r) (Some v) then Ok (Some e) else
    if ptr_eqb (he_next r) start then Ok None else
    let* x := deref (he_next r) in
    find_edge k h start x v
  end.
Definition getFaceEdge (h : heap) (f v : nat) : result ptr :=
  let* fe := get_f h f in
  let* e := deref fe in
  find_edge (length (h_e h)) h fe e v.
(** getTriangleEdges, l.43-51 *)
Definition getTriangleEdges (h : heap) (f : nat) : result (list nat) :=
  let* fe := get_f h f in
  let* e := deref fe in
  let* x := next_of h e in
  let* p := prev_of h e in
  Ok [x; e; p].
(** getCommonEdge, l.247-257 *)
Fixpoint find_common (h : heap) (f2 : nat) (es : list nat) : result ptr :=
  match es with
  | [] => Ok None
  | e :: t =>
    let* r := get_e h e in
    match he_opp r with
    | None => find_common h f2 t
    | Some o => let* ro := get_e h o in
      if ptr_eqb (he_face ro) (Some f2) then Ok (Some e) else find_common h f2 t
    end
  end.
Definition getCommonEdge (h : heap) (f1 f2 : nat) : result ptr :=
  let* es := getFaceEdges h f1 in find_common h f2 es.
(** getCommonEdges, l.268-276 *)
Definition getCommonEdges (h : heap) (f1 f2 : nat) : result (ptr * ptr) :=
  let* c := getCommonEdge h f1 f2 in
  match c with
  | None => Ok (None, None)
  | Some e => let* r := get_e h e in Ok (Some e, he_opp r)
  end.
(** getFacesAttachedToVertex, l.327-360: the faces met turning one way, then, if the fan
    is open, the other way *)
Fixpoint fan_back (fuel : nat) (h : heap) (start e : nat) (acc : list ptr) : result (list ptr * bool) :=
  match fuel with
  | O => Fuel
  | S k =>
    let* r := get_e h e in
    let acc := he_face r :: acc in
    match he_opp r with
    | None => Ok (acc, true)
    | Some o =>
      let* ro := get_e h o in
      match he_prev ro with
      | None => Ok (acc, true)
      | Some p => if p =? start then Ok (acc, false) else fan_back k h start p acc
      end
    end
  end.
Fixpoint fan_forth (fuel : nat) (h : heap) (start e : nat) (acc : list ptr) : result (list ptr) :=
  match fuel with
  | O => Fuel
  | S k =>
    let* r := get_e h e in
    let acc := acc ++ [he_face r] in
    let* x := deref (he_next r) in
    let* rx := get_e h x in
    match he_opp rx with
    | None => Ok acc
    | Some o => if o =? start then Ok acc else fan_forth k h start o acc
    end
  end.
Definition getFacesAttachedToVertex (h : heap) (v : nat) : result (list ptr) :=
  let* r := get_v h v in
  let* start := deref (hv_edge r) in
  let* (acc, opened) := fan_back (length (h_e h)) h start start [] in
  if (opened : bool) then
    let* x := next_of h start in
    let* rx := get_e h x in
    match he_opp rx with
    | None => Ok acc
    | Some o => fan_forth (length (h_e h)) h start o acc
    end
  else Ok acc.
(** findHalfEdge, l.375-392 *)
Fixpoint find_half (h : heap) (vf vt : nat) (fs : list ptr) : result ptr :=
  match fs with
  | [] => Ok None
  | f :: t =>
    let* f := deref f in
    let* inc := getFaceEdge h f vf in
    match inc with
    | None => find_half h vf vt t
    | Some e =>
      let* r := get_e h e in
      match he_next r with
      | None => find_half h vf vt t
      | Some x => let* rx := get_e h x in
        if ptr_eqb (he_vertex rx) (Some vt) then Ok (Some x) else find_half h vf vt t
      end
    end
  end.
Definition findHalfEdge (h : heap) (vf vt : ptr) : result ptr :=
  match vf, vt with
  | Some vf, Some vt =>
    let* r := get_v h vf in
    match hv_edge r with
    | None => Ok None
    | Some _ => let* fs := getFacesAttachedToVertex h vf in find_half h vf vt fs
    end
  | _, _ => Ok None
  end.
(** getNeighboringFaces, l.403-417 *)
Fixpoint neighbours (h : heap) (es : list nat) : result (list nat) :=
  match es with
  | [] => Ok []
  | e :: t =>
    let* r := get_e h e in
    let* l := match he_opp r with
              | None => Ok []
              | Some o => let* ro := get_e h o in
                          Ok (match he_face ro with None => [] | Some f => [f] end)
              end in
    let* l' := neighbours h t in
    Ok (l ++ l')
  end.
Definition getNeighboringFaces (h : heap) (f : nat) : result (list nat) :=
  let* es := getFaceEdges h f in neighbours h es.

(** getFacesBoundary, l.462-487 *)
Definition on_boundary (h : heap) (fs : list nat) (e : nat) : result bool :=
  let* r := get_e h e in
  match he_opp r with
  | None => Ok true
  | Some o => let* ro := get_e h o in
              Ok (negb (existsb (fun f => ptr_eqb (Some f) (he_face ro)) fs))
  end.
Fixpoint filterM {A} (p : A -> result bool) (l : list A) : result (list A) :=
  match l with
  | [] => Ok []
  | a :: t => let* b := p a in let* l' := filterM p t in Ok (if (b : bool) then a :: l' else l')
  end.
Fixpoint boundary_of (h : heap) (all fs : list nat) : result (list nat) :=
  match fs with
  | [] => Ok []
  | f :: t =>
    let* es := getFaceEdges h f in
    let* b := filterM (on_boundary h all) es in
    let* l := boundary_of h all t in
    Ok (b ++ l)
  end.
Definition getFacesBoundary (h : heap) (fs : list nat) : result (list nat) := boundary_of h fs fs.

(** std::ranges::find_if followed by erase: the first element satisfying p and the rest *)
Fixpoint take_first {A} (p : A -> result bool) (l : list A) : result (option (A * list A)) :=
  match l with
  | [] => Ok None
  | a :: t =>
    let* b := p a in
    if (b : bool) then Ok (Some (a, t)) else
    let* r := take_first p t in
    Ok (match r with None => None | Some (x, rest) => Some (x, a :: rest) end)
  end.
(** takeClosedLoops, halfEdgeMeshEditors.h l.381-416: the inner loop grows [cur] at the
    front with an edge that ends where its first edge starts *)
Definition ends_at_tail (h : heap) (first e : nat) : result bool :=
  let* r := get_e h e in
  let* p := prev_of h first in
  let* rp := get_e h p in
  Ok (ptr_eqb (he_vertex r) (he_vertex rp)).
Fixpoint grow_loop (fuel : nat) (h : heap) (first : nat) (cur rest : list nat)
  : result (list nat * list nat) :=
  match fuel with
  | O => Fuel
  | S k =>
    let* f := take_first (ends_at_tail h first) rest in
    match f with
    | None => Ok (cur, rest)
    | Some (e, rest) => grow_loop k h e (e :: cur) rest
    end
  end.
Fixpoint take_loops (fuel : nat) (h : heap) (b : list nat) : result (list (list nat)) :=
  match b with
  | [] => Ok []
  | e :: b =>
    match fuel with
    | O => Fuel
    | S k =>
      let* (l, rest) := grow_loop (S (length b)) h e [e] b in
      let* ls := take_loops k h rest in
      Ok (l :: ls)
    end
  end.
Definition takeClosedLoops (h : heap) (b : list nat) : result (list (list nat)) :=
  take_loops (length b) h b.
(** getOrientedFacesBoundaries, halfEdgeMeshGetters.h l.498-502 *)
Definition getOrientedFacesBoundaries (h : heap) (fs : list nat) : result (list (list nat)) :=
  let* b := getFacesBoundary h fs in takeClosedLoops h b.
(** getOrientedFacesBoundary, l.513-517 *)
Definition getOrientedFacesBoundary (h : heap) (fs : list nat) : result (list nat) :=
  let* ls := getOrientedFacesBoundaries h fs in front ls.

(** ** Editors (halfEdgeMeshEditors.h) *)

(** make_opposite, l.173-180 (the argument [vertex] is not used) *)
Definition make_opposite (h : heap) (e : nat) : result (heap * nat) :=
  let* v := start_of h e in
  let* (h, o) := make_edge h v None in
  let* h := set_opp h o (Some e) in
  let* h := set_opp h e (Some o) in
  Ok (h, o).
(** add_face(edge, coords), l.76-93 *)
Definition attach_face (h : heap) (e : nat) (c : C) : result (heap * ptr) :=
  let* (h, o) := make_opposite h e in
  let* v := end_of h e in
  let* (h, e1) := make_edge h v None in
  let* (h, e3) := make_edge_at h c in
  make_face h [e1; o; e3].
Definition add_face_edge (h : heap) (e : ptr) (c : C) : result (heap * ptr) :=
  match e with
  | None => Ok (h, None)
  | Some e =>
    let* r := get_e h e in
    match he_opp r with Some _ => Ok (h, None) | None => attach_face h e c end
  end.
(** add_face(face, edge, coords), l.49-64 *)
Definition add_face (h : heap) (f e : ptr) (c : C) : result (heap * ptr) :=
  match e with
  | None => Ok (h, None)
  | Some i =>
    let* r := get_e h i in
    if ptr_eqb (he_face r) f then add_face_edge h e c else Ok (h, None)
  end.
(** associate, l.106-111 *)
Definition associate (h : heap) (v e : nat) : result heap :=
  let* h := set_vertex h e (Some v) in set_vedge h v (Some e).
(** flip, l.124-158 *)
Definition repoint (h : heap) (v old new : nat) : result heap :=
  let* r := get_v h v in
  if ptr_eqb (hv_edge r) (Some old) then set_vedge h v (Some new) else Ok h.
Definition flip (h : heap) (f1 f2 : nat) : result heap :=
  let* (a, b) := getCommonEdges h f1 f2 in
  match a, b with
  | Some e11, Some e12 =>
    let* e21 := next_of h e11 in
    let* e31 := next_of h e21 in
    let* e22 := next_of h e12 in
    let* e32 := next_of h e22 in
    let* v1 := end_of h e11 in
    let* v2 := end_of h e21 in
    let* v3 := end_of h e31 in
    let* v4 := end_of h e22 in
    let* h := associate h v4 e11 in
    let* h := associate h v2 e12 in
    let* h := repoint h v1 e11 e32 in
    let* h := repoint h v3 e12 e31 in
    let* h := make_loop h [e11; e32; e21] f1 in
    make_loop h [e12; e31; e22] f2
  | _, _ => Ok h
  end.
(** link_edges, l.193-200 *)
Definition link_edges (h : heap) (e1 e2 : nat) : result heap :=
  let* h := set_opp h e1 (Some e2) in set_opp h e2 (Some e1).
(** chain_edges, l.210-221 *)
Definition chain_edges (h : heap) (e1 e2 : nat) : result heap :=
  let* h := set_next h e1 (Some e2) in set_prev h e2 (Some e1).
(** add_vertex(h_e_lst, h_v), l.236-285 *)
Fixpoint fan (h : heap) (v : nat) (prev : ptr) (es : list nat) : result (heap * list nat) :=
  match es with
  | [] => Ok (h, [])
  | e :: t =>
    let* (h, e1) := make_edge h v None in
    let* s := start_of h e in
    let* (h, e2) := make_edge h s None in
    let* h := match prev with None => Ok h | Some p => link_edges h e2 p end in
    let* (h, f) := make_face h [e; e1; e2] in
    let* f := deref f in
    let* (h, fs) := fan h v (Some e1) t in
    Ok (h, f :: fs)
  end.
Definition add_vertex (h : heap) (es : list nat) (v : nat) : result (heap * list nat) :=
  let* h := set_vedge h v None in
  let* (h, fs) := fan h v None es in
  let* fb := back fs in
  let* eb := get_f h fb in
  let* eb := deref eb in
  let* x := next_of h eb in
  let* ff := front fs in
  let* ef := get_f h ff in
  let* ef := deref ef in
  let* p := prev_of h ef in
  let* h := link_edges h x p in
  Ok (h, fs).
(** add_vertex(h_f, h_v), l.298-302 *)
Definition add_vertex_face (h : heap) (f v : nat) : result (heap * list nat) :=
  let* es := getFaceEdges h f in add_vertex h es v.
(** repairVertexEdges, l.325-337 *)
Fixpoint repair_edges (h : heap) (es : list nat) (seen : list nat) : result (heap * list nat) :=
  match es with
  | [] => Ok (h, seen)
  | e :: t =>
    let* v := end_of h e in
    if existsb (Nat.eqb v) seen then repair_edges h t seen else
    let* h := set_vedge h v (Some e) in
    repair_edges h t (v :: seen)
  end.
Fixpoint repair_faces (h : heap) (fs : list nat) (seen : list nat) : result heap :=
  match fs with
  | [] => Ok h
  | f :: t =>
    let* es := getFaceEdges h f in
    let* (h, seen) := repair_edges h es seen in
    repair_faces h t seen
  end.
Definition repairVertexEdges (h : heap) (fs : list nat) : result heap := repair_faces h fs [].
(** The loop of eraseFace (l.434-440) and remove_faces (l.356-362) *)
Fixpoint cut_opposites (h : heap) (es : list nat) : result heap :=
  match es with
  | [] => Ok h
  | e :: t =>
    let* r := get_e h e in
    let* h := match he_opp r with None => Ok h | Some o => set_opp h o None end in
    cut_opposites h t
  end.
(** eraseFace, l.428-443, on the face at position [i] *)
Definition eraseFace (h : heap) (fs : list nat) (i : nat) : result (heap * list nat) :=
  let* f := get fs i in
  let* es := getFaceEdges h f in
  let* h := cut_opposites h es in
  Ok (h, firstn i fs ++ skipn (S i) fs).
(** remove_faces, l.340-370: the faces kept and the number removed *)
Fixpoint remove_faces (h : heap) (fs : list nat) (v : nat) : result (heap * list nat * nat) :=
  match fs with
  | [] => Ok (h, [], 0)
  | f :: t =>
    let* es := getFaceEdges h f in
    let* vs := mapM (fun e => let* r := get_e h e in Ok (he_vertex r)) es in
    if existsb (ptr_eqb (Some v)) vs then
      let* h := cut_opposites h es in
      let* (h, t, n) := remove_faces h t v in Ok (h, t, S n)
    else
      let* (h, t, n) := remove_faces h t v in Ok (h, f :: t, n)
  end.
(** reverseBoundary, l.517-532 *)
Fixpoint swap_links (h : heap) (es : list nat) : result heap :=
  match es with
  | [] => Ok h
  | e :: t =>
    let* r := get_e h e in
    let* h := put_e h e (mkhe (he_vertex r) (he_face r) (he_prev r) (he_next r) (he_opp r)) in
    swap_links h t
  end.
Definition reverseBoundary (h : heap) (es : list nat) : result (heap * list nat) :=
  let* h := swap_links h (rev es) in Ok (h, rev es).
(** splitHalfEdge, l.547-603; [mid] is edge_midpoint *)
Definition splitHalfEdge (mid : C -> C -> C) (h : heap) (he : nat) (fs : list nat)
  : result (heap * list nat * nat) :=
  let* r := get_e h he in
  let* he_prev := deref (he_prev r) in
  let* he_next := deref (he_next r) in
  let* hf := deref (he_face r) in
  let* va := end_of h he_prev in
  let* vb := deref (he_vertex r) in
  let* ra := get_v h va in
  let* rb := get_v h vb in
  let (h, v) := make_vertex h (mid (hv_coords ra) (hv_coords rb)) in
  let* h := set_vedge h v (Some he) in
  let* (h, n1) := make_edge h v (Some hf) in
  let* h := put_f h hf (Some n1) in
  let* h := chain_edges h n1 he in
  let* h := chain_edges h he_next n1 in
  let* (h, n2) := make_edge h v None in
  let* vn := end_of h he_next in
  let* (h, n3) := make_edge h vn None in
  let* h := link_edges h n1 n3 in
  let* (h, nf) := make_face h [n2; n3; he_prev] in
  let* nf := deref nf in
  let fs := fs ++ [nf] in
  match he_opp r with
  | None => Ok (h, fs, v)
  | Some o =>
    let* ro := get_e h o in
    let* o_prev := deref (Model_Mesh.he_prev ro) in
    let* o_next := deref (Model_Mesh.he_next ro) in
    let* of := deref (he_face ro) in
    let* ov := deref (he_vertex ro) in
    let* h := set_vedge h ov (Some he_prev) in
    let* h := set_vertex h o (Some v) in
    let* von := end_of h o_next in
    let* (h, n1o) := make_edge h von (Some of) in
    let* h := put_f h of (Some n1o) in
    let* h := chain_edges h o n1o in
    let* h := chain_edges h n1o o_prev in
    let* (h, n2o) := make_edge h v None in
    let* vp := end_of h he_prev in
    let* (h, n3o) := make_edge h vp None in
    let* h := link_edges h n1o n2o in
    let* (h, nfo) := make_face h [n2o; n3o; o_next] in
    let* nfo := deref nfo in
    Ok (h, fs ++ [nfo], v)
  end.

(** is_boundary, halfEdgeMeshGeomTests.h l.269-283 *)
Fixpoint turn (fuel : nat) (h : heap) (start e : nat) : result bool :=
  match fuel with
  | O => Fuel
  | S k =>
    let* r := get_e h e in
    match he_opp r with
    | None => Ok false
    | Some o =>
      let* ro := get_e h o in
      if ptr_eqb (he_prev ro) (Some start) then Ok true else
      let* p := deref (he_prev ro) in
      turn k h start p
    end
  end.
Definition is_boundary (h : heap) (v : nat) : result bool :=
  let* r := get_v h v in
  let* e := deref (hv_edge r) in
  turn (length (h_e h)) h e e.
End Mesh.
Arguments hvert : clear implicits.
Arguments heap : clear implicits.
