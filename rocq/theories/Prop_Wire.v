(** Theorems about wires (C57). *)
From Coq Require Import List Reals.
From Verif Require Import Model_Base Model_Wire Spec_Wire Proof_Wire Proof_Wire2.
Import ListNotations.
Local Open Scope R_scope.

(** C57: a wire made from an edge by any sequence of addEdge calls, successful or not, is
    connected, and consists of the first edge and the edges for which addEdge answered true.
    Missing: edges whose tolerance is smaller than the wire's or whose projection fails, and
    edges already used (see the refutations). *)
Theorem C57_connected_partial : forall eps dim project bounds tol (h : topo R) e0 eo l,
  sound h -> edge_at h e0 eo -> NoDup (e0 :: l) ->
  (forall e, In e l -> faithful dim project h tol e) ->
  exists h0 w0 answers h' w',
    @new_wire R (NumR eps) sqrt dim project bounds tol h e0 = Ok (h0, w0) /\
    @add_edges R (NumR eps) sqrt dim project bounds h0 w0 l = Ok (answers, h', w') /\
    connected h' w' /\ length answers = length l /\
    (forall e, In e (w_edges w') <-> e = e0 \/ exists i, nth_error l i = Some e /\ nth_error answers i = Some true).
Proof. intros eps dim project bounds. exact (history_ok eps dim project bounds). Qed.
Print Assumptions C57_connected_partial.

(** One call on any connected wire; an edge is added at one of the ends. *)
Theorem C57_add_edge_partial : forall eps dim project bounds (h : topo R) w ed eo,
  sound h -> proper h w -> connected h w -> edge_at h ed eo -> ~ In ed (w_edges w) ->
  faithful dim project h (w_tol w) ed ->
  exists b h' w', @add_edge R (NumR eps) sqrt dim project bounds h w ed = Ok (b, h', w') /\
    connected h' w' /\ (b = true -> w_edges w' = ed :: w_edges w \/ w_edges w' = w_edges w ++ [ed]).
Proof.
  intros eps dim project bounds h w ed eo S P C He N F.
  destruct (add_ok eps dim project bounds h w ed eo S P He N) as (b & h' & w' & E & _ & _ & _ & _ & J & K & _).
  exact (ex_intro _ b (ex_intro _ h' (ex_intro _ w' (conj E (conj (K C F) (fun B => proj2 (J B))))))).
Qed.
Print Assumptions C57_add_edge_partial.

(** addEdge answers true exactly when the wire is open and the edge fits one of its ends,
    by identity of the vertex or within the tolerance ... *)
Theorem C57_accepts : forall eps dim project bounds (h : topo R) w ed eo b h' w',
  sound h -> proper h w -> edge_at h ed eo -> ~ In ed (w_edges w) ->
  @add_edge R (NumR eps) sqrt dim project bounds h w ed = Ok (b, h', w') ->
  (b = true <-> is_closed h w = Ok false /\
     exists v1 v2 p1 p2 q1 q2, starts_at h w v1 /\ ends_at h w v2 /\
       nth_error (t_points h) v1 = Some p1 /\ nth_error (t_points h) v2 = Some p2 /\
       nth_error (t_points h) (e_v1 eo) = Some q1 /\ nth_error (t_points h) (e_v2 eo) = Some q2 /\
       (e_v2 eo = v1 \/ e_v1 eo = v2 \/ dist_n dim p2 q1 < w_tol w \/ dist_n dim p1 q2 < w_tol w)).
Proof.
  intros eps dim project bounds h w ed eo b h' w' S P He N E.
  destruct (add_ok eps dim project bounds h w ed eo S P He N) as (b2 & h2 & w2 & E2 & _ & _ & _ & _ & _ & _ & K).
  rewrite E in E2. injection E2 as -> _ _. exact K.
Qed.
Print Assumptions C57_accepts.

(** ... and a refused edge changes nothing. *)
Theorem C57_refused : forall eps dim project bounds (h : topo R) w ed eo h' w',
  sound h -> proper h w -> edge_at h ed eo -> ~ In ed (w_edges w) ->
  @add_edge R (NumR eps) sqrt dim project bounds h w ed = Ok (false, h', w') -> h' = h /\ w' = w.
Proof.
  intros eps dim project bounds h w ed eo h' w' S P He N E.
  destruct (add_ok eps dim project bounds h w ed eo S P He N) as (b2 & h2 & w2 & E2 & _ & _ & _ & K & _).
  rewrite E in E2. injection E2 as <- -> ->. exact (K eq_refl).
Qed.
Print Assumptions C57_refused.

(** isClosed is true iff the wire ends at the vertex where it starts. *)
Theorem C57_closed : forall (h : topo R) w, proper h w ->
  exists b, is_closed h w = Ok b /\ (b = true <-> exists v, starts_at h w v /\ ends_at h w v).
Proof. exact is_closed_ok. Qed.
Print Assumptions C57_closed.

(** A closed wire accepts no more edges. *)
Theorem C57_closed_accepts_none : forall eps dim project bounds (h : topo R) w ed,
  proper h w -> (exists v, starts_at h w v /\ ends_at h w v) ->
  @add_edge R (NumR eps) sqrt dim project bounds h w ed = Ok (false, h, w).
Proof. intros eps dim project bounds. exact (closed_stays eps dim project bounds). Qed.
Print Assumptions C57_closed_accepts_none.

(** When the wire's tolerance is larger than the edge's, addEdge adds an edge that does not
    share a vertex with its neighbour (the result of setVertex1 is ignored). *)
Theorem C57_tolerance_refuted : forall eps, sound h_tol /\ proper h_tol w_tol1 /\ connected h_tol w_tol1 /\
  exists w', @add_edge R (NumR eps) sqrt 1 project_line segment_of h_tol w_tol1 1 = Ok (true, h_tol, w') /\
    ~ connected h_tol w'.
Proof.
  intros eps. split; [exact tol_sound|]. split; [|split].
  - split; [discriminate|]. intros e [<-|[]]. eexists. reflexivity.
  - intros i e f A B. destruct i as [|[|i]]; discriminate.
  - destruct (tol_run eps) as (w' & E & W). exists w'. exact (conj E (tol_not w' W)).
Qed.
Print Assumptions C57_tolerance_refuted.

(** An edge that belongs to two wires: adding it to the second one disconnects the first. *)
Theorem C57_shared_edge_refuted : forall eps, sound h_two /\ connected h_two w_first /\
  faithful 1 project_line h_two (1/10) 1 /\
  exists h' w', @add_edge R (NumR eps) sqrt 1 project_line segment_of h_two w_second 1 = Ok (true, h', w') /\
    ~ connected h' w_first.
Proof.
  intros eps. split; [exact two_sound|]. split; [exact two_connected|]. split; [exact two_faithful|].
  destruct (two_run eps) as (h' & w' & E & e' & A & B & V). exists h', w'. split; [exact E|].
  intros C. destruct (C 0%nat 0%nat 1%nat eq_refl eq_refl) as (eo & fo & HA & HB & K). unfold edge_at in *.
  rewrite B in HA. rewrite A in HB. injection HA as <-. injection HB as <-. rewrite V in K. discriminate K.
Qed.
Print Assumptions C57_shared_edge_refuted.

(** Coincident end points are not enough: a wire that comes back to its first point through
    shared vertices stays open. *)
Theorem C57_end_points_refuted : forall eps,
  exists w', @add_edge R (NumR eps) sqrt 1 project_line segment_of h_back (mkw [0%nat] (1/10)) 1 = Ok (true, h_back, w') /\
    connected h_back w' /\ starts_at h_back w' 0 /\ ends_at h_back w' 2 /\
    nth_error (t_points h_back) 0 = nth_error (t_points h_back) 2 /\
    is_closed h_back w' = Ok false.
Proof.
  intros eps. destruct (back_run eps) as (w' & E & C & A & B & K). exists w'.
  exact (conj E (conj C (conj A (conj B (conj eq_refl K))))).
Qed.
Print Assumptions C57_end_points_refuted.

(** Two edges with their own vertices at the same point; they meet the hypotheses of
    C57_connected_partial. *)
Example wire_example : sound h_tri /\ NoDup [0; 1]%nat /\ edge_at h_tri 0 (line_edge 0 0 1 (1/10)) /\
  faithful 1 project_line h_tri (1/10) 1.
Proof.
  split; [exact tri_sound|]. split; [|split; [reflexivity|exact tri_faithful]].
  constructor; [intros [H|[]]; discriminate|]. constructor; [intros []|constructor].
Qed.
