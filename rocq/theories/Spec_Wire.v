(** Vocabulary for the statements about wires. *)
From Coq Require Import List Reals.
From Verif Require Import Model_Base Model_Vec Model_Wire.
Import ListNotations.
Local Open Scope R_scope.

Definition edge_at (h : topo R) (e : nat) (eo : edge R) : Prop := nth_error (t_edges h) e = Some eo.
(** Every edge has two existing vertices. *)
Definition sound (h : topo R) : Prop :=
  forall e eo, edge_at h e eo -> (e_v1 eo < length (t_points h))%nat /\ (e_v2 eo < length (t_points h))%nat.
(** A wire of existing edges. *)
Definition proper (h : topo R) (w : wire R) : Prop :=
  w_edges w <> [] /\ forall e, In e (w_edges w) -> exists eo, edge_at h e eo.

(** Consecutive edges share a vertex. *)
Definition connected (h : topo R) (w : wire R) : Prop :=
  forall i e f, nth_error (w_edges w) i = Some e -> nth_error (w_edges w) (S i) = Some f ->
    exists eo fo, edge_at h e eo /\ edge_at h f fo /\ e_v2 eo = e_v1 fo.

(** First vertex of the first edge, second vertex of the last one. *)
Definition starts_at (h : topo R) (w : wire R) (v : nat) : Prop :=
  exists e eo, nth_error (w_edges w) 0 = Some e /\ edge_at h e eo /\ e_v1 eo = v.
Definition ends_at (h : topo R) (w : wire R) (v : nat) : Prop :=
  exists e eo, nth_error (w_edges w) (length (w_edges w) - 1) = Some e /\ edge_at h e eo /\ e_v2 eo = v.

(** Euclidean distance of points with dim coordinates *)
Fixpoint sqdist_n (n : nat) (a b : pt R) : R :=
  match n with 0%nat => 0 | S m => sqdist_n m a b + (a m - b m) * (a m - b m) end.
Definition dist_n (n : nat) (a b : pt R) : R := sqrt (sqdist_n n a b).

(** The wire's tolerance is not larger than the edge's, and the closest point of its curve
    is not farther than its end vertices. *)
Definition faithful (dim : nat) (project : nat -> pt R -> R * R) (h : topo R) (tol : R) (e : nat) : Prop :=
  exists eo p1 p2, edge_at h e eo /\ nth_error (t_points h) (e_v1 eo) = Some p1 /\
    nth_error (t_points h) (e_v2 eo) = Some p2 /\ tol <= e_tol eo /\
    forall p, In p (t_points h) ->
      snd (project (e_curve eo) p) <= dist_n dim p p1 /\ snd (project (e_curve eo) p) <= dist_n dim p p2.
