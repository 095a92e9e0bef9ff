(** Vocabulary of transfinite interpolation. *)
From Coq Require Import List Arith Reals.
From Verif Require Import Model_Base Model_Wrap Model_Tfi Spec_Base.
Import ListNotations.
Local Open Scope nat_scope.

(** Both succeed, with the same first dim coordinates. *)
Definition agree (dim : nat) (r r' : result (pt R)) : Prop :=
  exists v v', r = Ok v /\ r' = Ok v' /\ forall c, c < dim -> v c = v' c.

(** The index of the node at the i-th hard parameter: sections of n points share their end
    points. *)
Fixpoint hard (n_iso : list nat) (i : nat) : nat :=
  match i, n_iso with
  | S i, n :: t => (n - 1) + hard t i
  | _, _ => 0
  end.

(** The curves meet where the parameters say; a supporting surface has the derivatives of
    the curves there. *)
Definition lattice (dim P Q : nat) (iso_ksi iso_eth : list (gcurve R)) (ksi eth : list R)
    (p_srf : option (gsurf R)) : Prop :=
  forall i j ck ce, nth_error iso_ksi i = Some ck -> nth_error iso_eth j = Some ce ->
    i < length ksi -> j < length eth ->
    match p_srf with
    | None => agree dim (g_value ck (kn eth j) 0) (g_value ce (kn ksi i) 0)
    | Some s => (forall n, n < P -> agree dim (s (kn ksi i) (kn eth j) 0 n) (g_value ck (kn eth j) n)) /\
                (forall m, m < Q -> agree dim (s (kn ksi i) (kn eth j) m 0) (g_value ce (kn ksi i) m))
    end.

(** [t] lists non-decreasing parameters, the hard ones at the hard indices. *)
Definition distribution (n_iso : list nat) (u t : list R) : Prop :=
  length t = hard n_iso (length n_iso) + 1 /\ nondecreasing t /\
  forall j, j < length u -> kn t (hard n_iso j) = kn u j.
