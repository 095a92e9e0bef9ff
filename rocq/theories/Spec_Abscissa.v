(** Vocabulary for the derivatives with respect to the curvilinear abscissa. *)
From Coq Require Import Reals.
From Verif Require Import Model_Base Spec_Base Spec_Motion.
Local Open Scope R_scope.

(** [C0], [C1], [C2] is a curve of [dim] coordinates with its first two derivatives on the open
    interval, which never stops there. *)
Definition regular (dim : nat) (a b : R) (C0 C1 C2 : R -> vec) : Prop := forall x, a < x < b ->
  nonzero dim (C1 x) /\ forall i, (i < dim)%nat ->
  derivable_pt_lim (fun x => C0 x i) x (C1 x i) /\ derivable_pt_lim (fun x => C1 x i) x (C2 x i).
(** [phi] gives the parameter as a function of the curvilinear abscissa: it runs through the curve
    at the rate of one over its speed. *)
Definition by_length (dim : nat) (a b c d : R) (C1 : R -> vec) (phi : R -> R) : Prop := forall s, c < s < d ->
  a < phi s < b /\ derivable_pt_lim phi s (1 / len dim (C1 (phi s))).
(** [T] and [N] are, on the interval, the first and second derivatives of the curve [X]. *)
Definition derivatives_of (dim : nat) (c d : R) (X T N : R -> vec) : Prop := forall s i, c < s < d -> (i < dim)%nat ->
  derivable_pt_lim (fun s => X s i) s (T s i) /\ derivable_pt_lim (fun s => T s i) s (N s i).
Fixpoint inner_product (dim : nat) (a b : vec) : R :=
  match dim with O => 0 | S m => inner_product m a b + a m * b m end.
