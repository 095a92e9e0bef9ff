(** Vocabulary of the round trip through JSON. *)
From Coq Require Import List Reals ZArith.
From Verif Require Import Model_Base Model_Curve Model_Surface Model_Json Spec_Base Spec_Basis Spec_Eval Spec_Class Spec_Surface.
Import ListNotations.
Local Open Scope nat_scope.

(** Two lists of points with the same first d coordinates *)
Definition same_points (d : nat) (P P' : list (pt R)) : Prop :=
  length P' = length P /\ forall i c, i < length P -> c < d -> polec P' c i = polec P c i.
Definition first_last (k : list R) : R * R := (kn k 0, kn k (length k - 1)).

(** The same degree, knots and poles; the bounds are the first and the last knot. *)
Definition restored_curve (d : nat) (c c' : curve R) : Prop :=
  c_deg c' = c_deg c /\ c_knots c' = c_knots c /\ same_points d (c_poles c) (c_poles c') /\
  (c_lo c', c_hi c') = first_last (c_knots c).
Definition restored_surface (d : nat) (s s' : surf R) : Prop :=
  s_degU s' = s_degU s /\ s_degV s' = s_degV s /\ s_ku s' = s_ku s /\ s_kv s' = s_kv s /\
  same_points d (s_poles s) (s_poles s') /\
  (s_u1 s', s_u2 s') = first_last (s_ku s) /\ (s_v1 s', s_v2 s') = first_last (s_kv s).

(** A curve the constructor accepts, its knots equal or more than eps apart, its degree one
    that fits in 32 bits *)
Definition storable_curve (eps : R) (c : curve R) : Prop :=
  shape_ok c /\ separated eps (c_knots c) /\ (Z.of_nat (c_deg c) < 2 ^ 32)%Z.
Definition storable_surface (eps : R) (s : surf R) : Prop :=
  s_degU s < s_nU s /\ s_degV s < s_nV s /\ length (s_poles s) = s_nU s * s_nV s /\
  nondecreasing (s_ku s) /\ separated eps (s_ku s) /\ nondecreasing (s_kv s) /\ separated eps (s_kv s) /\
  (Z.of_nat (s_degU s) < 2 ^ 32)%Z /\ (Z.of_nat (s_degV s) < 2 ^ 32)%Z /\
  (Z.of_nat (length (s_ku s)) < 2 ^ 64)%Z /\ (Z.of_nat (length (s_kv s)) < 2 ^ 64)%Z /\
  (Z.of_nat (length (s_poles s)) < 2 ^ 64)%Z.
(** The last coordinate is the weight. *)
Definition nonzero_weights (dim : nat) (P : list (pt R)) : Prop :=
  forall i, i < length P -> polec P dim i <> 0%R.

(** Surfaces and curves of the types make_curve and make_surface know *)
Definition storable_s (eps : R) (dim : nat) (s : jsurf R) : Prop :=
  match s with
  | SBS s => storable_surface eps s
  | SRat s => storable_surface eps s /\ nonzero_weights dim (s_poles s)
  | SRev _ _ _ _ => False
  end.
Fixpoint storable (eps : R) (dim : nat) (g : jcurve R) : Prop :=
  match g with
  | CBS c => storable_curve eps c
  | CRat c => storable_curve eps c /\ nonzero_weights dim (c_poles c)
  | COn c2 s => storable eps 2 c2 /\ storable_s eps dim s
  | CTrim _ _ _ => False
  end.
Definition restored_s (dim : nat) (s s' : jsurf R) : Prop :=
  match s, s' with
  | SBS s, SBS s' => restored_surface dim s s'
  | SRat s, SRat s' => restored_surface (S dim) s s'
  | _, _ => False
  end.
Fixpoint restored (dim : nat) (g g' : jcurve R) : Prop :=
  match g, g' with
  | CBS c, CBS c' => restored_curve dim c c'
  | CRat c, CRat c' => restored_curve (S dim) c c'
  | COn c2 s, COn c2' s' => restored 2 c2 c2' /\ restored_s dim s s'
  | _, _ => False
  end.
Fixpoint depth {T} (g : jcurve T) : nat :=
  match g with COn c2 _ => S (depth c2) | CTrim c _ _ => S (depth c) | _ => 1 end.
