(** Vocabulary of C08: affine maps of points, and geometry with the image of its points. *)
From Coq Require Import List Arith Reals.
From Verif Require Import Model_Base Model_Curve Model_Surface Model_Transform Spec_Base Spec_Basis Spec_Eval Spec_Class Spec_Surface.
Import ListNotations.
Local Open Scope R_scope.

(** x -> A x + t on the first [dim] coordinates. *)
Definition image (dim : nat) (A : nat -> nat -> R) (t : pt R) (x : pt R) (i : nat) : R := sumn dim (fun e => A i e * x e) + t i.
(** [trf] never fails and is x -> A x + t. *)
Definition affine (dim : nat) (trf : pt R -> result (pt R)) (A : nat -> nat -> R) (t : pt R) : Prop :=
  forall x, exists y, trf x = Ok y /\ forall i, (i < dim)%nat -> y i = image dim A t x i.

(** Objects that can be evaluated on their whole domain; the weights, if any, are positive. *)
Definition positive_weights (dim : nat) (P : list (pt R)) : Prop := forall q, In q P -> 0 < q dim.
Definition curve_fit (eps : R) (c : curve R) : Prop :=
  knots_ok (c_knots c) (length (c_poles c)) (c_deg c) /\ evaluable eps (c_knots c) (length (c_poles c)) (c_deg c) /\
  c_lo c <= kn (c_knots c) (c_deg c) /\ kn (c_knots c) (length (c_poles c)) <= c_hi c.
Definition surface_fit (eps : R) (s : surf R) : Prop := surface_ok s /\ natural_surface s /\ evaluable_surface eps s.
Definition fit (eps : R) (dim : nat) (g : geom R) : Prop :=
  match g with
  | Curve_ c => curve_fit eps c
  | Rational_ c => curve_fit eps c /\ positive_weights dim (c_poles c)
  | Surface_ s => surface_fit eps s
  | RationalSurface_ s => surface_fit eps s /\ positive_weights dim (s_poles s)
  end.

(** The parameters of an object: one for curves, two for surfaces. *)
Definition param := (R * R)%type.
Definition admits (g : geom R) (x : param) : Prop :=
  match g with
  | Curve_ c | Rational_ c => kn (c_knots c) (c_deg c) <= fst x <= kn (c_knots c) (length (c_poles c))
  | Surface_ s | RationalSurface_ s => in_surface s (fst x) (snd x)
  end.
(** value() of the object. *)
Definition point_at (eps : R) (dim : nat) (g : geom R) (x : param) : result (pt R) :=
  match g with
  | Curve_ c => @value R (NumR eps) c (fst x) 0
  | Rational_ c => @rational_value R (NumR eps) dim c (fst x) 0
  | Surface_ s => @surf_value R (NumR eps) s (fst x) (snd x) 0 0
  | RationalSurface_ s => @surf_rational_value R (NumR eps) dim s (fst x) (snd x) 0 0
  end.
(** value() of the object for the order [d] of derivation: one order for curves, one in each
    direction for surfaces. *)
Definition derivative_at (eps : R) (dim : nat) (g : geom R) (x : param) (d : nat * nat) : result (pt R) :=
  match g with
  | Curve_ c => @value R (NumR eps) c (fst x) (fst d)
  | Rational_ c => @rational_value R (NumR eps) dim c (fst x) (fst d)
  | Surface_ s => @surf_value R (NumR eps) s (fst x) (snd x) (fst d) (snd d)
  | RationalSurface_ s => @surf_rational_value R (NumR eps) dim s (fst x) (snd x) (fst d) (snd d)
  end.
Definition proper (g : geom R) (d : nat * nat) : Prop :=
  match g with Curve_ _ | Rational_ _ => (0 < fst d)%nat | _ => (0 < fst d + snd d)%nat end.
Definition polynomial (g : geom R) : Prop := match g with Curve_ _ | Surface_ _ => True | _ => False end.
(** Same kind, degrees, knots and bounds. *)
Definition same_frame (g g' : geom R) : Prop :=
  match g, g' with
  | Curve_ c, Curve_ c' | Rational_ c, Rational_ c' =>
      c_deg c' = c_deg c /\ c_knots c' = c_knots c /\ c_lo c' = c_lo c /\ c_hi c' = c_hi c /\ length (c_poles c') = length (c_poles c)
  | Surface_ s, Surface_ s' | RationalSurface_ s, RationalSurface_ s' =>
      s_degU s' = s_degU s /\ s_degV s' = s_degV s /\ s_ku s' = s_ku s /\ s_kv s' = s_kv s /\
      s_u1 s' = s_u1 s /\ s_u2 s' = s_u2 s /\ s_v1 s' = s_v1 s /\ s_v2 s' = s_v2 s /\ length (s_poles s') = length (s_poles s)
  | _, _ => False
  end.
(** Every point of [g'] is the image by [f] of the point of [g] of the same parameters. *)
Definition carried (eps : R) (dim : nat) (f : pt R -> pt R) (g g' : geom R) : Prop :=
  same_frame g g' /\
  forall x, admits g x -> exists q q', point_at eps dim g x = Ok q /\ point_at eps dim g' x = Ok q' /\
    forall i, (i < dim)%nat -> q' i = f q i.

(** The maps of the plane and of space. *)
Definition shift (v x : pt R) : pt R := fun i => x i + v i.
Definition turn2 (a : R) (x : pt R) : pt R := fun i =>
  match i with O => cos a * x 0%nat - sin a * x 1%nat | _ => sin a * x 0%nat + cos a * x 1%nat end.
(** Rotation of angle [a] about the unit vector [n] (Rodrigues). *)
Definition dot3 (x y : pt R) : R := x 0%nat * y 0%nat + x 1%nat * y 1%nat + x 2%nat * y 2%nat.
Definition cross3 (x y : pt R) : pt R := fun i =>
  match i with
  | O => x 1%nat * y 2%nat - x 2%nat * y 1%nat
  | S O => x 2%nat * y 0%nat - x 0%nat * y 2%nat
  | _ => x 0%nat * y 1%nat - x 1%nat * y 0%nat
  end.
Definition turn3 (a : R) (n x : pt R) : pt R := fun i => cos a * x i + sin a * cross3 n x i + (1 - cos a) * dot3 n x * n i.
Definition unit_of (ax : pt R) : pt R := fun i => ax i / sqrt (dot3 ax ax).
Definition dilate (s : R) (o x : pt R) : pt R := fun i => o i + s * (x i - o i).
Definition stretch (s : R) (k : nat) (o x : pt R) : pt R := fun i => if Nat.eqb i k then o i + s * (x i - o i) else x i.

(** The half circle of radius 1: a middle pole at infinity, of weight 0. *)
From Coq Require Import QArith.
Definition arch : curve Q :=
  mk 2 [(fun c => match c with O => 1 | S O => 0 | _ => 1 end)%Q; (fun c => match c with O => 0 | S O => 1 | _ => 0 end)%Q;
        (fun c => match c with O => -1 | S O => 0 | _ => 1 end)%Q] [0; 0; 0; 1; 1; 1]%Q 0%Q 1%Q.
Definition at_q (c : curve Q) (u : Q) : result (Q * Q) :=
  match @rational_value Q NumQ 2 c u 0 with
  | Ok q => Ok (Qred (q 0%nat), Qred (q 1%nat)) | Throw e => Throw e | Undef x => Undef x | Fuel => Fuel
  end.
