(** C08: affine invariance of the transformations of curves and surfaces. *)
From Coq Require Import List Arith QArith Reals.
From Verif Require Import Model_Base Model_Curve Model_Surface Model_Transform Spec_Base Spec_Basis Spec_Class Spec_Surface Spec_Transform
  Proof_Transform Proof_Transform2 Proof_PropSurface Proof_PropTransform.
Import ListNotations.
Local Open Scope R_scope.

(** transform(g, trf) with any affine function trf: the result has the degrees, knots and bounds of
    g, and each of its points is the image of the point of g of the same parameters.  g is a curve
    or a surface, polynomial or rational. *)
Theorem C08_transform : forall eps dim trf A t (g : geom R), 0 <= eps -> affine dim trf A t -> fit eps dim g ->
  exists g', @transform_geom R (NumR eps) dim trf g = Ok g' /\ carried eps dim (image dim A t) g g'.
Proof. exact carry_geom. Qed.
Print Assumptions C08_transform.

Theorem C08_translate : forall eps dim v (g : geom R), 0 <= eps -> fit eps dim g ->
  exists g', @translate_geom R (NumR eps) dim v g = Ok g' /\ carried eps dim (shift v) g g'.
Proof. exact carry_translate. Qed.
Print Assumptions C08_translate.

Theorem C08_rotate_plane : forall eps a (g : geom R), 0 <= eps -> fit eps 2 g ->
  exists g', @rotate_geom2 R (NumR eps) cos sin a g = Ok g' /\ carried eps 2 (turn2 a) g g'.
Proof. exact carry_rotate2. Qed.
Print Assumptions C08_rotate_plane.

Theorem C08_rotate_space : forall eps a ax (g : geom R), 0 <= eps -> fit eps 3 g -> 0 < dot3 ax ax ->
  exists g', @rotate_geom3 R (NumR eps) sqrt cos sin a ax g = Ok g' /\ carried eps 3 (turn3 a (unit_of ax)) g g'.
Proof. exact carry_rotate3. Qed.
Print Assumptions C08_rotate_space.

Theorem C08_scale : forall eps dim s o (g : geom R), 0 <= eps -> fit eps dim g ->
  exists g', @scale_geom R (NumR eps) dim s o g = Ok g' /\ carried eps dim (dilate s o) g g'.
Proof. exact carry_scale. Qed.
Print Assumptions C08_scale.

Theorem C08_scale_coord : forall eps dim s k o (g : geom R), 0 <= eps -> fit eps dim g -> (k < dim)%nat ->
  exists g', @scale_coord_geom R (NumR eps) dim s k o g = Ok g' /\ carried eps dim (stretch s k o) g g'.
Proof. exact carry_scale_coord. Qed.
Print Assumptions C08_scale_coord.

(** The derivatives of polynomial curves and surfaces, of every order, follow by the linear part of
    the map. *)
Theorem C08_derivatives : forall eps dim trf A t (g : geom R) x d, 0 <= eps -> affine dim trf A t -> fit eps dim g -> admits g x -> proper g d -> polynomial g ->
  exists g' q q', @transform_geom R (NumR eps) dim trf g = Ok g' /\
    derivative_at eps dim g x d = Ok q /\ derivative_at eps dim g' x d = Ok q' /\
    forall i, (i < dim)%nat -> q' i = sumn dim (fun e => A i e * q e).
Proof. exact carry_poly_derivatives. Qed.
Print Assumptions C08_derivatives.
(** The same for rational ones.  Missing for the full statement: orders above 20 (the size_t
    factorials wrap). *)
Theorem C08_rational_derivatives_partial : forall eps dim trf A t (g : geom R) x d, 0 <= eps -> affine dim trf A t -> fit eps dim g -> admits g x -> proper g d ->
  (fst d <= 20)%nat -> (snd d <= 20)%nat ->
  exists g' q q', @transform_geom R (NumR eps) dim trf g = Ok g' /\
    derivative_at eps dim g x d = Ok q /\ derivative_at eps dim g' x d = Ok q' /\
    forall i, (i < dim)%nat -> q' i = sumn dim (fun e => A i e * q e).
Proof. exact carry_rat_derivatives. Qed.
Print Assumptions C08_rational_derivatives_partial.

Example C08_nonvacuous : fit (1/1000) 2 (Curve_ ex_arc) /\ fit (1/1000) 2 (Rational_ ex_arc) /\
  fit (1/1000) 2 (Surface_ ex_surf) /\ fit (1/1000) 2 (RationalSurface_ ex_surf) /\
  admits (Rational_ ex_arc) (1/2, 0) /\ admits (RationalSurface_ ex_surf) (1/2, 1/3) /\
  0 < dot3 (fun _ => 1) (fun _ => 1).
Proof. exact ex_fit. Qed.

(** A weight may not be 0: moving the half circle by the null vector flattens it. *)
Theorem C08_zero_weight_refuted : exists c', @translate_geom Q NumQ 2 (fun _ => 0%Q) (Rational_ arch) = Ok (Rational_ c') /\
  at_q arch (1 # 2) = Ok (0%Q, 1%Q) /\ at_q c' (1 # 2) = Ok (0%Q, 0%Q).
Proof. exact arch_lost. Qed.
Print Assumptions C08_zero_weight_refuted.
