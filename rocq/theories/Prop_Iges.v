(** C94: what the IGES export hands to the IGES library. *)
From Coq Require Import List Arith Reals.
From Verif Require Import Model_Base Model_Curve Model_Surface Model_Motion Model_Wrap Model_Iges Spec_Base Spec_Basis Spec_Eval Spec_Class
  Spec_Surface Spec_Motion Spec_Wrap Spec_Transform Spec_Iges Proof_Iges.
Import ListNotations.
Local Open Scope R_scope.

(** A curve: number of poles, order, knots, bounds, and the numbers of the poles in their order,
    the weight last if the curve is rational. *)
Theorem C94_curve : forall dim (rational : bool) (c : curve R), c_poles c <> [] ->
  let w := (dim + if rational then 1 else 0)%nat in
  exists e, export_curve dim rational c = Ok e /\ cn_n e = length (c_poles c) /\ cn_order e = (c_deg c + 1)%nat /\
    cn_knots e = c_knots c /\ cn_rational e = rational /\ cn_lo e = c_lo c /\ cn_hi e = c_hi c /\
    length (cn_coefs e) = (w * cn_n e)%nat /\
    forall j i, (j < w)%nat -> (i < cn_n e)%nat -> read w (cn_coefs e) j i = polec (c_poles c) j i.
Proof. exact export_curve_ok. Qed.
Print Assumptions C94_curve.

(** A surface: the same in both directions, pole (i, j) at the rank i + nU j. *)
Theorem C94_surface : forall dim (rational : bool) (s : surf R), surface_ok s ->
  let w := (dim + if rational then 1 else 0)%nat in
  exists e, export_surf dim rational s = Ok e /\ sn_nu e = s_nU s /\ sn_nv e = s_nV s /\
    sn_orderu e = (s_degU s + 1)%nat /\ sn_orderv e = (s_degV s + 1)%nat /\ sn_ku e = s_ku s /\ sn_kv e = s_kv s /\
    sn_rational e = rational /\ sn_u1 e = s_u1 s /\ sn_u2 e = s_u2 s /\ sn_v1 e = s_v1 s /\ sn_v2 e = s_v2 s /\
    length (sn_coefs e) = (w * (sn_nu e * sn_nv e))%nat /\
    forall c i j, (c < w)%nat -> (i < sn_nu e)%nat -> (j < sn_nv e)%nat ->
      read w (sn_coefs e) c (i + sn_nu e * j) = polec (s_poles s) c (i + s_nU s * j).
Proof. exact export_surf_ok. Qed.
Print Assumptions C94_surface.

(** A polynomial curve or surface in space: the entity has the same points at the same
    parameters. *)
Theorem C94_space_curve : forall eps (c : curve R), 0 <= eps -> well_formed c -> natural_bounds c -> evaluable_curve eps c ->
  exists e, export_curve 3 false c = Ok e /\ cn_lo e = c_lo c /\ cn_hi e = c_hi c /\
    forall u, in_domain c u -> exists q, @value R (NumR eps) c u 0 = Ok q /\ same 3 q (point126 e u).
Proof. exact export_space. Qed.
Print Assumptions C94_space_curve.
Theorem C94_space_surface : forall eps (s : surf R), 0 <= eps -> surface_ok s -> natural_surface s -> evaluable_surface eps s ->
  exists e, export_surf 3 false s = Ok e /\ (sn_u1 e, sn_u2 e, sn_v1 e, sn_v2 e) = (s_u1 s, s_u2 s, s_v1 s, s_v2 s) /\
    forall u v, in_surface s u v -> exists q, @surf_value R (NumR eps) s u v 0 0 = Ok q /\ same 3 q (point128 e u v).
Proof. exact export_space_surf. Qed.
Print Assumptions C94_space_surface.

(** The same for rational ones, where the weight does not vanish: it is positive if all poles have
    positive weights. *)
Theorem C94_rational_curve : forall eps (c : curve R), 0 <= eps -> well_formed c -> natural_bounds c -> evaluable_curve eps c ->
  exists e, export_curve 3 true c = Ok e /\ cn_lo e = c_lo c /\ cn_hi e = c_hi c /\
    (positive_weights 3 (c_poles c) -> forall u, in_domain c u -> 0 < hom126 e u 3) /\
    forall u, in_domain c u -> hom126 e u 3 <> 0 ->
      exists q, @rational_value R (NumR eps) 3 c u 0 = Ok q /\ same 3 q (fun i => hom126 e u i / hom126 e u 3).
Proof. exact export_space_rational. Qed.
Print Assumptions C94_rational_curve.
Theorem C94_rational_surface : forall eps (s : surf R), 0 <= eps -> surface_ok s -> natural_surface s -> evaluable_surface eps s ->
  exists e, export_surf 3 true s = Ok e /\ (sn_u1 e, sn_u2 e, sn_v1 e, sn_v2 e) = (s_u1 s, s_u2 s, s_v1 s, s_v2 s) /\
    (positive_weights 3 (s_poles s) -> forall u v, in_surface s u v -> 0 < hom128 e u v 3) /\
    forall u v, in_surface s u v -> hom128 e u v 3 <> 0 ->
      exists q, @surf_rational_value R (NumR eps) 3 s u v 0 0 = Ok q /\ same 3 q (fun i => hom128 e u v i / hom128 e u v 3).
Proof. exact export_space_rational_surf. Qed.
Print Assumptions C94_rational_surface.

(** A plane curve: the third coordinate of the last pole, which an IGES control point has, lies
    beyond the end of the numbers handed over. *)
Theorem C94_plane_refuted : forall (c : curve R) e, export_curve 2 false c = Ok e ->
  exists i j, (i < cn_n e)%nat /\ (j < 3)%nat /\ get (cn_coefs e) (3 * i + j) = Undef BadIndex.
Proof. exact export_plane. Qed.
Print Assumptions C94_plane_refuted.

(** A surface of revolution: the entity is the surface obtained by turning the profile about the
    axis of the frame, whole, from the first to the last knot of the profile. *)
Theorem C94_revolution : forall eps (c : curve R) F a1 a2, well_formed c -> nonzero 3 (f_z F) -> nonzero 3 (f_x F) ->
  exists e, @export_revolution R (NumR eps) sqrt c F a1 a2 = Ok e /\ rv_a1 e = a1 /\ rv_a2 e = a2 /\
    cn_lo (rv_gen e) = kn (c_knots c) 0 /\ cn_hi (rv_gen e) = kn (c_knots c) (length (c_knots c) - 1) /\
    forall u v, in_domain c u ->
      same 3 (point120 e u v) (fun i => f_o F i + rot (unit 3 (f_z F)) v (profile_point c F u) i).
Proof. exact export_rev. Qed.
Print Assumptions C94_revolution.

(** It has the points of value() when the axis passes through the origin of coordinates and the
    bounds of the profile are its end knots ... *)
Theorem C94_revolution_value_partial : forall eps fm (c : curve R) F a1 a2 lam, is_fmod fm -> 0 <= eps ->
  well_formed c -> natural_bounds c -> evaluable_curve eps c -> nonzero 3 (f_z F) -> nonzero 3 (f_x F) ->
  same 3 (f_o F) (fun j => lam * f_z F j) ->
  exists e s, @export_revolution R (NumR eps) sqrt c F a1 a2 = Ok e /\
    @revolution R (NumR eps) sqrt cos sin PI fm (@of_curve R (NumR eps) c) F = Ok s /\
    rv_a1 e = a1 /\ rv_a2 e = a2 /\ cn_lo (rv_gen e) = c_lo c /\ cn_hi (rv_gen e) = c_hi c /\
    forall u v, in_domain c u -> exists q, s u v 0%nat 0%nat = Ok q /\ same 3 q (point120 e u v).
Proof. exact export_rev_value. Qed.
Print Assumptions C94_revolution_value_partial.
Example C94_nonvacuous : forall eps, exists (c : curve R) F lam, well_formed c /\ natural_bounds c /\ evaluable_curve eps c /\
  nonzero 3 (f_z F) /\ nonzero 3 (f_x F) /\ same 3 (f_o F) (fun j => lam * f_z F j) /\ lam = 2 /\ in_domain c (1/2).
Proof. exact export_axis_case. Qed.

(** ... and other points for an axis elsewhere, where value() turns about the wrong line; the
    part of the profile beyond its bounds is exported too. *)
Theorem C94_off_axis_refuted : forall eps fm, is_fmod fm -> 0 <= eps -> exists (c : curve R) F e s,
  well_formed c /\ natural_bounds c /\ evaluable_curve eps c /\ nonzero 3 (f_z F) /\ nonzero 3 (f_x F) /\
  @export_revolution R (NumR eps) sqrt c F 0 PI = Ok e /\
  @revolution R (NumR eps) sqrt cos sin PI fm (@of_curve R (NumR eps) c) F = Ok s /\
  forall u, 0 <= u <= 1 -> exists q, s u PI 0%nat 0%nat = Ok q /\ q 0%nat = -2 /\ point120 e u PI 0%nat = 0.
Proof. exact export_off. Qed.
Print Assumptions C94_off_axis_refuted.
Theorem C94_trim_refuted : forall eps, exists (c : curve R) F e, well_formed c /\ evaluable_curve eps c /\
  nonzero 3 (f_z F) /\ nonzero 3 (f_x F) /\
  @export_revolution R (NumR eps) sqrt c F 0 PI = Ok e /\ bounds c = (0, 1/2) /\ cn_lo (rv_gen e) = 0 /\ cn_hi (rv_gen e) = 1.
Proof. exact export_trim. Qed.
Print Assumptions C94_trim_refuted.
