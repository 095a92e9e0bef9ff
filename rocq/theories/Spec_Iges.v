(** Vocabulary for the statements about the IGES export: what the entities stand for. *)
From Coq Require Import List Arith Reals.
From Verif Require Import Model_Base Model_Curve Model_Motion Model_Iges Spec_Base Spec_Basis Spec_Eval Spec_Class Spec_Motion.
Import ListNotations.
Local Open Scope R_scope.

(** Coordinate c of control point i, read with w numbers for each control point. *)
Definition read (w : nat) (coefs : list R) (c i : nat) : R := nth (w * i + c) coefs 0.

(** Entity 126, not rational, control points in space: the point of parameter u. *)
Definition point126 (e : nurbs_curve R) (u : R) (c : nat) : R :=
  spline (kn (cn_knots e)) (cn_n e) (cn_order e - 1) (read 3 (cn_coefs e) c) u.

(** Entity 128, not rational: control point (i, j) has the rank i + n j. *)
Definition point128 (e : nurbs_surf R) (u v : R) (c : nat) : R :=
  sumn (sn_nv e) (fun j => sumn (sn_nu e) (fun i =>
    Nbas (kn (sn_ku e)) (sn_nu e) (sn_orderu e - 1) i u * Nbas (kn (sn_kv e)) (sn_nv e) (sn_orderv e - 1) j v *
    read 3 (sn_coefs e) c (i + sn_nu e * j))).

(** Entity 120: the point of the generatrix, turned by the angle about the axis line. *)
Definition point120 (e : revolved R) (u angle : R) : vec :=
  let n := unit 3 (fun i => rv_to e i - rv_from e i) in
  fun i => rv_from e i + rot n angle (fun j => point126 (rv_gen e) u j - rv_from e j) i.

(** The point u of the plane curve c carried into space: its first coordinate along the Z of the
    frame, the second along its X. *)
Definition profile_point (c : curve R) (F : frame R) (u : R) : vec := fun j =>
  spline (kn (c_knots c)) (c_n c) (c_deg c) (polec (c_poles c) 0) u * unit 3 (f_z F) j +
  spline (kn (c_knots c)) (c_n c) (c_deg c) (polec (c_poles c) 1) u * unit 3 (f_x F) j.

(** Rational entities, in space: four numbers for each control point, the last one its weight and
    the others already multiplied by it. *)
Definition hom126 (e : nurbs_curve R) (u : R) (c : nat) : R :=
  spline (kn (cn_knots e)) (cn_n e) (cn_order e - 1) (read 4 (cn_coefs e) c) u.
Definition hom128 (e : nurbs_surf R) (u v : R) (c : nat) : R :=
  sumn (sn_nv e) (fun j => sumn (sn_nu e) (fun i =>
    Nbas (kn (sn_ku e)) (sn_nu e) (sn_orderu e - 1) i u * Nbas (kn (sn_kv e)) (sn_nv e) (sn_orderv e - 1) j v *
    read 4 (sn_coefs e) c (i + sn_nu e * j))).
