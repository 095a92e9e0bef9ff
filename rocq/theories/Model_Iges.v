(** Model of the IGES export, gbs-io/iges.h: what is handed to the IGES library, entity by
    entity.  The library itself is not modelled, nor are the names of the entities.
    No proofs in this file. *)
From Coq Require Import List Arith Bool.
From Verif Require Import Model_Base Model_Vec Model_Curve Model_Surface Model_Motion.
Import ListNotations.
Local Open Scope nat_scope.

(** The arguments of DLL_IGES_ENTITY_126::SetNURBSData, of DLL_IGES_ENTITY_128::SetNURBSData
    (its two flags of periodicity are always false), and the calls on a DLL_IGES_ENTITY_120:
    the ends of the axis line, the generatrix, the angles.  The pointer to the coordinates is
    the list of the numbers of the vector of poles from the first on. *)
Record nurbs_curve (T : Type) := e126 {
  cn_n : nat; cn_order : nat; cn_knots : list T; cn_coefs : list T; cn_rational : bool; cn_lo : T; cn_hi : T }.
Record nurbs_surf (T : Type) := e128 {
  sn_nu : nat; sn_nv : nat; sn_orderu : nat; sn_orderv : nat; sn_ku : list T; sn_kv : list T; sn_coefs : list T;
  sn_rational : bool; sn_u1 : T; sn_u2 : T; sn_v1 : T; sn_v2 : T }.
Record revolved (T : Type) := e120 {
  rv_from : pt T; rv_to : pt T; rv_gen : nurbs_curve T; rv_a1 : T; rv_a2 : T }.
Arguments e126 {T}. Arguments cn_n {T}. Arguments cn_order {T}. Arguments cn_knots {T}. Arguments cn_coefs {T}.
Arguments cn_rational {T}. Arguments cn_lo {T}. Arguments cn_hi {T}.
Arguments e128 {T}. Arguments sn_nu {T}. Arguments sn_nv {T}. Arguments sn_orderu {T}. Arguments sn_orderv {T}.
Arguments sn_ku {T}. Arguments sn_kv {T}. Arguments sn_coefs {T}. Arguments sn_rational {T}. Arguments sn_u1 {T}.
Arguments sn_u2 {T}. Arguments sn_v1 {T}. Arguments sn_v2 {T}.
Arguments e120 {T}. Arguments rv_from {T}. Arguments rv_to {T}. Arguments rv_gen {T}. Arguments rv_a1 {T}. Arguments rv_a2 {T}.

Section Iges.
Context {T : Type} `{Num T}.
Variable sqrtf : T -> T.

(** &poles().data()[0][0], gbs-io/iges.h l.19, l.39 and l.57: the numbers of the poles one after
    the other, d of them for each pole, and one more for its weight; no first pole is undefined *)
Definition coords_of (dim : nat) (rational : bool) (poles : list (pt T)) : result (list T) :=
  match poles with
  | [] => Undef BadIndex
  | _ => Ok (flat_map (fun q => map q (seq 0 (dim + if rational then 1 else 0))) poles)
  end.

(** add_geom(BSCurveGeneral), gbs-io/iges.h l.10-25; order() is the degree plus 1,
    gbs/bscurve.h l.334-337 *)
Definition export_curve (dim : nat) (rational : bool) (c : curve T) : result (nurbs_curve T) :=
  let* k := coords_of dim rational (c_poles c) in
  Ok (e126 (length (c_poles c)) (c_deg c + 1) (c_knots c) k rational (c_lo c) (c_hi c)).

(** add_geom(BSSurfaceGeneral), gbs-io/iges.h l.27-44 *)
Definition export_surf (dim : nat) (rational : bool) (s : surf T) : result (nurbs_surf T) :=
  let* n := nPolesU s in
  let* m := nPolesV s in
  let* k := coords_of dim rational (s_poles s) in
  Ok (e128 n m (s_degU s + 1) (s_degV s + 1) (s_ku s) (s_kv s) k rational (s_u1 s) (s_u2 s) (s_v1 s) (s_v2 s)).

(** add_geom(BSCurveGeneral, ax1, v1, v2), gbs-io/iges.h l.46-69 *)
Definition export_revolved (rational : bool) (c : curve T) (o z : pt T) (v1 v2 : T) : result (revolved T) :=
  let* g := export_curve 3 rational c in
  Ok (e120 o (padd o z) g v1 v2).

(** add_geom(SurfaceOfRevolution), gbs-io/iges.h l.71-107, for a surface whose profile is a
    BSCurve (another profile is first approximated, l.77-80: not modelled); the axis and the
    transformation are those of the constructor, gbs/surfaceofrevolution.h l.27-40 *)
Definition export_revolution (c : curve T) (R : frame T) (a1 a2 : T) : result (revolved T) :=
  let* axz := pdiv (f_z R) (norm sqrtf 3 (f_z R)) in
  let* M := trf_from_to sqrtf (mkf (p3 n0 n0 n0) (p3 n0 n1 n0) (p3 n0 n0 n1)) R in
  let* g := mk_curve (map (fun q => transform (p3 (q 0) (q 1) n0) M) (c_poles c)) (c_knots c) (c_deg c) in
  export_revolved false g (f_o R) axz a1 a2.
End Iges.
