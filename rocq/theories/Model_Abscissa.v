(** Model of the derivatives with respect to the curvilinear abscissa.  The square root is an
    argument; derivatives(u, n), which B-splines compute in one pass, is the list of the calls
    value(u, k).  No proofs in this file. *)
From Coq Require Import List Arith.
From Verif Require Import Model_Base Model_Vec Model_Wrap.
Import ListNotations.
Local Open Scope nat_scope.

Section Abscissa.
Context {T : Type} `{Num T}.
Variable root : T -> T.
Variable dim : nat.

(** Curve::d_dm, gbs/bscurve.h l.129-133 *)
Definition d_dm (g : gcurve T) (u : T) : result (pt T) :=
  let* d_du := g_value g u 1 in
  pdiv d_du (norm root dim d_du).
(** Curve::d_dm2, gbs/bscurve.h l.140-149 *)
Definition d_dm2 (g : gcurve T) (u : T) : result (pt T) :=
  let* _ := g_value g u 0 in
  let* d_du := g_value g u 1 in
  let* d_du2 := g_value g u 2 in
  let N := sq_norm dim d_du in
  let cp_cs := dot dim d_du d_du2 in
  pdiv (psub (pscal N d_du2) (pscal cp_cs d_du)) (nmul N N).
(** Curve::d_dms and d_dm2s, gbs/bscurve.h l.159-188, in sequence *)
Definition d_dms (g : gcurve T) (us : list T) : result (list (pt T)) := mapM (d_dm g) us.
Definition d_dm2s (g : gcurve T) (us : list T) : result (list (pt T)) := mapM (d_dm2 g) us.

(** Surface::d_dmu and d_dmv, gbs/bssurf.h l.257-272 *)
Definition d_dmu (s : gsurf T) (u v : T) : result (pt T) :=
  let* S_u := s u v 1 0 in
  pdiv S_u (norm root dim S_u).
Definition d_dmv (s : gsurf T) (u v : T) : result (pt T) :=
  let* S_v := s u v 0 1 in
  pdiv S_v (norm root dim S_v).
(** Surface::d_dmu2 and d_dmv2, gbs/bssurf.h l.279-303 *)
Definition d_dmu2 (s : gsurf T) (u v : T) : result (pt T) :=
  let* _ := s u v 0 0 in
  let* S_u := s u v 1 0 in
  let* S_uu := s u v 2 0 in
  let N := sq_norm dim S_u in
  let dot_ := dot dim S_u S_uu in
  pdiv (psub (pscal N S_uu) (pscal dot_ S_u)) (nmul N N).
Definition d_dmv2 (s : gsurf T) (u v : T) : result (pt T) :=
  let* _ := s u v 0 0 in
  let* S_v := s u v 0 1 in
  let* S_vv := s u v 0 2 in
  let N := sq_norm dim S_v in
  let dot_ := dot dim S_v S_vv in
  pdiv (psub (pscal N S_vv) (pscal dot_ S_v)) (nmul N N).
End Abscissa.
