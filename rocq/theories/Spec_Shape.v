(** Vocabulary of the statements about shaping: curves and surfaces whose poles are moved to
    meet constraints. *)
From Coq Require Import List Arith Reals.
From Verif Require Import Model_Base Model_Curve Model_Interp Model_Surface Model_Skin
  Spec_Base Spec_Basis Spec_Eval Spec_Class Spec_Surface Spec_Interp.
Import ListNotations.
Local Open Scope R_scope.

(** ** Curves *)
(** A clamped curve whose distinct knots are further apart than the tolerance. *)
Definition shapeable (eps : R) (c : curve R) : Prop :=
  standard c /\ natural_bounds c /\ separated eps (c_knots c) /\ 0 < eps.

(** c' is c with other poles of index i1 .. i2. *)
Definition reshaped (c : curve R) (i1 i2 : nat) (c' : curve R) : Prop :=
  c_deg c' = c_deg c /\ c_knots c' = c_knots c /\ bounds c' = bounds c /\
  length (c_poles c') = length (c_poles c) /\
  forall j, (j < i1 \/ i2 < j)%nat -> nth j (c_poles c') (fun _ => 0) = nth j (c_poles c) (fun _ => 0).

(** Coordinate [co] of the sum of the squared displacements of the poles. *)
Definition displacement (P P' : list (pt R)) (co : nat) : R :=
  sumn (length P) (fun j => (nth j P' (fun _ => 0) co - nth j P (fun _ => 0) co) ^ 2).

(** [ds] are the constraints [goals], given as differences with the curve. *)
Definition gaps (eps : R) (c : curve R) (goals ds : list (@cpoint R)) : Prop :=
  Forall2 (fun g d => cp_u d = cp_u g /\ cp_d d = cp_d g /\
    exists v, @value R (NumR eps) c (cp_u g) (cp_d g) = Ok v /\
      forall co, cp_v d co = cp_v g co - v co) goals ds.

(** All the constraints are met. *)
Definition meets (eps : R) (dim : nat) (c : curve R) (goals : list (@cpoint R)) : Prop :=
  forall g, In g goals -> passes eps dim c (cp_u g) (cp_d g) (cp_v g).

(** [e] is the sum, over the constraints, of the squared gaps along coordinate [co]. *)
Definition misses_by (eps : R) (c : curve R) (goals : list (@cpoint R)) (co : nat) (e : R) : Prop :=
  exists V : nat -> pt R,
    (forall i g, nth_error goals i = Some g -> @value R (NumR eps) c (cp_u g) (cp_d g) = Ok (V i)) /\
    e = sumn (length goals) (fun i =>
          (V i co - cp_v (nth i goals (mkcp (fun _ => 0) 0 0%nat)) co) ^ 2).

(** ** Surfaces *)
Definition shapeable_surface (eps : R) (s : surf R) : Prop :=
  surface_ok s /\ natural_surface s /\ 0 < eps /\
  clamped (s_ku s) (s_nU s) (s_degU s) /\ clamped (s_kv s) (s_nV s) (s_degV s) /\
  separated eps (s_ku s) /\ separated eps (s_kv s).

(** s' is s with other poles of indexes i1 .. i2 along U and j1 .. j2 along V. *)
Definition reshaped_surface (s : surf R) (i1 i2 j1 j2 : nat) (s' : surf R) : Prop :=
  s_degU s' = s_degU s /\ s_degV s' = s_degV s /\ s_ku s' = s_ku s /\ s_kv s' = s_kv s /\
  s_u1 s' = s_u1 s /\ s_u2 s' = s_u2 s /\ s_v1 s' = s_v1 s /\ s_v2 s' = s_v2 s /\
  length (s_poles s') = length (s_poles s) /\
  forall i j, (i < s_nU s)%nat -> (i < i1 \/ i2 < i \/ j < j1 \/ j2 < j)%nat ->
    nth (i + s_nU s * j) (s_poles s') (fun _ => 0) = nth (i + s_nU s * j) (s_poles s) (fun _ => 0).

(** The derivative of orders (du, dv) of the surface at (u, v) is the point [x]. *)
Definition meets_surface (eps : R) (dim : nat) (s : surf R) (goals : list (@scons R)) : Prop :=
  forall g, In g goals -> exists z,
    @surf_value R (NumR eps) s (sc_u g) (sc_v g) (sc_du g) (sc_dv g) = Ok z /\
    forall co, (co < dim)%nat -> z co = sc_x g co.
Definition surface_misses_by (eps : R) (s : surf R) (goals : list (@scons R)) (co : nat) (e : R) : Prop :=
  exists V : nat -> pt R,
    (forall i g, nth_error goals i = Some g ->
       @surf_value R (NumR eps) s (sc_u g) (sc_v g) (sc_du g) (sc_dv g) = Ok (V i)) /\
    e = sumn (length goals) (fun i =>
          (V i co - sc_x (nth i goals (mksc 0 0 (fun _ => 0) 0%nat 0%nat)) co) ^ 2).

(** Some pole that may move acts on the curve at u: an inner one when the ends are kept. *)
Definition movable (c : curve R) (u : R) (keep_ends : bool) : Prop :=
  exists j, (j < length (c_poles c))%nat /\
    (keep_ends = true -> (0 < j < length (c_poles c) - 1)%nat) /\
    Nbas (kn (c_knots c)) (length (c_poles c)) (c_deg c) j u <> 0.

(** c' has the degree, the knots, the bounds and the number of poles of c, and its end poles
    when they are kept. *)
Definition same_frame (c : curve R) (keep_ends : bool) (c' : curve R) : Prop :=
  c_deg c' = c_deg c /\ c_knots c' = c_knots c /\ bounds c' = bounds c /\
  length (c_poles c') = length (c_poles c) /\
  (keep_ends = true -> forall j, (j = 0 \/ j = length (c_poles c) - 1)%nat ->
     nth j (c_poles c') (fun _ => 0) = nth j (c_poles c) (fun _ => 0)).

(** [ds] are the constraints [goals], given as differences with the surface. *)
Definition surface_gaps (eps : R) (s : surf R) (goals ds : list (@scons R)) : Prop :=
  Forall2 (fun g d => sc_u d = sc_u g /\ sc_v d = sc_v g /\
    exists z, @surf_value R (NumR eps) s (sc_u g) (sc_v g) (sc_du g) (sc_dv g) = Ok z /\
      forall co, sc_x d co = sc_x g co - z co) goals ds.

(** Constraints on positions, at parameters of the surface. *)
Definition positions (s : surf R) (goals : list (@scons R)) : Prop :=
  forall g, In g goals -> sc_du g = 0%nat /\ sc_dv g = 0%nat /\ in_surface s (sc_u g) (sc_v g).

(** s' has the degrees, the knots, the bounds and the numbers of poles of s, and its border poles
    when they are kept. *)
Definition same_surface_frame (s : surf R) (keep_border : bool) (s' : surf R) : Prop :=
  s_degU s' = s_degU s /\ s_degV s' = s_degV s /\ s_ku s' = s_ku s /\ s_kv s' = s_kv s /\
  s_u1 s' = s_u1 s /\ s_u2 s' = s_u2 s /\ s_v1 s' = s_v1 s /\ s_v2 s' = s_v2 s /\
  length (s_poles s') = length (s_poles s) /\
  (keep_border = true -> forall i j, (i < s_nU s)%nat -> (j < s_nV s)%nat ->
     (i = 0 \/ i = s_nU s - 1 \/ j = 0 \/ j = s_nV s - 1)%nat ->
     nth (i + s_nU s * j) (s_poles s') (fun _ => 0) = nth (i + s_nU s * j) (s_poles s) (fun _ => 0)).

(** The weight, at (u, v), of the pole of indices (i, j). *)
Definition pole_weight (s : surf R) (u v : R) (i j : nat) : R :=
  Nbas (kn (s_ku s)) (s_nU s) (s_degU s) i u * Nbas (kn (s_kv s)) (s_nV s) (s_degV s) j v.

(** A pole, not of the border when it is kept, acts on the point of parameters (u, v). *)
Definition surface_movable (s : surf R) (u v : R) (keep_border : bool) : Prop :=
  exists i j, (i < s_nU s)%nat /\ (j < s_nV s)%nat /\
    (keep_border = true -> (0 < i < s_nU s - 1 /\ 0 < j < s_nV s - 1)%nat) /\
    pole_weight s u v i j <> 0.

(** The poles out of the window [i1, i2] x [j1, j2] are kept ones, or act on no constraint. *)
Definition covers (s : surf R) (keep_border : bool) (goals : list (@scons R)) (i1 i2 j1 j2 : nat) : Prop :=
  (i2 < s_nU s)%nat /\ (j2 < s_nV s)%nat /\
  forall i j, (i < s_nU s)%nat -> (j < s_nV s)%nat -> (i < i1 \/ i2 < i \/ j < j1 \/ j2 < j)%nat ->
    (keep_border = true /\ (i = 0 \/ i = s_nU s - 1 \/ j = 0 \/ j = s_nV s - 1)%nat) \/
    forall g, In g goals -> pole_weight s (sc_u g) (sc_v g) i j = 0.

(** The unit square, of degrees (1, 1): the constraint S_u(0, 0) = (2, 0). *)
Definition sq : surf R :=
  mks 1 1 [fun _ => 0; fun co => match co with O => 1 | _ => 0 end; fun co => match co with O => 0 | _ => 1 end; fun _ => 1]
    [0; 0; 1; 1] [0; 0; 1; 1] 0 1 0 1.
Definition sq_goal : @scons R := mksc 0 0 (fun co => match co with O => 2 | _ => 0 end) 1%nat 0%nat.
