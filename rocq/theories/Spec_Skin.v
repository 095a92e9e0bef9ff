(** Vocabulary of the statements about surfaces built from points, constraints and curves. *)
From Coq Require Import List Arith Reals.
From Verif Require Import Model_Base Model_Math Model_Curve Model_Surface Model_Skin Spec_Base Spec_Basis Spec_Knots Spec_Surface Spec_Unify.
Import ListNotations.
Local Open Scope R_scope.

(** The derivative of order (du, dv) of the surface [s] at (u, v) is the point [q] (of [dim]
    coordinates). *)
Definition surface_passes (eps : R) (dim : nat) (s : surf R) (u v : R) (du dv : nat) (q : pt R) : Prop :=
  exists z, @surf_value R (NumR eps) s u v du dv = Ok z /\ forall c, (c < dim)%nat -> z c = q c.

(** Point i of list j of a family of point lists: consecutive points of each list may coincide,
    but not in all the lists at once. *)
Definition spread (dist : pt R -> pt R -> R) (mode : calc_mode) (rows : list (list (pt R))) (n : nat) : Prop :=
  (forall r i, In r rows -> (S i < n)%nat -> 0 <= chord dist r mode i) /\
  (forall i, (S i < n)%nat -> exists r, In r rows /\ 0 < chord dist r mode i).

(** Constraints that are all null only for the null grid of poles. *)
Definition determine (eps : R) (Q : list (@scons R)) (ku kv : list R) (p q : nat) : Prop :=
  forall P : list (pt R), length P = length Q ->
    (forall c, In c Q -> exists z,
       @surf_eval R (NumR eps) (sc_u c) (sc_v c) ku kv P p q (sc_du c) (sc_dv c) = Ok z /\ z 0%nat = 0) ->
    forall i, (i < length Q)%nat -> nth i P (fun _ => 0) 0%nat = 0.

(** Sum of the first i chords; each list longer than eps. *)
Definition travelled (dist : pt R -> pt R -> R) (mode : calc_mode) (r : list (pt R)) (i : nat) : R :=
  sumn i (chord dist r mode).
Definition long_rows (eps : R) (dist : pt R -> pt R -> R) (mode : calc_mode) (rows : list (list (pt R))) (n : nat) : Prop :=
  forall r, In r rows -> eps < travelled dist mode r (n - 1).

(** [u]: increasing from 0, one parameter per point of a list; when no list is shorter than
    eps, the mean of the relative travelled lengths. *)
Definition mean_params (eps : R) (dist : pt R -> pt R -> R) (mode : calc_mode) (rows : list (list (pt R))) (n : nat)
    (u : list R) : Prop :=
  length u = n /\ strictly_increasing u /\ kn u 0 = 0 /\
  (eps < 1 -> long_rows eps dist mode rows n -> forall i, (i < n)%nat ->
     kn u i = sumn (length rows) (fun j =>
       travelled dist mode (nth j rows []) i / travelled dist mode (nth j rows []) (n - 1)) / INR (length rows)).

(** The lists of constant V index and those of constant U index of a grid. *)
Definition rows_of (Q : list (pt R)) (nu nv : nat) : list (list (pt R)) := map (row Q nu) (seq 0 nv).
Definition cols_of (Q : list (pt R)) (nu nv : nat) : list (list (pt R)) := map (col Q nu nv) (seq 0 nu).

(** ** Lofts *)
(** Clamped sections of degree at most 12, whose knots, moved to the interval of the first
    section, are equal or more than eps apart. *)
Definition loftable (eps : R) (c0 : curve R) (cs : list (curve R)) : Prop :=
  (forall c, In c cs -> clamped_object eps c /\ (c_deg c <= 12)%nat) /\
  knots_apart eps (c_knots c0) (map info_of cs).

(** The isoparametric curve of [s] at [v] is the section [c], whose parameters are moved to the
    interval of [c0]. *)
Definition carries (eps : R) (dim : nat) (s : surf R) (c0 c : curve R) (v : R) : Prop :=
  forall x du, c_lo c <= x <= c_hi c -> exists z z',
    @value R (NumR eps) c x du = Ok z /\
    @surf_value R (NumR eps) s (rescale (c_knots c0) (c_knots c) x) v du 0 = Ok z' /\
    forall i, (i < dim)%nat -> ratio (c_knots c0) (c_knots c) ^ du * z' i = z i.
(** The same for rational sections, on values: the weight is the coordinate dim. *)
Definition carries_rational (eps : R) (dim : nat) (s : surf R) (c0 c : curve R) (v : R) : Prop :=
  forall x, c_lo c <= x <= c_hi c -> exists z z',
    @rational_value R (NumR eps) dim c x 0 = Ok z /\
    @surf_rational_value R (NumR eps) dim s (rescale (c_knots c0) (c_knots c) x) v 0 0 = Ok z' /\
    forall i, (i < dim)%nat -> z' i = z i.

(** A distance that tells points with different coordinates apart. *)
Definition separates (dim : nat) (dist : pt R -> pt R -> R) : Prop :=
  forall x y, 0 <= dist x y /\ (dist x y = 0 -> forall i, (i < dim)%nat -> x i = y i).
(** Two sections that differ at some corresponding parameters. *)
Definition sections_differ (eps : R) (dim : nat) (c c' : curve R) : Prop :=
  exists t z z' i, 0 <= t <= 1 /\ (i < dim)%nat /\
    @value R (NumR eps) c (c_lo c + t * (c_hi c - c_lo c)) 0 = Ok z /\
    @value R (NumR eps) c' (c_lo c' + t * (c_hi c' - c_lo c')) 0 = Ok z' /\ z i <> z' i.
