(** Vocabulary for the statements about surfaces: a grid of n x m poles stored U first. *)
From Coq Require Import List Arith Reals.
From Verif Require Import Model_Base Model_Curve Model_Surface Spec_Base Spec_Basis Spec_Eval Spec_Class.
Import ListNotations.
Local Open Scope R_scope.

(** The poles of V index j (a curve in u), and those of U index i (a curve in v). *)
Definition row (P : list (pt R)) (n j : nat) : list (pt R) :=
  map (fun i => nth (i + n * j) P (fun _ => 0)) (seq 0 n).
Definition col (P : list (pt R)) (n m i : nat) : list (pt R) :=
  map (fun j => nth (i + n * j) P (fun _ => 0)) (seq 0 m).

(** sum_ij N_i(u) N_j(v) P_ij *)
Definition tensor (ku : list R) (n p : nat) (kv : list R) (m q : nat) (P : list (pt R)) (c : nat)
    (u v : R) : R :=
  sumn m (fun j => sumn n (fun i =>
    Nbas (kn ku) n p i u * Nbas (kn kv) m q j v * polec P c (i + n * j))).

(** Degrees the stack evaluator handles, or data on which the recursive evaluator is
    exact in both directions. *)
Definition evaluable2 (eps : R) (ku : list R) (n p : nat) (kv : list R) (m q : nat) : Prop :=
  (p <= 24 /\ q <= 24)%nat \/
  (end_clamped ku n p /\ separated eps ku /\ end_clamped kv m q /\ separated eps kv /\ 0 < eps).

(** Data of a surface: fit knots in both directions, a full grid. *)
Definition grid_ok (ku : list R) (n p : nat) (kv : list R) (m q : nat) (P : list (pt R)) : Prop :=
  knots_ok ku n p /\ knots_ok kv m q /\ length P = (n * m)%nat.
Definition in_rect (ku : list R) (n p : nat) (kv : list R) (m q : nat) (u v : R) : Prop :=
  kn ku p <= u <= kn ku n /\ kn kv q <= v <= kn kv m.

(** Entry (j, i) of a list of rows. *)
Definition at2 {A} (d : A) (g : list (list A)) (j i : nat) : A := nth i (nth j g []) d.
(** [a] rows of [b] entries. *)
Definition rectangular {A} (g : list (list A)) (a b : nat) : Prop :=
  length g = a /\ forall r, In r g -> length r = b.

(** ** Surface objects *)
Definition s_nU (s : surf R) : nat := length (s_ku s) - s_degU s - 1.
Definition s_nV (s : surf R) : nat := length (s_kv s) - s_degV s - 1.
Definition surface_ok (s : surf R) : Prop :=
  grid_ok (s_ku s) (s_nU s) (s_degU s) (s_kv s) (s_nV s) (s_degV s) (s_poles s).
(** bounds() are the first and the last knots. *)
Definition natural_surface (s : surf R) : Prop :=
  s_u1 s = kn (s_ku s) 0 /\ s_u2 s = kn (s_ku s) (s_nU s + s_degU s) /\
  s_v1 s = kn (s_kv s) 0 /\ s_v2 s = kn (s_kv s) (s_nV s + s_degV s).
Definition evaluable_surface (eps : R) (s : surf R) : Prop :=
  evaluable2 eps (s_ku s) (s_nU s) (s_degU s) (s_kv s) (s_nV s) (s_degV s).
Definition in_surface (s : surf R) (u v : R) : Prop :=
  in_rect (s_ku s) (s_nU s) (s_degU s) (s_kv s) (s_nV s) (s_degV s) u v.
(** The curve of V index j, and that of U index i, with the bounds of the surface. *)
Definition urow (s : surf R) (j : nat) : curve R :=
  mk (s_degU s) (row (s_poles s) (s_nU s) j) (s_ku s) (s_u1 s) (s_u2 s).
Definition vcol (s : surf R) (i : nat) : curve R :=
  mk (s_degV s) (col (s_poles s) (s_nU s) (s_nV s) i) (s_kv s) (s_v1 s) (s_v2 s).
(** Derivation at order du is continuous at u. *)
Definition smooth_knots (k : list R) (n p : nat) (x : R) (d : nat) : Prop :=
  kn k p < x < kn k n -> count_occ Req_EM_T k x = 0%nat \/ (d + count_occ Req_EM_T k x <= p)%nat.
(** For two surfaces, value() succeeds at parameters linked by [dom] and the results
    agree up to the factor f du dv. *)
Definition surfaces_agree (eps : R) (s s' : surf R) (dom : R -> R -> R -> R -> nat -> nat -> Prop)
    (f : nat -> nat -> R) : Prop :=
  forall u v u' v' du dv, dom u v u' v' du dv ->
    exists z z', @surf_value R (NumR eps) s u v du dv = Ok z /\
      @surf_value R (NumR eps) s' u' v' du dv = Ok z' /\ forall c, z' c = f du dv * z c.

(** The same parameters on both surfaces. *)
Definition same_params (s : surf R) (u v u' v' : R) (du dv : nat) : Prop := in_surface s u v /\ u' = u /\ v' = v.
(** No factor. *)
Definition one (du dv : nat) : R := 1.
(** The first span of the domain is not empty. *)
Definition first_span (k : list R) (p : nat) : Prop := kn k p < kn k (S p).
(** u mirrored between the bounds; at a knot, orders at which the surface is continuous. *)
Definition mirrored (s : surf R) (u v u' v' : R) (du dv : nat) : Prop :=
  in_surface s u v /\ smooth_knots (s_ku s) (s_nU s) (s_degU s) u du /\ u' = s_u1 s + s_u2 s - u /\ v' = v.
Definition sign_u (du dv : nat) : R := (-1) ^ du.
Definition mirrored_v (s : surf R) (u v u' v' : R) (du dv : nat) : Prop :=
  in_surface s u v /\ smooth_knots (s_kv s) (s_nV s) (s_degV s) v dv /\ u' = u /\ v' = s_v1 s + s_v2 s - v.
Definition sign_v (du dv : nat) : R := (-1) ^ dv.
(** u carried affinely from the bounds of s to [a, b]. *)
Definition rescaled (s : surf R) (a b : R) (u v u' v' : R) (du dv : nat) : Prop :=
  in_surface s u v /\ u' = a + (b - a) * (u - s_u1 s) / (s_u2 s - s_u1 s) /\ v' = v.
Definition scale_u (r : R) (du dv : nat) : R := r ^ du.
Definition rescaled_v (s : surf R) (a b : R) (u v u' v' : R) (du dv : nat) : Prop :=
  in_surface s u v /\ u' = u /\ v' = a + (b - a) * (v - s_v1 s) / (s_v2 s - s_v1 s).
Definition scale_v (r : R) (du dv : nat) : R := r ^ dv.
(** u in [u1, u2), or u = u2 itself where the surface is continuous there. *)
Definition trimmed (e : R) (s : surf R) (u1 u2 : R) (u v u' v' : R) (du dv : nat) : Prop :=
  kn (s_kv s) (s_degV s) <= v <= kn (s_kv s) (s_nV s) /\ u' = u /\ v' = v /\
  (u1 <= u < u2 \/
   u = u2 /\ du = 0%nat /\
     ((count_occ Req_EM_T (s_ku s) u2 <= s_degU s)%nat \/ kn (s_ku s) (s_nU s) - u2 < e)).
Definition trimmed_v (e : R) (s : surf R) (v1 v2 : R) (u v u' v' : R) (du dv : nat) : Prop :=
  kn (s_ku s) (s_degU s) <= u <= kn (s_ku s) (s_nU s) /\ u' = u /\ v' = v /\
  (v1 <= v < v2 \/
   v = v2 /\ dv = 0%nat /\
     ((count_occ Req_EM_T (s_kv s) v2 <= s_degV s)%nat \/ kn (s_kv s) (s_nV s) - v2 < e)).
(** A domain of differentiation for parameter x: its open span, its right side or, at the end, its left side. *)
Definition side (k : list R) (n p : nat) (D : R -> Prop) (x : R) : Prop :=
  (exists l, (p <= l < n)%nat /\ kn k l < x < kn k (S l) /\ D = (fun y => kn k l < y < kn k (S l))) \/
  (kn k p <= x < kn k n /\ D = (fun y => x < y <= kn k n)) \/
  (x = kn k n /\ D = (fun y => kn k p <= y < x)).
