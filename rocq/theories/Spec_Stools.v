(** Vocabulary for the surface tools (C83). *)
From Coq Require Import List Arith ZArith Reals.
From Verif Require Import Model_Base Model_Knots Model_Curve Model_Surface Model_Stools Spec_Base Spec_Basis Spec_Knots Spec_Elevate Spec_Unify.
Import ListNotations.
Local Open Scope R_scope.

(** The knots are clamped in both directions, more than eps apart, with one pole for each pair of basis
    functions; the bounds are the end knots. *)
Definition clamped_surface (eps : R) (s : surf R) : Prop :=
  exists U M V N, clamped_knots eps (s_degU s) U M /\ clamped_knots eps (s_degV s) V N /\
    s_ku s = repeat_each U M /\ s_kv s = repeat_each V N /\
    length (s_poles s) = (poles_for (s_degU s) M * poles_for (s_degV s) N)%nat /\
    s_u1 s = first_knot (s_ku s) /\ s_u2 s = last_knot (s_ku s) /\
    s_v1 s = first_knot (s_kv s) /\ s_v2 s = last_knot (s_kv s) /\
    (s_degU s <= 12)%nat /\ (s_degV s <= 12)%nat.

(** The derivative (du, dv) of s at (u, v) is that of s' at (u', v'), on the first dim coordinates. *)
Definition same_at (eps : R) (dim : nat) (s : surf R) (u v : R) (s' : surf R) (u' v' : R) (du dv : nat) : Prop :=
  exists z z', @surf_value R (NumR eps) s u v du dv = Ok z /\ @surf_value R (NumR eps) s' u' v' du dv = Ok z' /\
    forall c, (c < dim)%nat -> z' c = z c.

(** The end u = u2 of s1 is the start u = u1 of s2. *)
Definition meet_along (eps : R) (dim : nat) (s1 s2 : surf R) : Prop :=
  forall v, s_v1 s1 <= v <= s_v2 s1 -> same_at eps dim s1 (s_u2 s1) v s2 (s_u1 s2) v 0 0.

(** Far less poles than std::size_t can count, also after raising the degree to 12. *)
Definition countable (n m : nat) : Prop := (Z.of_nat (13 * n * m) < 2 ^ 64)%Z.

(** L is the mean over np evenly spread parameters v of the distance from the end of s to the
    curve c, divided by the speed of s in u there. *)
Definition mean_length (eps : R) (norm : pt R -> R) (s : surf R) (c : curve R) (np : nat) (L : R) : Prop :=
  exists ratio : nat -> R, L = sumn np (fun i => ratio i / INR np) /\
    forall i, (i < np)%nat ->
      let v := s_v1 s + (s_v2 s - s_v1 s) * INR i / (INR np - 1) in
      exists a t b, @surf_value R (NumR eps) s (s_u2 s) v 0 0 = Ok a /\ @surf_value R (NumR eps) s (s_u2 s) v 1 0 = Ok t /\
        @value R (NumR eps) c v 0 = Ok b /\ norm t <> 0 /\ ratio i = norm (fun c => a c - b c) / norm t.

(** A curve with one pole for each row of s, on the knots of s in v. *)
Definition along_v (s : surf R) (c : curve R) : Prop :=
  c_knots c = s_kv s /\ c_deg c = s_degV s /\ (length (c_poles c) + s_degV s + 1 = length (s_kv s))%nat /\
  c_lo c = s_v1 s /\ c_hi c = s_v2 s.

(** The points (u, .) of s are those of the curve c; the same for a derivative of s. *)
Definition edge_is (eps : R) (dim : nat) (s : surf R) (u : R) (c : curve R) : Prop :=
  forall v dv, s_v1 s <= v <= s_v2 s ->
    exists z z', @surf_value R (NumR eps) s u v 0 dv = Ok z /\ @value R (NumR eps) c v dv = Ok z' /\ forall i, (i < dim)%nat -> z i = z' i.
Definition edge_zero (eps : R) (dim : nat) (s : surf R) (u : R) (du : nat) : Prop :=
  forall v dv, s_v1 s <= v <= s_v2 s ->
    exists z, @surf_value R (NumR eps) s u v du dv = Ok z /\ forall i, (i < dim)%nat -> z i = 0.

(** s turned so that one of its sides becomes the end u = u2. *)
Definition turned (eps : R) (location : surface_bound) (s s' : surf R) : Prop :=
  match location with
  | UEnd => s' = s
  | UStart => @reverseU R (NumR eps) s = Ok s'
  | VEnd => @invertUV R (NumR eps) s = Ok s'
  | VStart => exists a, @invertUV R (NumR eps) s = Ok a /\ @reverseU R (NumR eps) a = Ok s'
  end.
(** On a surface extended by the parameter length L: the bounds, the place of the old point (u, v), and the
    new side at the abscissa t. *)
Definition new_bounds (location : surface_bound) (s : surf R) (L : R) : R * R * (R * R) :=
  match location with
  | UStart | UEnd => (s_u1 s, s_u2 s + L, (s_v1 s, s_v2 s))
  | VStart | VEnd => (s_u1 s, s_u2 s, (s_v1 s, s_v2 s + L))
  end.
Definition place (location : surface_bound) (L u v : R) : R * R :=
  match location with
  | UStart => (u + L, v)
  | VStart => (u, v + L)
  | UEnd | VEnd => (u, v)
  end.
Definition new_side (location : surface_bound) (s : surf R) (L t : R) : R * R :=
  match location with
  | UStart => (s_u1 s, t)
  | UEnd => (s_u2 s + L, t)
  | VStart => (t, s_v1 s)
  | VEnd => (t, s_v2 s + L)
  end.
Definition side_range (location : surface_bound) (s : surf R) : R * R :=
  match location with
  | UStart | UEnd => (s_v1 s, s_v2 s)
  | VStart | VEnd => (s_u1 s, s_u2 s)
  end.
