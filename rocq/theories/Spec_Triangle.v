(** Vocabulary for the helpers on one triangle. *)
From Coq Require Import Reals.
From Verif Require Import Model_Base Spec_Base Spec_Build Spec_Motion Spec_Geom Spec_Quality Spec_Abscissa.
Local Open Scope R_scope.

(** std::hypot. *)
Definition hypot (x y : R) : R := sqrt (x * x + y * y).
(** The signed distance of [q] to the line through [a] and [b], positive on its left. *)
Definition line_distance (a b q : R * R) : R := area2 a b q / side a b.
(** [p] is over the point [a + u (b - a) + v (c - a)] of the plane of the triangle, straight up. *)
Definition over (dim : nat) (a b c p : vec) (u v : R) : Prop :=
  let n := fun i => p i - (a i + u * (b i - a i) + v * (c i - a i)) in
  inner_product dim (fun i => b i - a i) n = 0 /\ inner_product dim (fun i => c i - a i) n = 0.
(** Four times the square of the area of the triangle: 0 when it is flat. *)
Definition gram (dim : nat) (a b c : vec) : R :=
  sqdist dim b a * sqdist dim c a - inner_product dim (fun i => b i - a i) (fun i => c i - a i) ^ 2.
(** Three coordinates as a point. *)
Definition at3 (x y z : R) : vec := fun i => match i with 0%nat => x | 1%nat => y | _ => z end.
