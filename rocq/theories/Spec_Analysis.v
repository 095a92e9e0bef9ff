(** Vocabulary for the sampling of curves and surfaces (C84), for directions (C85)
    and lengths (C86). *)
From Coq Require Import List Arith Reals.
From Verif Require Import Model_Base Model_Wrap Spec_Base Spec_Build.
Import ListNotations.
Local Open Scope R_scope.

Definition adjacent (l : list R) (a b : R) : Prop := exists l1 l2, l = l1 ++ a :: b :: l2.

(** l runs from u1 to u2 without going back. *)
Definition runs (u1 u2 : R) (l : list R) : Prop :=
  (exists m, l = u1 :: m ++ [u2]) /\ forall a b, adjacent l a b -> a <= b.

(** The i-th of n values spread evenly over [u1, u2]. *)
Definition spread (u1 u2 : R) (n i : nat) : R := u1 + (u2 - u1) * INR i / (INR n - 1).

(** The point of f in the middle of [a, b] is at most dev times its distance to the start away
    from the line through both ends, unless the ends coincide. *)
Definition near_chord (dim : nat) (dev : R) (f : R -> result (pt R)) (a b : R) : Prop :=
  forall p m q, f a = Ok p -> f ((a + b) / 2) = Ok m -> f b = Ok q ->
  (forall i, (i < dim)%nat -> p i = q i) \/
  exists t, sqlen dim (fun i => m i - (p i + t * (q i - p i))) <= dev * dev * sqlen dim (fun i => m i - p i).

(** All points of f are on one line. *)
Definition straight (dim : nat) (f : R -> result (pt R)) : Prop :=
  exists o d : pt R, forall u p, f u = Ok p -> exists t, forall i, (i < dim)%nat -> p i = o i + t * d i.

(** The returned value does not depend on the bound on the depth of the recursion, once large enough. *)
Definition eventually {A} (f : nat -> result A) (r : A) : Prop := exists f0, forall fuel, (f0 <= fuel)%nat -> f fuel = Ok r.

(** Strictly between u1 and u2. *)
Definition inside (u1 u2 k : R) : bool := if Rlt_dec u1 k then if Rlt_dec k u2 then true else false else false.

(** quad integrates h over [a, x] for every x of [a, b]. *)
Definition integrates (quad : (R -> result R) -> R -> R -> result R) (h : R -> R) (a b : R) : Prop :=
  forall f, (forall x, a <= x <= b -> f x = Ok (h x)) ->
  exists F, F a = 0 /\ forall x, a <= x <= b -> quad f a x = Ok (F x) /\ (a < x < b -> derivable_pt_lim F x (h x)).

(** The length of a curve from a to b is L a b: positive, and the sum of the lengths of the pieces. *)
Definition measures (len : R -> R -> result R) (L : R -> R -> R) (u1 u2 : R) : Prop :=
  (forall a b, u1 <= a -> a <= b -> b <= u2 -> len a b = Ok (L a b)) /\
  (forall a b, u1 <= a -> a < b -> b <= u2 -> 0 < L a b) /\
  (forall a b c, u1 <= a -> a <= b -> b <= c -> c <= u2 -> L a b + L b c = L a c).

(** Curves and surfaces for the examples: the graph of a function over [0, 1], a sheet folded along
    a line, the parabola with its derivatives, and the curve of one dimension x = u^k. *)
Definition point2 (x y : R) : pt R := fun i => match i with 0%nat => x | 1%nat => y | _ => 0 end.
Definition point3 (x y z : R) : pt R := fun i => match i with 0%nat => x | 1%nat => y | 2%nat => z | _ => 0 end.
Definition plot (f : R -> R) : gcurve R := mkg 0 1 (fun u _ => Ok (point2 u (f u))).
Definition crease (x : R) : R := if Rle_dec x (1 / 3) then 0 else 3 * x - 1.
Definition folded : gsurf R := fun u v _ _ => Ok (point3 u (crease u) v).
Definition parabola : gcurve R :=
  mkg 0 1 (fun u d => Ok (match d with 0%nat => point2 u (u * u) | 1%nat => point2 1 (2 * u) | _ => point2 0 2 end)).
Definition power (k : nat) : gcurve R :=
  mkg 1 2 (fun u d => Ok (fun _ => match d with 0%nat => u ^ k | 1%nat => INR k * u ^ (k - 1) | _ => INR k * INR (k - 1) * u ^ (k - 2) end)).
(** The trapezoidal rule. *)
Definition trapezium (f : R -> result R) (a b : R) : result R := let* x := f a in let* y := f b in Ok ((x + y) / 2 * (b - a)).
