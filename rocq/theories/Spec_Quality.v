(** Vocabulary for the quality measures of a face. *)
From Coq Require Import Reals List Arith.
From Verif Require Import Model_Base Spec_Base Spec_Geom Spec_Refine Spec_Motion.
Local Open Scope R_scope.

(** The centre of three points of the plane, of three points of space. *)
Definition centre (A B D : R * R) : R * R := ((fst A + fst B + fst D) / 3, (snd A + snd B + snd D) / 3).
Definition centre_of (a b d : vec) : vec := fun i => (a i + b i + d i) / 3.

(** How far the middle of the chord is from the image of the middle; the same for the centre of a
    triangle. *)
Definition chord_gap (dim : nat) (S : R * R -> vec) (A B : R * R) : R :=
  sqrt (sqdist dim (fun i => (S A i + S B i) / 2) (S (middle_of A B))).
Definition centre_gap (dim : nat) (S : R * R -> vec) (A B D : R * R) : R :=
  sqrt (sqdist dim (centre_of (S A) (S B) (S D)) (S (centre A B D))).

(** The sides of a triangle; its shape, the longest side over the shortest. *)
Definition side (A B : R * R) : R := sqrt (sq_dist A B).
Definition longest (A B D : R * R) : R := Rmax (side A B) (Rmax (side B D) (side D A)).
Definition shortest (A B D : R * R) : R := Rmin (side A B) (Rmin (side B D) (side D A)).

(** The normal of the triangle of three points of space, and of the surface with the derivatives
    [a] and [b]: unit vectors. *)
Definition flat_normal (P Q O : vec) : vec := unit 3 (cross3 (fun i => Q i - P i) (fun i => O i - P i)).
Definition surface_normal (a b : vec) : vec := unit 3 (cross3 a b).
(** The derivative at [x] towards [B - A]; the sine of the angle of two vectors. *)
Definition towards (du dv : R * R -> vec) (x A B : R * R) : vec :=
  fun i => (fst B - fst A) * du x i + (snd B - snd A) * dv x i.
Definition sine (a b : vec) : R := len 3 (cross3 a b) / (len 3 a * len 3 b).
Definition turn (du dv : R * R -> vec) (A B : R * R) : R := sine (towards du dv A A B) (towards du dv B A B).
