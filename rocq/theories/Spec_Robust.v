(** Vocabulary for the exact-sign orientation predicate (C54): floating-point numbers of
    precision p and their arithmetic, rounded to nearest with ties to even.  The exponent is
    not bounded, which is the sense of "barring overflow and underflow". *)
From Coq Require Import Reals ZArith Bool.
From Flocq Require Import Core.
From Verif Require Import Model_Base Model_Robust.
Open Scope R_scope.

(** x is a floating-point number with p bits *)
Definition is_float (p : Z) (x : R) : Prop := generic_format radix2 (FLX_exp p) x.
(** The floating-point number nearest to x, ties to even *)
Definition fl (p : Z) (x : R) : R := round radix2 (FLX_exp p) ZnearestE x.

(** Floating-point arithmetic: the exact result, rounded once *)
Definition NumF (p : Z) : Num R :=
  {| n0 := 0; n1 := 1;
     nadd := fun a b => fl p (a + b); nsub := fun a b => fl p (a - b);
     nmul := fun a b => fl p (a * b); ndiv := fun a b => fl p (a / b);
     nopp := fun a => - a;
     nltb := fun a b => if Rlt_dec a b then true else false;
     nleb := fun a b => if Rle_dec a b then true else false;
     neps := 100 * bpow radix2 (1 - p) |}.

(** The predicate computed with p-bit floating-point numbers; digits is p and machine epsilon
    is 2^(1-p) *)
Definition float_orient2d (p : Z) (a b c : R * R) : result R :=
  @robust_orient2d R (NumF p) (Z.to_nat p) (bpow radix2 (1 - p)) a b c.

(** The same with subnormal numbers: every number is a multiple of 2^emin, as for IEEE types
    (double: p = 53, emin = -1074).  There is no largest number. *)
Definition flt (emin p : Z) (x : R) : R := round radix2 (FLT_exp emin p) ZnearestE x.
Definition NumT (emin p : Z) : Num R :=
  {| n0 := 0; n1 := 1;
     nadd := fun a b => flt emin p (a + b); nsub := fun a b => flt emin p (a - b);
     nmul := fun a b => flt emin p (a * b); ndiv := fun a b => flt emin p (a / b);
     nopp := fun a => - a;
     nltb := fun a b => if Rlt_dec a b then true else false;
     nleb := fun a b => if Rle_dec a b then true else false;
     neps := 100 * bpow radix2 (1 - p) |}.
Definition ieee_orient2d (emin p : Z) (a b c : R * R) : result R :=
  @robust_orient2d R (NumT emin p) (Z.to_nat p) (bpow radix2 (1 - p)) a b c.
Definition is_ieee (emin p : Z) (x : R) : Prop := generic_format radix2 (FLT_exp emin p) x.
(** Both coordinates of a are floating-point numbers and multiples of 2^s *)
Definition grid_point (p s : Z) (a : R * R) : Prop :=
  is_float p (fst a) /\ is_float p (snd a) /\
  exists m n : Z, fst a = IZR m * bpow radix2 s /\ snd a = IZR n * bpow radix2 s.

(** The exact determinant *)
Definition det2 (a b c : R * R) : R :=
  (fst a - fst c) * (snd b - snd c) - (snd a - snd c) * (fst b - fst c).

Definition float_point (p : Z) (a : R * R) : Prop := is_float p (fst a) /\ is_float p (snd a).

Definition same_sign (x y : R) : Prop :=
  (0 < x <-> 0 < y) /\ (x < 0 <-> y < 0) /\ (x = 0 <-> y = 0).
