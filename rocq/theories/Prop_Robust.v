(** Property C54: the orientation predicate has the sign of the exact determinant. *)
From Coq Require Import Reals ZArith.
From Verif Require Import Model_Base Model_Robust Spec_Robust Proof_Robust7 Proof_PropRobust.
Local Open Scope R_scope.

(** C54, exponents unbounded: for every precision of at least ten bits and all points with
    floating-point coordinates the predicate returns, and what it returns is positive,
    negative or zero as the exact determinant is. *)
Theorem C54_exact_sign : forall p a b c, (10 <= p)%Z ->
  float_point p a -> float_point p b -> float_point p c ->
  exists r, float_orient2d p a b c = Ok r /\ same_sign r (det2 a b c).
Proof. exact float_sign. Qed.
Print Assumptions C54_exact_sign.

(** C54 with subnormal numbers: coordinates that are multiples of 2^s, with 2 s at least
    emin + 4 p, cause no underflow. *)
Theorem C54_exact_sign_gradual : forall emin p s a b c, (10 <= p)%Z ->
  (emin + 4 * p <= 0)%Z -> (emin + 4 * p <= 2 * s)%Z ->
  grid_point p s a -> grid_point p s b -> grid_point p s c ->
  exists r, ieee_orient2d emin p a b c = Ok r /\ same_sign r (det2 a b c).
Proof. exact ieee_ok. Qed.
Print Assumptions C54_exact_sign_gradual.

(** In particular for double, with coordinates that are multiples of 2^-431 (for instance
    zero or of magnitude at least 2^-379), and for float with multiples of 2^-26. *)
Theorem C54_exact_sign_double : forall a b c,
  grid_point 53 (-431) a -> grid_point 53 (-431) b -> grid_point 53 (-431) c ->
  exists r, ieee_orient2d (-1074) 53 a b c = Ok r /\ same_sign r (det2 a b c).
Proof. exact double_sign. Qed.
Print Assumptions C54_exact_sign_double.

Theorem C54_exact_sign_float : forall a b c,
  grid_point 24 (-26) a -> grid_point 24 (-26) b -> grid_point 24 (-26) c ->
  exists r, ieee_orient2d (-149) 24 a b c = Ok r /\ same_sign r (det2 a b c).
Proof. exact single_sign. Qed.
Print Assumptions C54_exact_sign_float.

Example C54_double_case : grid_point 53 (-431) (3, 7) /\ grid_point 53 (-431) (-5, 2) /\
  grid_point 53 (-431) (0, 1).
Proof. repeat split; apply (grid_int 53 (-431)); Lia.lia. Qed.

(** Without that condition the sign can be lost: the points (2^-600, 0), (0, 2^-600) and the
    origin are doubles in counter-clockwise order, the product underflows and the predicate
    answers zero. *)
Theorem C54_underflow_refuted : exists a b c,
  is_ieee (-1074) 53 (fst a) /\ is_ieee (-1074) 53 (snd a) /\
  is_ieee (-1074) 53 (fst b) /\ is_ieee (-1074) 53 (snd b) /\
  is_ieee (-1074) 53 (fst c) /\ is_ieee (-1074) 53 (snd c) /\
  0 < det2 a b c /\ ieee_orient2d (-1074) 53 a b c = Ok 0.
Proof. exact underflow. Qed.
Print Assumptions C54_underflow_refuted.
