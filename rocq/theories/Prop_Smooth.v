(** C65, C66: smoothness of curves at their knots; the curve determines its poles. *)
From Coq Require Import List Arith Reals Lra.
From Verif Require Import Model_Base Model_Basis Spec_Base Spec_Basis Spec_Eval Spec_Curve Proof_Base Proof_Smooth.
Import ListNotations.
Local Open Scope R_scope.

(** C65: at a parameter inside the domain that is m times a knot, the derivatives of orders up
    to p - m are continuous, and each but the last has the next one as its derivative. *)
Theorem C65_smooth : forall eps k n p poles u d c,
  knots_ok k n p -> length poles = n -> evaluable eps k n p -> kn k p < u < kn k n ->
  (d + count_occ Req_EM_T k u <= p)%nat ->
  continuity_pt (fun x => val (@eval_value R (NumR eps) x k poles p d) c) u /\
  ((d + 1 + count_occ Req_EM_T k u <= p)%nat ->
     derivable_pt_lim (fun x => val (@eval_value R (NumR eps) x k poles p d) c) u
       (val (@eval_value R (NumR eps) u k poles p (d + 1)) c)).
Proof. exact smooth_at. Qed.
Print Assumptions C65_smooth.
Example C65_nonvacuous : let k := [0;0;0;0;1;1;2;2;2;2] in
  knots_ok k 6 3 /\ evaluable (1/1000) k 6 3 /\ kn k 3 < 1 < kn k 6 /\ (0 + 1 + count_occ Req_EM_T k 1%R <= 3)%nat.
Proof. exact smooth_case. Qed.

(** C66: two pole lists giving the same values on the domain are equal, if no basis function
    vanishes identically. *)
Theorem C66_poles : forall eps k n p (P Q : list (pt R)),
  knots_ok k n p -> length P = n -> length Q = n -> evaluable eps k n p -> full_support k n p ->
  same_on eps p k P k Q (fun x => kn k p <= x <= kn k n) (fun d => d = 0%nat) ->
  forall i c, (i < n)%nat -> polec P c i = polec Q c i.
Proof. exact same_values_same_poles. Qed.
Print Assumptions C66_poles.
Example C66_nonvacuous : knots_ok [0;0;0;1;1;2;2;2] 5 2 /\ full_support [0;0;0;1;1;2;2;2] 5 2.
Proof. exact support_case. Qed.
(** The condition is needed. *)
Theorem C66_support_needed : exists eps k n p (P Q : list (pt R)),
  knots_ok k n p /\ length P = n /\ length Q = n /\ evaluable eps k n p /\
  same_on eps p k P k Q (fun x => kn k p <= x <= kn k n) (fun d => d = 0%nat) /\
  exists i c, (i < n)%nat /\ polec P c i <> polec Q c i.
Proof. exact poles_not_determined. Qed.
Print Assumptions C66_support_needed.
