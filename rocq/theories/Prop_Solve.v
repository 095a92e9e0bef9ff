(** C75: interpolation of points always succeeds, and has one solution. *)
From Coq Require Import List Arith Reals Lia Lra.
From Verif Require Import Model_Base Model_Knots Model_Basis Model_Curve Model_Interp Spec_Base Spec_Basis Spec_Eval Spec_Knots Spec_Interp Spec_Solve
  Proof_Base Proof_Gauss Proof_SW2 Proof_PropSkin.
Import ListNotations.
Local Open Scope R_scope.

(** Whatever the points, distinct increasing parameters always give a curve of the degree
    asked for, when the fallback solver returns for every nonsingular matrix. *)
Theorem C75_interpolate_returns : forall eps sparse dim (Q : list (pt R)) (u : list R) p,
  complete_solver sparse -> 0 <= eps -> (1 <= p <= 24)%nat -> (p < length Q)%nat -> length u = length Q ->
  strictly_increasing u -> exists c, @interpolate R (NumR eps) sparse dim Q u p = Ok c.
Proof. exact interpolate_returns. Qed.
Print Assumptions C75_interpolate_returns.

(** Such solvers exist: Gaussian elimination. *)
Theorem C75_solver : complete_solver gauss.
Proof. exact gauss_complete. Qed.
Print Assumptions C75_solver.

(** The knots averaged from the parameters put each parameter inside the support of the basis
    function of its rank. *)
Theorem C75_averages : forall eps (u : list R) p k, (1 <= p)%nat -> (p < length u)%nat -> strictly_increasing u ->
  @build_simple_mult_flat_knots R (NumR eps) u p = Ok k -> interlaced k p u.
Proof. exact averages_interlaced. Qed.
Print Assumptions C75_averages.

(** On such knots, two curves that agree at all the parameters have the same poles. *)
Theorem C75_unique : forall eps k p u (P P' : list (pt R)) c, (1 <= p)%nat -> (p < length u)%nat -> interlaced k p u ->
  evaluable eps k (length u) p -> length P = length u -> length P' = length u ->
  (forall x, In x u -> exists z z', @eval_value R (NumR eps) x k P p 0 = Ok z /\ @eval_value R (NumR eps) x k P' p 0 = Ok z' /\ z c = z' c) ->
  forall i, (i < length u)%nat -> nth i P (fun _ => 0) c = nth i P' (fun _ => 0) c.
Proof. exact interlaced_unique. Qed.
Print Assumptions C75_unique.
(** Four parameters, degree 2. *)
Example C75_nonvacuous : strictly_increasing [0; 1; 3; 4] /\
  exists k, @build_simple_mult_flat_knots R (NumR (1 / 10)) [0; 1; 3; 4] 2 = Ok k /\ interlaced k 2 [0; 1; 3; 4] /\
    evaluable (1 / 10) k 4 2.
Proof. exact lit_params. Qed.
