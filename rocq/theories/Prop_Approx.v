(** C77: least squares on surfaces. *)
From Coq Require Import List Arith ZArith Reals.
From Verif Require Import Model_Base Model_Curve Model_Interp Model_Surface Model_Skin
  Spec_Base Spec_Basis Spec_Eval Spec_Knots Spec_Interp Spec_Surface Spec_Skin Spec_Solve Spec_Approx
  Proof_Gauss Proof_Lsq Proof_PropApprox.
Import ListNotations.
Local Open Scope R_scope.

(** The poles approximating a grid of points minimise the sum of the squared gaps between the
    surface and the points, coordinate by coordinate, among all grids of poles on the same
    knots.  [ldlt] is Eigen's LDLT: any solver that only returns solutions. *)
Theorem C77_grid : forall eps ku kv n m p q, knots_ok ku n p -> knots_ok kv m q -> evaluable2 eps ku n p kv m q ->
  forall ldlt dim (Q : list (pt R)) (u v : list R) P, exact_solver ldlt ->
  (forall x, In x u -> kn ku p <= x <= kn ku n) -> (forall x, In x v -> kn kv q <= x <= kn kv m) ->
  @approx_grid R (NumR eps) ldlt dim Q ku kv u v p q = Ok P ->
  length P = (n * m)%nat /\ (n * m <= length Q)%nat /\
  forall c P', (c < dim)%nat -> length P' = (n * m)%nat -> exists e e' : nat -> nat -> R,
    (forall i j, (i < length u)%nat -> (j < length v)%nat ->
       gap eps ku kv P p q (nth i u 0) (nth j v 0) 0 0 (nth (i + length u * j) Q (fun _ => 0)) c (e i j) /\
       gap eps ku kv P' p q (nth i u 0) (nth j v 0) 0 0 (nth (i + length u * j) Q (fun _ => 0)) c (e' i j)) /\
    sumn (length v) (fun j => sumn (length u) (fun i => e i j ^ 2)) <=
    sumn (length v) (fun j => sumn (length u) (fun i => e' i j ^ 2)).
Proof. exact approx_grid_ok. Qed.
Print Assumptions C77_grid.

(** They are found whenever the parameters of each direction determine the poles, *)
Theorem C77_grid_returns : forall eps ku kv n m p q, knots_ok ku n p -> knots_ok kv m q -> evaluable2 eps ku n p kv m q ->
  forall ldlt dim (Q : list (pt R)) (u v : list R), complete_solver ldlt ->
  (forall x, In x u -> kn ku p <= x <= kn ku n) -> (forall x, In x v -> kn kv q <= x <= kn kv m) ->
  resolve eps ku n p u -> resolve eps kv m q v -> (n * m <= length Q)%nat -> (length u * length v <= length Q)%nat ->
  exists P, @approx_grid R (NumR eps) ldlt dim Q ku kv u v p q = Ok P.
Proof. exact approx_grid_returns. Qed.
Print Assumptions C77_grid_returns.
(** which they do when some of them are interlaced with the knots. *)
Theorem C77_resolve : forall eps k p (u0 u : list R), (1 <= p)%nat -> (p < length u0)%nat -> interlaced k p u0 ->
  evaluable eps k (length u0) p -> (forall x, In x u0 -> In x u) -> resolve eps k (length u0) p u.
Proof. exact interlaced_resolve. Qed.
Print Assumptions C77_resolve.
Example C77_grid_nonvacuous : complete_solver gauss /\ interlaced unit_knots 1 [0; 1] /\
  (knots_ok unit_knots 2 1 /\ evaluable2 (1 / 10) unit_knots 2 1 unit_knots 2 1 /\
   (forall x, In x three_params -> kn unit_knots 1 <= x <= kn unit_knots 2) /\ resolve (1 / 10) unit_knots 2 1 three_params) /\
  exists P, @approx_grid R (NumR (1 / 10)) gauss 2 nine_points unit_knots unit_knots three_params three_params 1 1 = Ok P.
Proof. exact (conj gauss_complete (conj unit_interlaced (conj unit_ok nine_ok))). Qed.

(** The surface approximating constraints minimises the sum of the squared gaps to them.
    [qr] is Eigen's ColPivHouseholderQR: any least squares solver. *)
Theorem C77_constraints : forall eps ku kv n m p q, knots_ok ku n p -> knots_ok kv m q -> evaluable2 eps ku n p kv m q ->
  forall qr dim (Q : list (@scons R)) s, least_squares_solver qr ->
  (forall c, In c Q -> in_rect ku n p kv m q (sc_u c) (sc_v c)) ->
  @approx_surf_constraints R (NumR eps) qr dim Q ku kv p q = Ok s ->
  s_degU s = p /\ s_degV s = q /\ s_ku s = ku /\ s_kv s = kv /\ length (s_poles s) = (n * m)%nat /\ (n * m <= length Q)%nat /\
  forall d P', (d < dim)%nat -> length P' = (n * m)%nat -> exists e e' : nat -> R,
    (forall i c, nth_error Q i = Some c ->
       gap eps ku kv (s_poles s) p q (sc_u c) (sc_v c) (sc_du c) (sc_dv c) (sc_x c) d (e i) /\
       gap eps ku kv P' p q (sc_u c) (sc_v c) (sc_du c) (sc_dv c) (sc_x c) d (e' i)) /\
    sumn (length Q) (fun i => e i ^ 2) <= sumn (length Q) (fun i => e' i ^ 2).
Proof. exact approx_surf_ok. Qed.
Print Assumptions C77_constraints.
(** It is found when the constraints determine the poles. *)
Theorem C77_constraints_returns : forall eps ku kv n m p q, knots_ok ku n p -> knots_ok kv m q -> evaluable2 eps ku n p kv m q ->
  forall qr dim (Q : list (@scons R)), complete_least_squares qr ->
  (forall c, In c Q -> in_rect ku n p kv m q (sc_u c) (sc_v c)) -> resolve_surface eps ku kv n m p q Q -> (n * m <= length Q)%nat ->
  (Z.of_nat (n + p + 1) < 2 ^ 64)%Z -> (Z.of_nat (m + q + 1) < 2 ^ 64)%Z -> (Z.of_nat (n * m) < 2 ^ 64)%Z ->
  exists s, @approx_surf_constraints R (NumR eps) qr dim Q ku kv p q = Ok s.
Proof. exact approx_surf_returns. Qed.
Print Assumptions C77_constraints_returns.
Example C77_constraints_nonvacuous : complete_least_squares normal_solver /\
  (forall c, In c five_constraints -> in_rect unit_knots 2 1 unit_knots 2 1 (sc_u c) (sc_v c)) /\
  resolve_surface (1 / 10) unit_knots unit_knots 2 2 1 1 five_constraints /\
  exists s, @approx_surf_constraints R (NumR (1 / 10)) normal_solver 2 five_constraints unit_knots unit_knots 1 1 = Ok s.
Proof. exact (conj normal_ok (conj five_ok (conj five_resolve five_returns))). Qed.

(** Fewer points or constraints than poles are rejected. *)
Theorem C77_rejects : forall eps ku kv n m p q, knots_ok ku n p -> knots_ok kv m q ->
  forall ldlt qr dim (Q : list (pt R)) (C : list (@scons R)) (u v : list R),
  ((length Q < n * m)%nat -> @approx_grid R (NumR eps) ldlt dim Q ku kv u v p q = Throw LengthError) /\
  ((length C < n * m)%nat -> @approx_surf_constraints R (NumR eps) qr dim C ku kv p q = Throw LengthError).
Proof. exact approx_rejects. Qed.
Print Assumptions C77_rejects.
