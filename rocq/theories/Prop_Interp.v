(** C34 to C36: band LU, interpolation, least squares approximation. *)
From Coq Require Import List Arith Reals Lia Lra Permutation.
From Verif Require Import Model_Base Model_Basis Model_Curve Model_Interp Spec_Base Spec_Basis Spec_Eval Spec_Knots
  Spec_Interp Proof_Base Proof_Builders Proof_Band Proof_Interp Proof_Interp2 Proof_Interp3 Proof_Interp4.
Import ListNotations.
Local Open Scope R_scope.

(** C34: on any band matrix the factorisation ends without undefined behaviour.  If it
    reports success, solve(b) returns x with A x = b for every b.  It reports success
    exactly when A has an LU factorisation without row exchanges whose pivots are larger
    than 16 machine epsilons times the scale and whose multipliers are at most 1e4. *)
Theorem C34_band_lu : forall eps kl ku n (M : list R) scale, 0 <= eps -> 0 <= scale ->
  length M = (n * (kl + ku + 1))%nat ->
  exists o, @factorize_inplace R (NumR eps) (mkband n kl ku M) scale = Ok o /\
  match o with
  | Some F =>
    (exists L U, lu_factors n (banded kl ku M) (scale * (eps / 100) * 16) 10000 L U) /\
    forall b, length b = n ->
      exists x, @band_solve R (NumR eps) F b = Ok x /\ solves n n (banded kl ku M) x b
  | None => ~ exists L U, lu_factors n (banded kl ku M) (scale * (eps / 100) * 16) 10000 L U
  end.
Proof. exact factorize_spec. Qed.
Print Assumptions C34_band_lu.
Example C34_nonvacuous : let M := [0; 2; 1;  1; 2; 1;  1; 2; 0] in
  length M = (3 * (1 + 1 + 1))%nat /\
  exists L U, lu_factors 3 (banded 1 1 M) (2 * (1 / 1000 / 100) * 16) 10000 L U.
Proof. split; [reflexivity|]. exists tri_L, tri_U. exact tri_factors. Qed.

(** C35: interpolation of points.  [sparse] is the sparse LU used when the band
    factorisation is refused: any solver that only returns solutions. *)
Theorem C35_interpolate : forall eps sparse dim (Q : list (pt R)) (u : list R) p c,
  exact_solver sparse -> 0 <= eps -> (1 <= p)%nat -> (p < length Q)%nat -> length u = length Q ->
  strictly_increasing u ->
  @interpolate R (NumR eps) sparse dim Q u p = Ok c -> evaluable eps (c_knots c) (length Q) p ->
  c_deg c = p /\ length (c_poles c) = length Q /\ bounds c = (kn u 0, kn u (length Q - 1)) /\
  forall i, (i < length Q)%nat -> passes eps dim c (nth i u 0) 0 (nth i Q (fun _ => 0)).
Proof. exact interpolate_ok. Qed.
Print Assumptions C35_interpolate.

(** It has no undefined behaviour of its own: it returns a curve, or throws what the
    sparse solver throws. *)
Theorem C35_defined : forall eps sparse dim (Q : list (pt R)) (u : list R) p,
  (forall N b, m_rows N = m_cols N -> length b = m_rows N -> defined (sparse N b)) ->
  0 <= eps -> (1 <= p <= 24)%nat -> (p < length Q)%nat -> length u = length Q -> strictly_increasing u ->
  defined (@interpolate R (NumR eps) sparse dim Q u p).
Proof. exact interpolate_defined. Qed.
Print Assumptions C35_defined.
Example C35_solver : exact_solver cramer /\
  forall N b, m_rows N = m_cols N -> length b = m_rows N -> defined (cramer N b).
Proof. split; [exact cramer_exact|exact cramer_defined]. Qed.

(** Polylines are always found, even with a solver that only knows identity matrices. *)
Theorem C35_polyline : exact_solver ident_solver /\
  forall eps (Q : list (pt R)) (u : list R) dim, 0 <= eps -> (2 <= length Q)%nat -> length u = length Q ->
  strictly_increasing u -> exists c, @interpolate R (NumR eps) ident_solver dim Q u 1 = Ok c.
Proof. exact (conj ident_exact polyline). Qed.
Print Assumptions C35_polyline.

(** Points and derivatives up to the order nc - 1 at each parameter. *)
Theorem C35_hermite : forall eps sparse dim nc (Q : list (list (pt R))) (u : list R) c,
  exact_solver sparse -> 0 <= eps -> (1 <= nc)%nat -> (2 <= length Q)%nat -> length u = length Q ->
  (forall q, In q Q -> length q = nc) -> strictly_increasing u ->
  @interpolate_hermite R (NumR eps) sparse dim nc Q u = Ok c ->
  evaluable eps (c_knots c) (nc * length Q) (2 * nc - 1) ->
  c_deg c = (2 * nc - 1)%nat /\ bounds c = (kn u 0, kn u (length Q - 1)) /\
  forall i d, (i < length Q)%nat -> (d < nc)%nat ->
    passes eps dim c (nth i u 0) d (nth d (nth i Q []) (fun _ => 0)).
Proof. exact hermite_ok. Qed.
Print Assumptions C35_hermite.
Example C35_hermite_nonvacuous : forall (q0 q1 q2 : pt R) dim, strictly_increasing [0; 1; 2] /\
  exists c, @interpolate_hermite R (NumR (1 / 1000)) ident_solver dim 1 [[q0]; [q1]; [q2]] [0; 1; 2] = Ok c /\
    evaluable (1 / 1000) (c_knots c) (1 * 3) (2 * 1 - 1).
Proof. intros. split; [exact inc3|]. apply hermite_ex. lra. Qed.

(** Any set of constraints (u_i, d_i, q_i) on given knots, sorted or not. *)
Theorem C35_constraints : forall eps k n p, knots_ok k n p -> forall lu sort dim (Q : list (@cpoint R)) P,
  exact_solver lu -> 0 <= eps -> evaluable eps k n p -> (forall l, Permutation (sort l) l) ->
  length Q = n -> (forall q, In q Q -> kn k p <= cp_u q <= kn k n) ->
  @build_poles_constraints R (NumR eps) lu sort dim Q k p = Ok P ->
  length P = n /\ forall q, In q Q ->
    exists v, @eval_value R (NumR eps) (cp_u q) k P p (cp_d q) = Ok v /\
      forall c, (c < dim)%nat -> v c = cp_v q c.
Proof. exact constraints_ok. Qed.
Print Assumptions C35_constraints.
Example C35_constraints_nonvacuous : forall (q0 q1 q2 : pt R) dim,
  let k := [0; 0; 1; 2; 2] in let Q := [mkcp q0 0 0; mkcp q1 1 0; mkcp q2 2 0] in
  knots_ok k 3 1 /\ evaluable (1 / 1000) k 3 1 /\ length Q = 3%nat /\
  (forall q, In q Q -> kn k 1 <= cp_u q <= kn k 3) /\
  exists P, @build_poles_constraints R (NumR (1 / 1000)) ident_solver (fun l => l) dim Q k 1 = Ok P.
Proof. intros q0 q1 q2 dim. apply constraints_ex. lra. Qed.

(** Two end points and constraints in between. *)
Theorem C35_end_constraints : forall eps lu dim (ub : R) qb ue qe (cstr : list (@cpoint R)) p c,
  exact_solver lu -> 0 <= eps -> (1 <= p)%nat -> ub <= ue ->
  @interpolate_constraints R (NumR eps) lu dim ub qb ue qe cstr p = Ok c ->
  knots_ok (c_knots c) (length cstr + 2) p -> evaluable eps (c_knots c) (length cstr + 2) p ->
  c_deg c = p /\
  passes eps dim c ub 0 qb /\ passes eps dim c ue 0 qe /\
  forall q, In q cstr -> passes eps dim c (cp_u q) (cp_d q) (cp_v q).
Proof. exact icons_ok. Qed.
Print Assumptions C35_end_constraints.
Example C35_end_constraints_nonvacuous : forall (q0 q1 q2 : pt R) dim,
  exists c, @interpolate_constraints R (NumR (1 / 1000)) ident_solver dim 0 q0 2 q2 [mkcp q1 1 0] 1 = Ok c /\
    knots_ok (c_knots c) 3 1 /\ evaluable (1 / 1000) (c_knots c) 3 1.
Proof. intros. apply end_constraints_ex. lra. Qed.

(** Batched interpolation is interpolation set by set. *)
Theorem C35_batch : forall (T : Type) (NT : Num T) sparse dim nc (Qs : list (list (list (pt T)))) (k u : list T) p m,
  (forall Q, In Q Qs -> length Q = m) ->
  build_poles_batch sparse dim nc Qs k u p =
  (let* r := mapM (fun Q => build_poles sparse dim nc Q k u p) Qs in Ok (concat r)).
Proof. exact @batch_ok. Qed.
Print Assumptions C35_batch.

(** C36: first and last poles are the end points, and the others minimise the sum of the
    squared distances over the inner points, coordinate by coordinate. *)
Theorem C36_bound_fixed : forall eps k n p, knots_ok k n p -> evaluable eps k n p ->
  forall ldlt dim (pts : list (pt R)) (u : list R) c,
  exact_solver ldlt -> (2 <= n)%nat -> length u = length pts ->
  (forall x, In x u -> kn k p <= x <= kn k n) ->
  @approx_bound_fixed R (NumR eps) ldlt dim pts p n u k = Ok c ->
  c_deg c = p /\ c_knots c = k /\ length (c_poles c) = n /\ (n <= length pts)%nat /\
  nth 0 (c_poles c) (fun _ => 0) = nth 0 pts (fun _ => 0) /\
  nth (n - 1) (c_poles c) (fun _ => 0) = nth (length pts - 1) pts (fun _ => 0) /\
  forall P' co, (co < dim)%nat -> length P' = n ->
    nth 0 P' (fun _ => 0) co = nth 0 pts (fun _ => 0) co ->
    nth (n - 1) P' (fun _ => 0) co = nth (length pts - 1) pts (fun _ => 0) co ->
    sq_err k n p (c_poles c) u pts co 1 (length pts - 2) <= sq_err k n p P' u pts co 1 (length pts - 2).
Proof. exact bound_fixed_ok. Qed.
Print Assumptions C36_bound_fixed.

(** The overload that builds its own knots: the curve starts and ends at the end points. *)
Theorem C36_approx : forall eps ldlt dim (pts : list (pt R)) p n (u : list R) c,
  exact_solver ldlt -> 0 <= eps -> (1 <= p)%nat -> length u = length pts -> nondecreasing u ->
  kn u 0 < kn u (length u - 1) ->
  @approx R (NumR eps) ldlt dim pts p n u true = Ok c -> evaluable eps (c_knots c) n p ->
  bounds c = (kn u 0, kn u (length pts - 1)) /\ c_deg c = p /\ length (c_poles c) = n /\
  passes eps dim c (kn u 0) 0 (nth 0 pts (fun _ => 0)) /\
  passes eps dim c (kn u (length pts - 1)) 0 (nth (length pts - 1) pts (fun _ => 0)) /\
  forall P' co, (co < dim)%nat -> length P' = n ->
    nth 0 P' (fun _ => 0) co = nth 0 pts (fun _ => 0) co ->
    nth (n - 1) P' (fun _ => 0) co = nth (length pts - 1) pts (fun _ => 0) co ->
    sq_err (c_knots c) n p (c_poles c) u pts co 1 (length pts - 2)
      <= sq_err (c_knots c) n p P' u pts co 1 (length pts - 2).
Proof. exact approx_ok. Qed.
Print Assumptions C36_approx.
Example C36_nonvacuous : forall q0 q1 q2 q3 : pt R, exact_solver cramer /\
  exists c, @approx R (NumR (1 / 1000)) cramer 1 [q0; q1; q2; q3] 1 3 [0; 1; 2; 3] true = Ok c.
Proof. intros. split; [exact cramer_exact|]. apply approx_ex. lra. Qed.

(** Without fixed ends, all the points are counted and all the poles are free. *)
Theorem C36_free : forall eps k n p, knots_ok k n p -> evaluable eps k n p ->
  forall ldlt dim (pts : list (pt R)) (u : list R) c,
  exact_solver ldlt -> length u = length pts -> (forall x, In x u -> kn k p <= x <= kn k n) ->
  @approx_free R (NumR eps) ldlt dim pts p n u k = Ok c ->
  c_deg c = p /\ c_knots c = k /\ length (c_poles c) = n /\ (n <= length pts)%nat /\
  forall P' co, (co < dim)%nat -> length P' = n ->
    sq_err k n p (c_poles c) u pts co 0 (length pts) <= sq_err k n p P' u pts co 0 (length pts).
Proof. exact free_ok. Qed.
Print Assumptions C36_free.

(** Too few poles for the degree, or too few points for the poles, are rejected. *)
Theorem C36_sizes : forall eps ldlt dim (pts : list (pt R)) p n (u k : list R) fix_bound,
  (n < p + 1 \/ length pts < n)%nat ->
  @approx_bound_fixed R (NumR eps) ldlt dim pts p n u k = Throw LengthError /\
  @approx_free R (NumR eps) ldlt dim pts p n u k = Throw LengthError /\
  @approx R (NumR eps) ldlt dim pts p n u fix_bound = Throw LengthError.
Proof. exact sizes_rejected. Qed.
Print Assumptions C36_sizes.
