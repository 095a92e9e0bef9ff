(** C81: lofts approximated along a spine are least squares surfaces. *)
From Coq Require Import List Arith ZArith Reals.
From Verif Require Import Model_Base Model_Knots Model_Basis Model_Curve Model_Interp Model_Surface Model_Unify Model_Skin Model_Spine
  Spec_Base Spec_Basis Spec_Eval Spec_Knots Spec_Interp Spec_Surface Spec_Unify Spec_Approx Spec_Solve Spec_Skin Spec_Spine Spec_Loftapprox
  Proof_PropApprox Proof_Gauss Proof_PropSpine Proof_Loftapprox2 Proof_Loftapprox4 Proof_PropLoftapprox.
Import ListNotations.
Local Open Scope R_scope.

(** The surface is on the knots asked for, starts and ends at the stations of the first and last
    sections, and no other surface on its knots is closer, in any coordinate, to the points of the
    sections at the parameters spread evenly. *)
Theorem C81_least_squares : forall eps ldlt (extrema : curve R -> curve R -> result R) dt c0 rest spine (ku : list R) nu p q nv n_u s, let cs := c0 :: rest in
  0 < eps -> exact_solver ldlt -> loftable eps c0 cs -> knots_ok ku nu p -> (p <= 12)%nat -> (q <= 12)%nat -> (q < nv)%nat -> (2 <= n_u)%nat ->
  kn ku 0 = kn ku p -> kn ku (length ku - 1) = kn ku nu -> c_lo c0 <= kn ku 0 -> kn ku (length ku - 1) <= c_hi c0 ->
  (forall m k us, common_form eps c0 cs m k us -> exists ts, feet_of extrema spine us ts /\ ordered_feet eps ts) ->
  @loft_approx_knots R (NumR eps) ldlt extrema dt cs spine ku p q nv n_u = Ok s ->
  (2 <= length cs)%nat /\ s_degU s = p /\ s_degV s = q /\ s_ku s = ku /\ knots_ok (s_kv s) nv q /\ length (s_poles s) = (nu * nv)%nat /\
  s_u1 s = kn ku 0 /\ s_u2 s = kn ku (length ku - 1) /\
  exists m k us ts, common_form eps c0 cs m k us /\ feet_of extrema spine us ts /\ s_v1 s = station ts 0 /\ s_v2 s = station ts (length cs - 1) /\
  forall c P', (c < dt)%nat -> length P' = (nu * nv)%nat -> exists e e' : nat -> nat -> R,
    (forall i j sec, (i < n_u)%nat -> nth_error us j = Some sec -> exists x, @value R (NumR eps) sec (even_param ku n_u i) 0 = Ok x /\
       gap eps ku (s_kv s) (s_poles s) p q (even_param ku n_u i) (station ts j) 0 0 x c (e i j) /\
       gap eps ku (s_kv s) P' p q (even_param ku n_u i) (station ts j) 0 0 x c (e' i j)) /\
    sumn (length cs) (fun j => sumn n_u (fun i => e i j ^ 2)) <= sumn (length cs) (fun j => sumn n_u (fun i => e' i j ^ 2)).
Proof. exact loft_approx_lsq. Qed.
Print Assumptions C81_least_squares.

(** With one row of poles by section, sections that are splines on the knots asked for, sampled
    often enough, and stations that determine the rows, the surface is found *)
Theorem C81_returns : forall eps ldlt (extrema : curve R -> curve R -> result R) dt c0 rest spine (ku : list R) nu p q n_u, let cs := c0 :: rest in
  0 < eps -> complete_solver ldlt -> loftable eps c0 cs -> (2 <= length cs)%nat -> knots_ok ku nu p -> (p <= 12)%nat -> (q <= 12)%nat -> (q < length cs)%nat -> (2 <= n_u)%nat -> (nu <= n_u)%nat ->
  kn ku 0 = kn ku p -> kn ku (length ku - 1) = kn ku nu -> kn ku 0 = c_lo c0 -> kn ku (length ku - 1) = c_hi c0 ->
  resolve eps ku nu p (even_params ku n_u) ->
  (forall m k us, common_form eps c0 cs m k us -> exists ts, feet_of extrema spine us ts /\ ordered_feet eps ts) ->
  (forall ts kv, ordered_feet eps ts -> length ts = length cs ->
     (exists m k us, common_form eps c0 cs m k us /\ feet_of extrema spine us ts) ->
     @build_simple_mult_flat_knots_range R (NumR eps) (station ts 0) (station ts (length cs - 1)) (length cs) q = Ok kv ->
     resolve eps kv (length cs) q (stations ts)) ->
  (Z.of_nat (nu + p + 1) < 2 ^ 64)%Z -> (Z.of_nat (length cs + q + 1) < 2 ^ 64)%Z -> (Z.of_nat (nu * length cs) < 2 ^ 64)%Z ->
  exists s, @loft_approx_knots R (NumR eps) ldlt extrema dt cs spine ku p q (length cs) n_u = Ok s.
Proof. exact loft_approx_finds. Qed.
Print Assumptions C81_returns.
(** and carries every section at its station. *)
Theorem C81_carries : forall eps ldlt (extrema : curve R -> curve R -> result R) dt c0 rest spine (ku : list R) nu p q n_u s, let cs := c0 :: rest in
  0 < eps -> exact_solver ldlt -> loftable eps c0 cs -> knots_ok ku nu p -> (p <= 12)%nat -> (q <= 12)%nat -> (q < length cs)%nat -> (2 <= n_u)%nat ->
  kn ku 0 = kn ku p -> kn ku (length ku - 1) = kn ku nu -> kn ku 0 = c_lo c0 -> kn ku (length ku - 1) = c_hi c0 ->
  (forall c, In c cs -> spanned eps dt ku nu p c0 c) -> resolve eps ku nu p (even_params ku n_u) ->
  (forall m k us, common_form eps c0 cs m k us -> exists ts, feet_of extrema spine us ts /\ ordered_feet eps ts) ->
  (forall ts kv, ordered_feet eps ts -> length ts = length cs ->
     (exists m k us, common_form eps c0 cs m k us /\ feet_of extrema spine us ts) ->
     @build_simple_mult_flat_knots_range R (NumR eps) (station ts 0) (station ts (length cs - 1)) (length cs) q = Ok kv ->
     resolve eps kv (length cs) q (stations ts)) ->
  @loft_approx_knots R (NumR eps) ldlt extrema dt cs spine ku p q (length cs) n_u = Ok s ->
  (2 <= length cs)%nat /\ s_degU s = p /\ s_degV s = q /\ s_ku s = ku /\ s_u1 s = c_lo c0 /\ s_u2 s = c_hi c0 /\
  exists m k us ts, common_form eps c0 cs m k us /\ feet_of extrema spine us ts /\ s_v1 s = station ts 0 /\ s_v2 s = station ts (length cs - 1) /\
    forall j c, nth_error cs j = Some c -> carries eps dt s c0 c (station ts j).
Proof. exact loft_approx_exact. Qed.
Print Assumptions C81_carries.
Example C81_nonvacuous : complete_solver gauss /\ loftable (1 / 10) bar1 [bar1; bar2] /\ knots_ok unit_knots 2 1 /\
  (forall c, In c [bar1; bar2] -> spanned (1 / 10) 2 unit_knots 2 1 bar1 c) /\ resolve (1 / 10) unit_knots 2 1 (even_params unit_knots 3) /\
  (forall m k us, common_form (1 / 10) bar1 [bar1; bar2] m k us -> exists ts, feet_of lit_foot lit_spine us ts /\ ordered_feet (1 / 10) ts) /\
  (forall ts kv, ordered_feet (1 / 10) ts -> length ts = 2%nat ->
     (exists m k us, common_form (1 / 10) bar1 [bar1; bar2] m k us /\ feet_of lit_foot lit_spine us ts) ->
     @build_simple_mult_flat_knots_range R (NumR (1 / 10)) (station ts 0) (station ts (2 - 1)) 2 1 = Ok kv -> resolve (1 / 10) kv 2 1 (stations ts)) /\
  exists s, @loft_approx_knots R (NumR (1 / 10)) gauss lit_foot 2 [bar1; bar2] lit_spine unit_knots 1 1 2 3 = Ok s.
Proof. exact two_hyps. Qed.

(** The overload that chooses the knots itself: the same, when its samples determine the
    splines on the knots common to the sections. *)
Theorem C81_default : forall eps ldlt (extrema : curve R -> curve R -> result R) dt c0 rest spine q_max s, let cs := c0 :: rest in
  let q := Nat.max (Nat.min q_max (length cs - 1)) 1 in
  0 < eps -> exact_solver ldlt -> loftable eps c0 cs -> (q_max <= 12)%nat ->
  (forall us c, @unify_curves R (NumR eps) cs = Ok us -> nth_error us 0 = Some c ->
     resolve eps (c_knots c) (length (c_poles c)) (c_deg c) (even_params (c_knots c) (Nat.max (4 * length (c_poles c)) 30))) ->
  (forall m k us, common_form eps c0 cs m k us -> exists ts, feet_of extrema spine us ts /\ ordered_feet eps ts) ->
  (forall ts kv, ordered_feet eps ts -> length ts = length cs ->
     (exists m k us, common_form eps c0 cs m k us /\ feet_of extrema spine us ts) ->
     @build_simple_mult_flat_knots_range R (NumR eps) (station ts 0) (station ts (length cs - 1)) (length cs) q = Ok kv ->
     resolve eps kv (length cs) q (stations ts)) ->
  @loft_approx R (NumR eps) ldlt extrema dt cs spine q_max = Ok s ->
  (2 <= length cs)%nat /\ s_degU s = list_max (map c_deg cs) /\ s_degV s = q /\ s_u1 s = c_lo c0 /\ s_u2 s = c_hi c0 /\
  exists m k us ts, common_form eps c0 cs m k us /\ feet_of extrema spine us ts /\ s_v1 s = station ts 0 /\ s_v2 s = station ts (length cs - 1) /\
    forall j c, nth_error cs j = Some c -> carries eps dt s c0 c (station ts j).
Proof. exact loft_approx_default. Qed.
Print Assumptions C81_default.
Example C81_default_nonvacuous : loftable (1 / 10) bar1 [bar1; bar2] /\
  (forall us c, @unify_curves R (NumR (1 / 10)) [bar1; bar2] = Ok us -> nth_error us 0 = Some c ->
     resolve (1 / 10) (c_knots c) (length (c_poles c)) (c_deg c) (even_params (c_knots c) (Nat.max (4 * length (c_poles c)) 30))) /\
  exists s, @loft_approx R (NumR (1 / 10)) gauss lit_foot 2 [bar1; bar2] lit_spine 3 = Ok s.
Proof. exact (conj (bars_loftable (1, 2) [(3, 5)]) (conj bars_default bars_loft)). Qed.

(** Stations in order are not enough: its knots do not follow them, and no answer to its
    equations makes it carry sections that crowd at one end of the spine. *)
Theorem C81_rows_refuted : exists eps (c0 : curve R) rest spine (extrema : curve R -> curve R -> result R) ts,
  0 < eps /\ loftable eps c0 (c0 :: rest) /\ strictly_increasing ts /\
  (forall m k us, common_form eps c0 (c0 :: rest) m k us -> feet_of extrema spine us ts /\ ordered_feet eps ts) /\
  forall ldlt s, exact_solver ldlt -> @loft_approx R (NumR eps) ldlt extrema 2 (c0 :: rest) spine 1 = Ok s ->
    ~ forall j c, nth_error (c0 :: rest) j = Some c -> carries eps 2 s c0 c (station ts j).
Proof. exact rows_refuted. Qed.
Print Assumptions C81_rows_refuted.

(** Nor is the parameter v brought to [0, 1]: the feet are divided by the length of their range,
    but their first one is not subtracted. *)
Theorem C81_domain_refuted : exists eps ldlt (extrema : curve R -> curve R -> result R) cs spine s,
  0 < eps /\ complete_solver ldlt /\ @loft_approx R (NumR eps) ldlt extrema 2 cs spine 3 = Ok s /\ s_v1 s = 1 / 2 /\ s_v2 s = 3 / 2.
Proof. exact domain_refuted. Qed.
Print Assumptions C81_domain_refuted.
