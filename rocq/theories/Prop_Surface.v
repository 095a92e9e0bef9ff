(** Tensor-product surfaces: properties C29 to C33. *)
From Coq Require Import List Arith ZArith QArith Reals.
From Verif Require Import Model_Base Model_Basis Model_Rational Model_Curve Model_Surface Spec_Base Spec_Basis Spec_Eval
  Spec_Class Spec_Rational Spec_Surface Proof_Grid Proof_SurfEdit Proof_SurfEdit2 Proof_PropSurface.
Import ListNotations.
Local Open Scope R_scope.

(** Data that meets the hypotheses of the theorems of this file. *)
Example C29_nonvacuous : surface_ok ex_surf /\ natural_surface ex_surf /\ evaluable_surface (1/1000) ex_surf /\
  s_nU ex_surf = 4%nat /\ s_nV ex_surf = 2%nat /\
  first_span (s_ku ex_surf) (s_degU ex_surf) /\ first_span (s_kv ex_surf) (s_degV ex_surf) /\
  clamped (s_ku ex_surf) (s_nU ex_surf) (s_degU ex_surf) /\ clamped (s_kv ex_surf) (s_nV ex_surf) (s_degV ex_surf) /\
  in_surface ex_surf (1/2) (1/3).
Proof. exact ex_surface. Qed.

(** C29: value(u,v) = sum_ij N_i(u) N_j(v) P_(i + nU j). *)
Theorem C29_value : forall eps s u v, 0 <= eps -> surface_ok s -> natural_surface s -> evaluable_surface eps s -> in_surface s u v ->
  exists z, @surf_value R (NumR eps) s u v 0 0 = Ok z /\
    forall c, z c = tensor (s_ku s) (s_nU s) (s_degU s) (s_kv s) (s_nV s) (s_degV s) (s_poles s) c u v.
Proof. exact surface_value. Qed.
Print Assumptions C29_value.

(** Every order: evaluate the curves of constant V index at u, then the curve of the results at v. *)
Theorem C29_rows_first : forall eps s u v du dv, 0 <= eps -> surface_ok s -> natural_surface s -> evaluable_surface eps s -> in_surface s u v ->
  exists z R z', @surf_value _ (NumR eps) s u v du dv = Ok z /\
    mapM (fun j => @eval_value _ (NumR eps) u (s_ku s) (row (s_poles s) (s_nU s) j) (s_degU s) du) (seq 0 (s_nV s)) = Ok R /\
    @eval_value _ (NumR eps) v (s_kv s) R (s_degV s) dv = Ok z' /\ forall c, z' c = z c.
Proof. exact surface_rows_first. Qed.
Print Assumptions C29_rows_first.

(** The other order gives the same point. *)
Theorem C29_cols_first : forall eps s u v du dv, 0 <= eps -> surface_ok s -> natural_surface s -> evaluable_surface eps s -> in_surface s u v ->
  exists z R z', @surf_value _ (NumR eps) s u v du dv = Ok z /\
    mapM (fun i => @eval_value _ (NumR eps) v (s_kv s) (col (s_poles s) (s_nU s) (s_nV s) i) (s_degV s) dv) (seq 0 (s_nU s)) = Ok R /\
    @eval_value _ (NumR eps) u (s_ku s) R (s_degU s) du = Ok z' /\ forall c, z' c = z c.
Proof. exact surface_cols_first. Qed.
Print Assumptions C29_cols_first.

(** Orders du, dv are partial derivatives: raising one differentiates in that parameter
    (inside a span, from the right at a knot, from the left at the end). *)
Theorem C29_partial_u : forall eps s D u v du dv c, 0 <= eps -> surface_ok s -> natural_surface s -> evaluable_surface eps s ->
  side (s_ku s) (s_nU s) (s_degU s) D u -> kn (s_kv s) (s_degV s) <= v <= kn (s_kv s) (s_nV s) ->
  D_in (fun x => val (@surf_value R (NumR eps) s x v du dv) c) (fun x => val (@surf_value R (NumR eps) s x v (S du) dv) c) D u.
Proof. exact surface_partial_u. Qed.
Print Assumptions C29_partial_u.
Theorem C29_partial_v : forall eps s D u v du dv c, 0 <= eps -> surface_ok s -> natural_surface s -> evaluable_surface eps s ->
  side (s_kv s) (s_nV s) (s_degV s) D v -> kn (s_ku s) (s_degU s) <= u <= kn (s_ku s) (s_nU s) ->
  D_in (fun y => val (@surf_value R (NumR eps) s u y du dv) c) (fun y => val (@surf_value R (NumR eps) s u y du (S dv)) c) D v.
Proof. exact surface_partial_v. Qed.
Print Assumptions C29_partial_v.

(** derivatives() tabulates value() at every order. *)
Theorem C29_table : forall eps s u v nu nv, 0 <= eps -> surface_ok s -> natural_surface s -> evaluable_surface eps s -> in_surface s u v ->
  exists t, @surf_derivatives R (NumR eps) s u v nu nv = Ok t /\ length t = ((nu + 1) * (nv + 1))%nat /\
    forall a b, (a <= nu)%nat -> (b <= nv)%nat -> exists z, @surf_value R (NumR eps) s u v a b = Ok z /\
      forall c, nth (a * (nv + 1) + b) t (@pzero R (NumR eps)) c = z c.
Proof. exact surface_table. Qed.
Print Assumptions C29_table.

(** Outside the bounds (and the tolerance) every evaluation is rejected. *)
Theorem C29_outside : forall eps s u v du dv,
  u < s_u1 s - eps \/ s_u2 s + eps < u \/ v < s_v1 s - eps \/ s_v2 s + eps < v ->
  @surf_value R (NumR eps) s u v du dv = Throw OutOfBoundsEval /\ @surf_derivatives R (NumR eps) s u v du dv = Throw OutOfBoundsEval /\
  forall dim, @surf_rational_value R (NumR eps) dim s u v du dv = Throw OutOfBoundsEval /\
    @surf_rational_derivatives R (NumR eps) dim s u v du dv = Throw OutOfBoundsEval.
Proof. exact surface_outside. Qed.
Print Assumptions C29_outside.

(** Rational surfaces (coordinate dim of a pole is its weight): weighted quotient. *)
Theorem C29_rational_value : forall eps dim s u v, 0 <= eps -> surface_ok s -> natural_surface s -> evaluable_surface eps s -> in_surface s u v ->
  let t c := tensor (s_ku s) (s_nU s) (s_degU s) (s_kv s) (s_nV s) (s_degV s) (s_poles s) c u v in
  t dim <> 0 ->
  exists z, @surf_rational_value R (NumR eps) dim s u v 0 0 = Ok z /\ forall c, (c < dim)%nat -> z c = t c / t dim.
Proof. exact surface_rational_value. Qed.
Print Assumptions C29_rational_value.

(** Missing for the full statement: orders above 20 (the size_t factorials wrap). *)
Theorem C29_rational_u_partial : forall eps dim s D u v du dv c, 0 <= eps -> surface_ok s -> natural_surface s -> evaluable_surface eps s ->
  (forall x y, in_surface s x y ->
     tensor (s_ku s) (s_nU s) (s_degU s) (s_kv s) (s_nV s) (s_degV s) (s_poles s) dim x y <> 0) ->
  (du < 20)%nat -> (dv <= 20)%nat -> (c < dim)%nat ->
  side (s_ku s) (s_nU s) (s_degU s) D u -> kn (s_kv s) (s_degV s) <= v <= kn (s_kv s) (s_nV s) ->
  D_in (fun x => val (@surf_rational_value R (NumR eps) dim s x v du dv) c)
       (fun x => val (@surf_rational_value R (NumR eps) dim s x v (S du) dv) c) D u.
Proof. exact surface_rational_u. Qed.
Print Assumptions C29_rational_u_partial.
Theorem C29_rational_v_partial : forall eps dim s D u v du dv c, 0 <= eps -> surface_ok s -> natural_surface s -> evaluable_surface eps s ->
  (forall x y, in_surface s x y ->
     tensor (s_ku s) (s_nU s) (s_degU s) (s_kv s) (s_nV s) (s_degV s) (s_poles s) dim x y <> 0) ->
  (du <= 20)%nat -> (dv < 20)%nat -> (c < dim)%nat ->
  side (s_kv s) (s_nV s) (s_degV s) D v -> kn (s_ku s) (s_degU s) <= u <= kn (s_ku s) (s_nU s) ->
  D_in (fun y => val (@surf_rational_value R (NumR eps) dim s u y du dv) c)
       (fun y => val (@surf_rational_value R (NumR eps) dim s u y du (S dv)) c) D v.
Proof. exact surface_rational_v. Qed.
Print Assumptions C29_rational_v_partial.

(** The constructor accepts degree 5 in both directions with 3 knots and 9 poles: both
    pole counts wrap around.  Evaluation then reads out of range. *)
Theorem C29_constructor_refuted : exists s, @mk_surf Q NumQ (qgrid 9) [0;1;2]%Q [0;1;2]%Q 5 5 = Ok s /\
  @surf_value Q NumQ s 1%Q 1%Q 0 0 = Undef BadIndex.
Proof. exact wrapped_counts. Qed.
Print Assumptions C29_constructor_refuted.

(** C30: invertUV swaps the roles of u and v at every order, and undoes itself. *)
Theorem C30_invertUV : forall eps s, 0 <= eps -> surface_ok s -> natural_surface s ->
  exists s', @invertUV R (NumR eps) s = Ok s' /\ surface_ok s' /\ natural_surface s' /\
    s_degU s' = s_degV s /\ s_degV s' = s_degU s /\ s_ku s' = s_kv s /\ s_kv s' = s_ku s /\
    (forall i j, (i < s_nU s)%nat -> (j < s_nV s)%nat ->
       nth (j + s_nV s * i) (s_poles s') (@pzero R (NumR eps)) = nth (i + s_nU s * j) (s_poles s) (@pzero R (NumR eps))) /\
    @invertUV R (NumR eps) s' = Ok s /\
    (evaluable_surface eps s -> forall u v du dv, in_surface s u v ->
       exists z z', @surf_value R (NumR eps) s u v du dv = Ok z /\ @surf_value R (NumR eps) s' v u dv du = Ok z' /\ forall c, z' c = z c).
Proof. exact invert_prop. Qed.
Print Assumptions C30_invertUV.

(** inverted_uv_poles on any grid, of any type of entries. *)
Theorem C30_flat_transpose : forall A (zero d : A) (P : list A) n m, (1 <= m)%nat -> length P = (n * m)%nat ->
  exists T, inverted_uv_poles zero P m = Ok T /\ length T = (n * m)%nat /\
    forall i j, (i < n)%nat -> (j < m)%nat -> nth (j + m * i) T d = nth (i + n * j) P d.
Proof. exact @inverted_spec. Qed.
Print Assumptions C30_flat_transpose.
Theorem C30_flat_involution : forall A (zero : A) (P T : list A) n m, (1 <= m)%nat -> (1 <= n)%nat -> length P = (n * m)%nat ->
  inverted_uv_poles zero P m = Ok T -> inverted_uv_poles zero T n = Ok P.
Proof. exact @inverted_twice. Qed.
Print Assumptions C30_flat_involution.

(** transpose_poles on any rectangle. *)
Theorem C30_transpose : forall A (z : A) P nu nv, rectangular P nu nv -> (1 <= nu)%nat ->
  exists g, transpose_poles z P = Ok g /\ rectangular g nv nu /\
    forall j i, (j < nv)%nat -> (i < nu)%nat -> at2 z g j i = at2 z P i j.
Proof. exact @transpose_spec. Qed.
Print Assumptions C30_transpose.
Theorem C30_transpose_involution : forall A (z : A) P nu nv g, rectangular P nu nv -> (1 <= nu)%nat -> (1 <= nv)%nat ->
  transpose_poles z P = Ok g -> transpose_poles z g = Ok P.
Proof. exact @transpose_twice. Qed.
Print Assumptions C30_transpose_involution.

(** The blocked variant returns the same grid for every block size but 0. *)
Theorem C30_blocked : forall A (z : A) P nu nv bs, rectangular P nu nv -> (1 <= nu)%nat -> (1 <= bs)%nat ->
  transpose_poles_blocked z P bs = transpose_poles z P.
Proof. exact @blocked_spec. Qed.
Print Assumptions C30_blocked.
Example C30_rectangle : rectangular [[1;2;3];[4;5;6]] 2 3.
Proof. split; [reflexivity|]. intros r [<-|[<-|[]]]; reflexivity. Qed.
(** Block size 0: the loop never advances. *)
Theorem C30_block_zero_refuted : forall A (z : A) P nu nv, rectangular P nu nv -> (1 <= nu)%nat -> (1 <= nv)%nat ->
  transpose_poles_blocked z P 0 = Fuel.
Proof. exact @blocked_zero. Qed.
Print Assumptions C30_block_zero_refuted.
(** No rows: the plain variant returns no rows, the blocked one reads row 0. *)
Theorem C30_blocked_empty_refuted : forall A (z : A) bs,
  transpose_poles z [] = Ok [] /\ transpose_poles_blocked z [] bs = Undef BadIndex.
Proof. exact @blocked_empty. Qed.
Print Assumptions C30_blocked_empty_refuted.

(** C31: polesU(j) and polesV(i) inside the grid. *)
Theorem C31_polesU : forall eps s j, surface_ok s -> (j < s_nV s)%nat -> @polesU R (NumR eps) s j = Ok (row (s_poles s) (s_nU s) j).
Proof. exact polesU_ok. Qed.
Print Assumptions C31_polesU.
Theorem C31_polesV : forall s i, surface_ok s -> (i < s_nU s)%nat -> @polesV R s i = Ok (col (s_poles s) (s_nU s) (s_nV s) i).
Proof. exact polesV_ok. Qed.
Print Assumptions C31_polesV.
(** pole(i,j) with i the V index and j the U index: the documented roles are exchanged. *)
Theorem C31_pole_partial : forall eps s i j, surface_ok s -> (i < s_nV s)%nat -> (j < s_nU s)%nat ->
  @surf_pole R s i j = Ok (nth (j + s_nU s * i) (s_poles s) (@pzero R (NumR eps))).
Proof. exact pole_swapped. Qed.
Print Assumptions C31_pole_partial.
(** pole(0,1) is not the pole of U index 0 and V index 1. *)
Theorem C31_pole_refuted : forall eps, exists s q q0, surface_ok s /\ (0 < s_nU s)%nat /\ (1 < s_nV s)%nat /\
  @surf_pole R s 0 1 = Ok q /\ q0 = nth (0 + s_nU s * 1) (s_poles s) (@pzero R (NumR eps)) /\ q 0%nat <> q0 0%nat.
Proof. exact pole_wrong. Qed.
Print Assumptions C31_pole_refuted.
(** A pair of indices of the grid is rejected, a pair outside it is accepted. *)
Theorem C31_reject_refuted : exists s, surface_ok s /\ (2 < s_nU s)%nat /\ (1 < s_nV s)%nat /\ @surf_pole R s 2 1 = Throw OutOfRangeError.
Proof. exact pole_reject_valid. Qed.
Print Assumptions C31_reject_refuted.
Theorem C31_accept_refuted : exists s q, surface_ok s /\ (s_nV s <= 7)%nat /\ (s_nU s <= 7)%nat /\ @surf_pole R s 0 7 = Ok q.
Proof. exact pole_accept_invalid. Qed.
Print Assumptions C31_accept_refuted.
(** "Last PolesU vector is sent if overflow": the origin n times at j = nV, undefined beyond. *)
Theorem C31_polesU_past_refuted : forall eps s, surface_ok s ->
  @polesU R (NumR eps) s (s_nV s) = Ok (filled (s_nU s) (@pzero R (NumR eps))).
Proof. exact polesU_past. Qed.
Print Assumptions C31_polesU_past_refuted.
Theorem C31_polesU_beyond_refuted : forall eps s j, surface_ok s -> (s_nV s < j)%nat -> @polesU R (NumR eps) s j = Undef BadIterator.
Proof. exact polesU_beyond. Qed.
Print Assumptions C31_polesU_beyond_refuted.

(** C32: the iso-parametric curve has the values and v-derivatives of the surface. *)
Theorem C32_isoU : forall eps s u, 0 <= eps -> surface_ok s -> natural_surface s -> evaluable_surface eps s -> (1 <= s_degU s)%nat ->
  kn (s_ku s) (s_degU s) <= u < kn (s_ku s) (s_nU s) \/ u = kn (s_ku s) (s_nU s) /\ end_clamped (s_ku s) (s_nU s) (s_degU s) ->
  exists cv, @isoU R (NumR eps) s u = Ok cv /\
    c_deg cv = s_degV s /\ c_knots cv = s_kv s /\ c_lo cv = s_v1 s /\ c_hi cv = s_v2 s /\ c_n cv = s_nV s /\
    forall v dv, kn (s_kv s) (s_degV s) <= v <= kn (s_kv s) (s_nV s) ->
      exists z z', @surf_value R (NumR eps) s u v 0 dv = Ok z /\ @value R (NumR eps) cv v dv = Ok z' /\ forall c, z' c = z c.
Proof. exact isoU_prop. Qed.
Print Assumptions C32_isoU.
Theorem C32_isoV : forall eps s v, 0 <= eps -> surface_ok s -> natural_surface s -> evaluable_surface eps s -> (1 <= s_degV s)%nat ->
  kn (s_kv s) (s_degV s) <= v < kn (s_kv s) (s_nV s) \/ v = kn (s_kv s) (s_nV s) /\ end_clamped (s_kv s) (s_nV s) (s_degV s) ->
  exists cu, @isoV R (NumR eps) s v = Ok cu /\
    c_deg cu = s_degU s /\ c_knots cu = s_ku s /\ c_lo cu = s_u1 s /\ c_hi cu = s_u2 s /\ c_n cu = s_nU s /\
    forall u du, kn (s_ku s) (s_degU s) <= u <= kn (s_ku s) (s_nU s) ->
      exists z z', @surf_value R (NumR eps) s u v du 0 = Ok z /\ @value R (NumR eps) cu u du = Ok z' /\ forall c, z' c = z c.
Proof. exact isoV_prop. Qed.
Print Assumptions C32_isoV.
(** In the tolerance band below the start, where value() still answers, isoU indexes the
    poles at -1. *)
Theorem C32_band_refuted : forall eps s u, surface_ok s -> natural_surface s -> (1 <= s_degU s)%nat ->
  s_u1 s - eps <= u < s_u1 s -> @isoU R (NumR eps) s u = Undef BadIndex.
Proof. exact isoU_below. Qed.
Print Assumptions C32_band_refuted.

(** C33: knot insertion in one direction keeps every value and derivative. *)
Theorem C33_insertKnotU : forall eps s u r, 0 <= eps -> surface_ok s -> natural_surface s ->
  kn (s_ku s) (s_degU s) <= u < kn (s_ku s) (s_nU s) -> (1 <= r)%nat ->
  exists idx s', @insertKnotU R (NumR eps) s u r = Ok (idx, s') /\ surface_ok s' /\ natural_surface s' /\
    s_degU s' = s_degU s /\ s_degV s' = s_degV s /\ s_kv s' = s_kv s /\
    count_occ Req_EM_T (s_ku s') u = max (count_occ Req_EM_T (s_ku s) u) (min (s_degU s) (count_occ Req_EM_T (s_ku s) u + r)) /\
    (forall x, x <> u -> count_occ Req_EM_T (s_ku s') x = count_occ Req_EM_T (s_ku s) x) /\
    (forall x y, in_surface s' x y <-> in_surface s x y) /\
    (evaluable_surface eps s -> evaluable_surface eps s' -> surfaces_agree eps s s' (same_params s) one).
Proof. exact insertU_prop. Qed.
Print Assumptions C33_insertKnotU.
Theorem C33_insertKnotV : forall eps s v r, 0 <= eps -> surface_ok s -> natural_surface s ->
  kn (s_kv s) (s_degV s) <= v < kn (s_kv s) (s_nV s) -> (1 <= r)%nat ->
  exists idx s', @insertKnotV R (NumR eps) s v r = Ok (idx, s') /\ surface_ok s' /\ natural_surface s' /\
    s_degU s' = s_degU s /\ s_degV s' = s_degV s /\ s_ku s' = s_ku s /\
    count_occ Req_EM_T (s_kv s') v = max (count_occ Req_EM_T (s_kv s) v) (min (s_degV s) (count_occ Req_EM_T (s_kv s) v + r)) /\
    (forall x, x <> v -> count_occ Req_EM_T (s_kv s') x = count_occ Req_EM_T (s_kv s) x) /\
    (forall x y, in_surface s' x y <-> in_surface s x y) /\
    (evaluable_surface eps s -> evaluable_surface eps s' -> surfaces_agree eps s s' (same_params s) one).
Proof. exact insertV_prop. Qed.
Print Assumptions C33_insertKnotV.

(** Reversal mirrors the parameter, keeps the bounds and undoes itself. *)
Theorem C33_reverseU : forall eps s, 0 <= eps -> surface_ok s -> natural_surface s -> first_span (s_ku s) (s_degU s) ->
  exists s', @reverseU R (NumR eps) s = Ok s' /\ surface_ok s' /\ natural_surface s' /\ first_span (s_ku s') (s_degU s') /\
    s_degU s' = s_degU s /\ s_degV s' = s_degV s /\ s_kv s' = s_kv s /\
    s_u1 s' = s_u1 s /\ s_u2 s' = s_u2 s /\ s_nU s' = s_nU s /\
    @reverseU R (NumR eps) s' = Ok s /\
    (forall u v, in_surface s u v -> in_surface s' (s_u1 s + s_u2 s - u) v) /\
    (evaluable_surface eps s -> evaluable_surface eps s' -> surfaces_agree eps s s' (mirrored s) sign_u).
Proof. exact reverseU_prop. Qed.
Print Assumptions C33_reverseU.
Theorem C33_reverseV : forall eps s, 0 <= eps -> surface_ok s -> natural_surface s -> first_span (s_kv s) (s_degV s) ->
  exists s', @reverseV R (NumR eps) s = Ok s' /\ surface_ok s' /\ natural_surface s' /\ first_span (s_kv s') (s_degV s') /\
    s_degU s' = s_degU s /\ s_degV s' = s_degV s /\ s_ku s' = s_ku s /\
    s_v1 s' = s_v1 s /\ s_v2 s' = s_v2 s /\ s_nV s' = s_nV s /\
    @reverseV R (NumR eps) s' = Ok s /\
    (forall u v, in_surface s u v -> in_surface s' u (s_v1 s + s_v2 s - v)) /\
    (evaluable_surface eps s -> evaluable_surface eps s' -> surfaces_agree eps s s' (mirrored_v s) sign_v).
Proof. exact reverseV_prop. Qed.
Print Assumptions C33_reverseV.

(** New bounds: the same points under the affine change of parameter. *)
Theorem C33_changeUBounds : forall eps s a b, 0 <= eps -> surface_ok s -> natural_surface s -> first_span (s_ku s) (s_degU s) -> a < b ->
  exists s', @changeUBounds R (NumR eps) s a b = Ok s' /\ surface_ok s' /\ natural_surface s' /\ first_span (s_ku s') (s_degU s') /\
    s_degU s' = s_degU s /\ s_degV s' = s_degV s /\ s_kv s' = s_kv s /\ s_poles s' = s_poles s /\
    s_u1 s' = a /\ s_u2 s' = b /\ s_nU s' = s_nU s /\
    (forall i, (i < length (s_ku s))%nat -> kn (s_ku s') i = a + (b - a) * (kn (s_ku s) i - s_u1 s) / (s_u2 s - s_u1 s)) /\
    (evaluable_surface eps s -> evaluable_surface eps s' ->
       surfaces_agree eps s s' (rescaled s a b) (scale_u ((s_u2 s - s_u1 s) / (b - a)))).
Proof. exact changeU_prop. Qed.
Print Assumptions C33_changeUBounds.
Theorem C33_changeVBounds : forall eps s a b, 0 <= eps -> surface_ok s -> natural_surface s -> first_span (s_kv s) (s_degV s) -> a < b ->
  exists s', @changeVBounds R (NumR eps) s a b = Ok s' /\ surface_ok s' /\ natural_surface s' /\ first_span (s_kv s') (s_degV s') /\
    s_degU s' = s_degU s /\ s_degV s' = s_degV s /\ s_ku s' = s_ku s /\ s_poles s' = s_poles s /\
    s_v1 s' = a /\ s_v2 s' = b /\ s_nV s' = s_nV s /\
    (forall i, (i < length (s_kv s))%nat -> kn (s_kv s') i = a + (b - a) * (kn (s_kv s) i - s_v1 s) / (s_v2 s - s_v1 s)) /\
    (evaluable_surface eps s -> evaluable_surface eps s' ->
       surfaces_agree eps s s' (rescaled_v s a b) (scale_v ((s_v2 s - s_v1 s) / (b - a)))).
Proof. exact changeV_prop. Qed.
Print Assumptions C33_changeVBounds.

(** Trimming restricts the surface. *)
Theorem C33_trimU : forall eps s u1 u2, 0 < eps -> surface_ok s -> natural_surface s -> (1 <= s_degU s)%nat ->
  clamped (s_ku s) (s_nU s) (s_degU s) -> kn (s_ku s) (s_degU s) <= u1 -> u1 < u2 -> u2 <= kn (s_ku s) (s_nU s) ->
  exists s', @trimU R (NumR eps) s u1 u2 = Ok s' /\ surface_ok s' /\ clamped (s_ku s') (s_nU s') (s_degU s') /\
    s_degU s' = s_degU s /\ s_degV s' = s_degV s /\ s_kv s' = s_kv s /\ s_v1 s' = s_v1 s /\ s_v2 s' = s_v2 s /\
    s_u1 s' = u1 /\ s_u2 s' = u2 /\
    u1 - eps < kn (s_ku s') (s_degU s') <= u1 /\ u2 <= kn (s_ku s') (s_nU s') < u2 + eps /\
    (eps <= u1 - kn (s_ku s) (s_degU s) -> kn (s_ku s') (s_degU s') = u1) /\
    (eps <= kn (s_ku s) (s_nU s) - u2 -> kn (s_ku s') (s_nU s') = u2) /\
    (evaluable_surface eps s -> evaluable_surface eps s' -> surfaces_agree eps s s' (trimmed eps s u1 u2) one).
Proof. exact trimU_prop. Qed.
Print Assumptions C33_trimU.
Theorem C33_trimV : forall eps s v1 v2, 0 < eps -> surface_ok s -> natural_surface s -> (1 <= s_degV s)%nat ->
  clamped (s_kv s) (s_nV s) (s_degV s) -> kn (s_kv s) (s_degV s) <= v1 -> v1 < v2 -> v2 <= kn (s_kv s) (s_nV s) ->
  exists s', @trimV R (NumR eps) s v1 v2 = Ok s' /\ surface_ok s' /\ natural_surface s' /\ clamped (s_kv s') (s_nV s') (s_degV s') /\
    s_degU s' = s_degU s /\ s_degV s' = s_degV s /\ s_ku s' = s_ku s /\
    v1 - eps < kn (s_kv s') (s_degV s') <= v1 /\ v2 <= kn (s_kv s') (s_nV s') < v2 + eps /\
    (eps <= v1 - kn (s_kv s) (s_degV s) -> kn (s_kv s') (s_degV s') = v1) /\
    (eps <= kn (s_kv s) (s_nV s) - v2 -> kn (s_kv s') (s_nV s') = v2) /\
    (evaluable_surface eps s -> evaluable_surface eps s' -> surfaces_agree eps s s' (trimmed_v eps s v1 v2) one).
Proof. exact trimV_prop. Qed.
Print Assumptions C33_trimV.
(** Trimming with the bounds in decreasing order sorts the knots but stores the bounds as
    given, after which no parameter is accepted. *)
Theorem C33_trim_order_refuted : exists s s', @mk_surf Q NumQ (qgrid 8) [0;0;0;1;2;2;2]%Q [0;0;1;1]%Q 2 1 = Ok s /\
  @trimU Q NumQ s (3#2) (1#2) = Ok s' /\ s_u1 s' = (3#2)%Q /\ s_u2 s' = (1#2)%Q /\
  @surf_value Q NumQ s' 1%Q (1#2)%Q 0 0 = Throw OutOfBoundsEval.
Proof. exact trim_swapped. Qed.
Print Assumptions C33_trim_order_refuted.
