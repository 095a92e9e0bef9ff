(** Properties C24 (flat knots), C25 (builders), C26 (ordered insertion), C38 (ranges) and
    C67 (parametrisation of point lists). *)
From Coq Require Import List Arith ZArith QArith Reals Permutation.
From Verif Require Import Model_Base Model_Knots Model_Math Spec_Base Spec_Basis Spec_Knots
  Proof_Knots Proof_Builders Proof_Builders2.
Import ListNotations.
Local Open Scope R_scope.

(** C24: flat_knots repeats each knot by its multiplicity and rejects lists of different
    lengths; *)
Theorem C24_flat : forall (ks : list R) (ms : list nat),
  (length ks = length ms -> flat_knots ks ms = Ok (repeat_each ks ms)) /\
  (length ks <> length ms -> flat_knots ks ms = Throw LengthError).
Proof. exact flat_spec. Qed.
Print Assumptions C24_flat.

(** all three unflat functions invert it on knots more than eps apart. *)
Theorem C24_round_trip : forall eps ks ms, 0 < eps -> ks <> [] -> length ks = length ms ->
  (forall m, In m ms -> (1 <= m)%nat) -> spaced eps ks ->
  @flat_knots R ks ms = Ok (repeat_each ks ms) /\
  @knots_and_mults R (NumR eps) (repeat_each ks ms) = Ok (ks, ms) /\
  @unflat_knots_only R (NumR eps) (repeat_each ks ms) = Ok ks /\
  @unflat_pairs R (NumR eps) (repeat_each ks ms) = Ok (combine ks ms).
Proof. exact round_trip. Qed.
Print Assumptions C24_round_trip.

(** At a distance of exactly eps the variants disagree. *)
Theorem C24_variants_agree_refuted : let e := @neps Q NumQ in
  @knots_and_mults Q NumQ [0%Q; e] = Ok ([0%Q], [2%nat]) /\
  @unflat_pairs Q NumQ [0%Q; e] = Ok [(0%Q, 1%nat); (e, 1%nat)].
Proof. exact unflat_disagree. Qed.
Print Assumptions C24_variants_agree_refuted.

(** C25: the averaging builder; the interior knots are the averages of p consecutive
    parameters and all knots of the domain differ. *)
Theorem C25_simple : forall eps (u : list R) p,
  (1 <= p)%nat -> (p + 1 <= length u)%nat -> strictly_increasing u ->
  exists k, @build_simple_mult_flat_knots R (NumR eps) u p = Ok k /\
    clamped_vector k (length u) p (kn u 0) (kn u (length u - 1)) /\
    (forall j, (1 <= j < length u - p)%nat ->
       kn k (j + p) = sumn p (fun i => kn u (j + i)) / INR p) /\
    (forall i, (p <= i < length u)%nat -> kn k i < kn k (S i)).
Proof. exact build_simple_spec. Qed.
Print Assumptions C25_simple.

(** The builder from an interval: a valid clamped vector, knots at multiples of
    (b-a)/(n-p+1). *)
Theorem C25_simple_range : forall eps a b n p, (p < n)%nat -> a < b ->
  exists k, @build_simple_mult_flat_knots_range R (NumR eps) a b n p = Ok k /\
    clamped_vector k n p a b /\
    (forall j, (0 <= j < n - p)%nat -> kn k (j + p) = a + (b - a) * INR j / INR (n - p + 1)).
Proof. exact build_range_spec. Qed.
Print Assumptions C25_simple_range.

(** Its knots are not uniform: the last span is twice as long as the others. *)
Theorem C25_uniform_refuted :
  @build_simple_mult_flat_knots_range Q NumQ 0%Q 1%Q 3 1 = Ok [0; 0; 1 # 3; 1; 1]%Q.
Proof. exact range_not_uniform. Qed.
Print Assumptions C25_uniform_refuted.

(** The builder with a given interior multiplicity. *)
Theorem C25_mult : forall (k : list R) p mult, (2 <= length k)%nat -> strictly_increasing k ->
  exists f, build_mult_flat_knots k p mult = Ok f /\
    clamped_vector f (p + 1 + mult * (length k - 2)) p (kn k 0) (kn k (length k - 1)) /\
    forall i, (0 < i < length k - 1)%nat -> count_occ Req_EM_T f (kn k i) = mult.
Proof. exact build_mult_spec. Qed.
Print Assumptions C25_mult.

Theorem C25_mult_range : forall eps a b n p mult, (2 <= n)%nat -> a < b ->
  exists f, @build_mult_flat_knots_range R (NumR eps) a b n p mult = Ok f /\
    clamped_vector f (p + 1 + mult * (n - 2)) p a b /\
    forall i, (0 < i < n - 1)%nat ->
      count_occ Req_EM_T f (a + INR i * ((b - a) / INR (n - 1))) = mult.
Proof. exact build_mult_range_spec. Qed.
Print Assumptions C25_mult_range.

(** C26. *)
Theorem C26_insert_ordered : forall eps (v : list R) x, nondecreasing v ->
  nondecreasing (@insert_ordered R (NumR eps) v x) /\
  Permutation (@insert_ordered R (NumR eps) v x) (x :: v).
Proof. exact insert_ordered_spec. Qed.
Print Assumptions C26_insert_ordered.

(** The unique version: nothing is added exactly when an element of [x, x+tol] exists. *)
Theorem C26_insert_unique : forall eps (v : list R) x tol, nondecreasing v -> 0 <= tol ->
  let w := @insert_unique_ordered R (NumR eps) v x tol in
  nondecreasing w /\
  (((exists y, In y v /\ x <= y <= x + tol) /\ w = v) \/
   ((forall y, In y v -> x <= y -> x + tol < y) /\ Permutation w (x :: v))).
Proof. exact insert_unique_spec. Qed.
Print Assumptions C26_insert_unique.

(** An element below x within the tolerance does not prevent the insertion. *)
Theorem C26_unique_refuted : let e := @neps Q NumQ in let h := (e * (1 # 2))%Q in
  @insert_unique_ordered Q NumQ [0%Q] h e = [0%Q; h].
Proof. exact unique_duplicate. Qed.
Print Assumptions C26_unique_refuted.

(** C38. *)
Theorem C38_make_range : forall eps a b n,
  ((n < 2)%nat -> @make_range R (NumR eps) a b n = Throw LengthError) /\
  ((2 <= n)%nat -> exists v, @make_range R (NumR eps) a b n = Ok v /\ length v = n /\
     kn v 0 = a /\ kn v (n - 1) = b /\
     (forall i, (i < n)%nat -> kn v i = a + INR i * ((b - a) / INR (n - 1))) /\
     (a < b -> strictly_increasing v)).
Proof. exact range_spec. Qed.
Print Assumptions C38_make_range.

(** The grids: the value at position j + nv*i (and k + nw*(j + nv*i)) is the grid point
    (i, j[, k]), where the i-th of n values of [a,b] is a + (b-a) i/(n-1). *)
Theorem C38_make_range2 : forall eps u1 u2 v1 v2 nu nv,
  ((nu < 2 \/ nv < 2)%nat -> @make_range2 R (NumR eps) u1 u2 v1 v2 nu nv = Throw LengthError) /\
  ((2 <= nu)%nat -> (2 <= nv)%nat ->
   exists v, @make_range2 R (NumR eps) u1 u2 v1 v2 nu nv = Ok v /\ length v = (nu * nv)%nat /\
     forall i j, (i < nu)%nat -> (j < nv)%nat ->
       nth (j + nv * i) v (0, 0) =
       (u1 + (u2 - u1) * INR i / INR (nu - 1), v1 + (v2 - v1) * INR j / INR (nv - 1))).
Proof. exact range2_spec. Qed.
Print Assumptions C38_make_range2.

Theorem C38_make_range3 : forall eps u1 u2 v1 v2 w1 w2 nu nv nw,
  ((nu < 2 \/ nv < 2 \/ nw < 2)%nat ->
     @make_range3 R (NumR eps) u1 u2 v1 v2 w1 w2 nu nv nw = Throw LengthError) /\
  ((2 <= nu)%nat -> (2 <= nv)%nat -> (2 <= nw)%nat ->
   exists v, @make_range3 R (NumR eps) u1 u2 v1 v2 w1 w2 nu nv nw = Ok v /\ length v = (nu * nv * nw)%nat /\
     forall i j k, (i < nu)%nat -> (j < nv)%nat -> (k < nw)%nat ->
       nth (k + nw * (j + nv * i)) v (0, 0, 0) =
       (u1 + (u2 - u1) * INR i / INR (nu - 1), v1 + (v2 - v1) * INR j / INR (nv - 1),
        w1 + (w2 - w1) * INR k / INR (nw - 1))).
Proof. exact range3_spec. Qed.
Print Assumptions C38_make_range3.

Theorem C38_make_range_int : forall v1 v2,
  ((v2 <= v1)%Z -> make_range_int v1 v2 = Throw LengthError) /\
  ((v1 < v2)%Z -> exists v, make_range_int v1 v2 = Ok v /\ length v = Z.to_nat (v2 - v1 + 1) /\
    forall i, (i < length v)%nat -> nth i v 0%Z = (v1 + Z.of_nat i)%Z).
Proof. exact range_int_spec. Qed.
Print Assumptions C38_make_range_int.

(** C67: the parameters start at 0, increase strictly when consecutive points differ, are
    the accumulated chords, and end at 1 when asked to. *)
Theorem C67_parametrization : forall eps dist (pts : list (pt R)) mode adim,
  0 <= eps -> (2 <= length pts)%nat ->
  (forall j, (S j < length pts)%nat -> 0 < chord dist pts mode j) ->
  (adim = true -> eps < sumn (length pts - 1) (chord dist pts mode)) ->
  exists k, @curve_parametrization R (NumR eps) dist sqrt pts mode adim = Ok k /\
    length k = length pts /\ kn k 0 = 0 /\ strictly_increasing k /\
    (adim = true -> kn k (length pts - 1) = 1) /\
    (forall i, (i < length pts)%nat -> kn k i = sumn i (chord dist pts mode) /
        (if adim then sumn (length pts - 1) (chord dist pts mode) else 1)).
Proof. exact param_spec. Qed.
Print Assumptions C67_parametrization.

(** adimension alone ("set the values ranging from 0 to 1") is false of knots that do not
    start at 0: it divides by the length and does not shift. *)
Theorem C67_adimension_refuted : @adimension Q NumQ [1; 2]%Q = Ok [1; 2]%Q.
Proof. exact adimension_wrong. Qed.
Print Assumptions C67_adimension_refuted.

Example ex_knots_hypotheses : spaced (1/1000) [0; 1; 3] /\ strictly_increasing [0; 1; 3] /\ nondecreasing [0; 1; 3].
Proof. exact ex_spaced. Qed.
Example ex_parametrization_hypotheses : (2 <= length ex_pts)%nat /\
  (forall j, (S j < length ex_pts)%nat -> 0 < chord ex_dist ex_pts ChordLength j) /\
  1/1000 < sumn (length ex_pts - 1) (chord ex_dist ex_pts ChordLength).
Proof. exact ex_param. Qed.
