(** Weighted curves, weights, integer helpers: properties C12, C13, C62, C63. *)
From Coq Require Import List Arith ZArith QArith Reals.
From Verif Require Import Model_Base Model_Basis Model_Rational Spec_Base Spec_Basis Spec_Eval Spec_Rational
  Proof_Rational Proof_PropRational.
Import ListNotations.
Local Open Scope R_scope.

(** C12: the value is the weighted average sum N_i w_i P_i / sum N_i w_i. *)
Theorem C12_value : forall eps k n p dim poles ws pw,
  knots_ok k n p -> evaluable eps k n p -> length poles = n -> length ws = n ->
  @add_weights_coord R (NumR eps) dim poles ws = Ok pw ->
  forall u, kn k p <= u <= kn k n -> denom k n p ws u <> 0 ->
  exists q, @eval_rational_value R (NumR eps) dim u k pw p 0 = Ok q /\
    forall c, (c < dim)%nat -> q c = numer k n p poles ws c u / denom k n p ws u.
Proof. exact rational_value_correct. Qed.
Print Assumptions C12_value.

(** Positive weights: the denominator is positive and the point is a convex combination
    of the p+1 (unweighted) poles of the span. *)
Theorem C12_convex_hull : forall eps k n p dim poles ws pw,
  knots_ok k n p -> evaluable eps k n p -> length poles = n -> length ws = n ->
  @add_weights_coord R (NumR eps) dim poles ws = Ok pw ->
  forall u, kn k p <= u <= kn k n -> (forall i, (i < n)%nat -> 0 < kn ws i) ->
  0 < denom k n p ws u /\
  exists i q w, @find_span R (NumR eps) n p u k = Ok i /\
    @eval_rational_value R (NumR eps) dim u k pw p 0 = Ok q /\
    (forall r, (r <= p)%nat -> 0 <= w r) /\ sumn (p + 1) w = 1 /\
    forall c, (c < dim)%nat -> q c = sumn (p + 1) (fun r => w r * polec poles c (i - p + r)).
Proof. exact rational_hull. Qed.
Print Assumptions C12_convex_hull.

(** Equal weights: the non-rational curve, at every order up to 20. *)
Theorem C12_equal_weights : forall eps k n p dim poles pw w u d,
  knots_ok k n p -> evaluable eps k n p -> length poles = n -> w <> 0 ->
  @add_weights_coord R (NumR eps) dim poles (repeat w n) = Ok pw -> kn k p <= u <= kn k n -> (d <= 20)%nat ->
  exists q q', @eval_rational_value R (NumR eps) dim u k pw p d = Ok q /\
    @eval_value R (NumR eps) u k poles p d = Ok q' /\ forall c, (c < dim)%nat -> q c = q' c.
Proof. exact rational_equal_weights. Qed.
Print Assumptions C12_equal_weights.

(** Order d+1 is the derivative of order d, up to order 20. *)
Theorem C12_total_partial : forall eps k n p dim poles ws pw,
  knots_ok k n p -> evaluable eps k n p -> length poles = n -> length ws = n ->
  @add_weights_coord R (NumR eps) dim poles ws = Ok pw ->
  forall u d, kn k p <= u <= kn k n -> denom k n p ws u <> 0 -> (d <= 20)%nat ->
  exists q, @eval_rational_value R (NumR eps) dim u k pw p d = Ok q.
Proof. exact rational_total. Qed.
Print Assumptions C12_total_partial.

Theorem C12_derivative_inside_partial : forall eps k n p dim poles ws pw,
  knots_ok k n p -> evaluable eps k n p -> length poles = n -> length ws = n ->
  @add_weights_coord R (NumR eps) dim poles ws = Ok pw ->
  (forall x, kn k p <= x <= kn k n -> denom k n p ws x <> 0) ->
  forall d c l u, (d < 20)%nat -> (c < dim)%nat -> (p <= l < n)%nat -> kn k l < u < kn k (S l) ->
  derivable_pt_lim (fun x => val (@eval_rational_value R (NumR eps) dim x k pw p d) c) u
    (val (@eval_rational_value R (NumR eps) dim u k pw p (S d)) c).
Proof. exact rational_deriv_inside. Qed.
Print Assumptions C12_derivative_inside_partial.

Theorem C12_derivative_right_partial : forall eps k n p dim poles ws pw,
  knots_ok k n p -> evaluable eps k n p -> length poles = n -> length ws = n ->
  @add_weights_coord R (NumR eps) dim poles ws = Ok pw ->
  (forall x, kn k p <= x <= kn k n -> denom k n p ws x <> 0) ->
  forall d c u, (d < 20)%nat -> (c < dim)%nat -> kn k p <= u < kn k n ->
  right_deriv (fun x => val (@eval_rational_value R (NumR eps) dim x k pw p d) c) u
    (val (@eval_rational_value R (NumR eps) dim u k pw p (S d)) c).
Proof. exact rational_deriv_right. Qed.
Print Assumptions C12_derivative_right_partial.

Theorem C12_derivative_left_end_partial : forall eps k n p dim poles ws pw,
  knots_ok k n p -> evaluable eps k n p -> length poles = n -> length ws = n ->
  @add_weights_coord R (NumR eps) dim poles ws = Ok pw ->
  (forall x, kn k p <= x <= kn k n -> denom k n p ws x <> 0) ->
  forall d c, (d < 20)%nat -> (c < dim)%nat ->
  left_deriv (fun x => val (@eval_rational_value R (NumR eps) dim x k pw p d) c) (kn k n)
    (val (@eval_rational_value R (NumR eps) dim (kn k n) k pw p (S d)) c).
Proof. exact rational_deriv_left_end. Qed.
Print Assumptions C12_derivative_left_end_partial.

(** The one-pass evaluator agrees with the orders one by one. *)
Theorem C12_derivatives_agree_partial : forall eps k n p dim poles ws pw,
  knots_ok k n p -> evaluable eps k n p -> length poles = n -> length ws = n ->
  @add_weights_coord R (NumR eps) dim poles ws = Ok pw ->
  (forall x, kn k p <= x <= kn k n -> denom k n p ws x <> 0) ->
  forall m u, (m <= 20)%nat -> kn k p <= u <= kn k n ->
  exists CK, @eval_rational_ders R (NumR eps) dim u k pw p m = Ok CK /\ length CK = (m + 1)%nat /\
    forall d, (d <= m)%nat -> exists q q', get CK d = Ok q /\
      @eval_rational_value R (NumR eps) dim u k pw p d = Ok q' /\ forall c, (c < dim)%nat -> q c = q' c.
Proof. exact rational_ders_agree. Qed.
Print Assumptions C12_derivatives_agree_partial.

(** Order 21 is wrong: 21! does not fit size_t.  The curve with knots 0,0,1,1, weights
    1,2 and poles 0,1 is x(u) = 2u/(1+u), with x^(21)(0) = 2 * 21!. *)
Theorem C12_order21_refuted :
  exists CK q, @eval_rational_ders Q NumQ 1 0%Q [0;0;1;1]%Q [q1 0 1; q1 2 2] 1 21 = Ok CK /\
    get CK 21 = Ok q /\ ~ (q 0%nat == inject_Z (2 * zfact 21))%Q.
Proof. exact order21. Qed.
Print Assumptions C12_order21_refuted.

Example ex_rational_hypotheses : let k := [0;0;0;1;1;1] in
  knots_ok k 3 2 /\ evaluable 0 k 3 2 /\ length ex_wp = 3%nat /\ length ex_ws = 3%nat /\
  (exists pw, @add_weights_coord R (NumR 0) 2 ex_wp ex_ws = Ok pw) /\
  (forall i, (i < 3)%nat -> 0 < kn ex_ws i) /\
  (forall x, kn k 2 <= x <= kn k 3 -> denom k 3 2 ex_ws x <> 0).
Proof. exact ex_rational. Qed.

(** C13: weighting multiplies the coordinates, rejects a size mismatch, and is undone by
    separation when no weight is null, in both orders. *)
Theorem C13_add_weights : forall eps dim poles ws,
  (length poles <> length ws -> @add_weights_coord R (NumR eps) dim poles ws = Throw LengthError) /\
  (length poles = length ws -> exists pw, @add_weights_coord R (NumR eps) dim poles ws = Ok pw /\
     length pw = length poles /\
     (forall i, (i < length poles)%nat -> polec pw dim i = kn ws i /\
        forall c, (c < dim)%nat -> polec pw c i = kn ws i * polec poles c i)).
Proof. exact weights_spec. Qed.
Print Assumptions C13_add_weights.

Theorem C13_add_separate : forall eps dim poles ws,
  length poles = length ws -> (forall i, (i < length ws)%nat -> kn ws i <> 0) ->
  exists pw, @add_weights_coord R (NumR eps) dim poles ws = Ok pw /\
    exists ps, @separate_weights R (NumR eps) dim pw = (ps, ws) /\ length ps = length poles /\
      forall i c, (i < length poles)%nat -> (c < dim)%nat -> polec ps c i = polec poles c i.
Proof. exact weights_round_trip. Qed.
Print Assumptions C13_add_separate.

Theorem C13_separate_add : forall eps dim pw,
  (forall i, (i < length pw)%nat -> polec pw dim i <> 0) ->
  exists pw', (let (ps, ws) := @separate_weights R (NumR eps) dim pw in
               @add_weights_coord R (NumR eps) dim ps ws) = Ok pw' /\
    length pw' = length pw /\
    forall i c, (i < length pw)%nat -> (c <= dim)%nat -> polec pw' c i = polec pw c i.
Proof. exact separate_merge. Qed.
Print Assumptions C13_separate_add.

(** merge_weights does the same on equal sizes; on other sizes it reads past the end of
    the weights or drops some of them. *)
Theorem C13_merge_partial : forall eps dim poles ws, length poles = length ws ->
  exists pw pw', @merge_weights R (NumR eps) dim poles ws = Ok pw /\
    @add_weights_coord R (NumR eps) dim poles ws = Ok pw' /\ length pw = length pw' /\
    forall i c, (i < length poles)%nat -> (c <= dim)%nat -> polec pw c i = polec pw' c i.
Proof. exact merge_agrees. Qed.
Print Assumptions C13_merge_partial.

Theorem C13_merge_short_refuted : forall eps dim poles ws, (length ws < length poles)%nat ->
  @merge_weights R (NumR eps) dim poles ws = Undef BadIndex.
Proof. exact merge_short. Qed.
Print Assumptions C13_merge_short_refuted.

Theorem C13_merge_long_refuted : exists l, @merge_weights Q NumQ 1 [q1 0 1] [1; 2]%Q = Ok l.
Proof. exact merge_long. Qed.
Print Assumptions C13_merge_long_refuted.

Example ex_weights_hypotheses : length ex_wp = length ex_ws /\ (forall i, (i < length ex_ws)%nat -> kn ex_ws i <> 0).
Proof. exact ex_weights. Qed.

(** C62: scale_weights gives the requested mean and keeps the points; scaled_weights
    ignores the requested mean. *)
Theorem C62_scale_weights : forall eps dim poles m,
  m <> 0 -> mean (map (fun q : pt R => q dim) poles) <> 0 -> poles <> [] ->
  exists poles', @scale_weights R (NumR eps) dim poles m = Ok poles' /\ length poles' = length poles /\
    mean (map (fun q : pt R => q dim) poles') = m /\
    forall i c, (i < length poles)%nat -> (c < dim)%nat ->
      polec poles dim i <> 0 -> polec poles' dim i <> 0 /\
      polec poles' c i / polec poles' dim i = polec poles c i / polec poles dim i.
Proof. exact scale_weights_spec. Qed.
Print Assumptions C62_scale_weights.

Theorem C62_scaled_weights_refuted : exists l, @scaled_weights Q NumQ 1 [q1 0 1; q1 0 3] 5%Q = Ok l /\
  map (fun q => q 1%nat) l = [1 # 2; 3 # 2]%Q.
Proof. exact scaled_ignores_mean. Qed.
Print Assumptions C62_scaled_weights_refuted.

Example ex_scale_hypotheses : mean (map (fun q : pt R => q 0%nat) ex_wp) <> 0 /\ ex_wp <> [].
Proof. exact ex_scale. Qed.

(** C63: exact as long as the factorials fit: up to 20 for size_t arguments (reduced
    modulo 2^64 above), up to 12 for int arguments (undefined above). *)
Theorem C63_factorial_size : forall n,
  factorial mul_size n = Ok (zfact n mod 18446744073709551616)%Z /\
  (factorial mul_size n = Ok (zfact n) <-> (n <= 20)%nat).
Proof. exact factorial_size_all. Qed.
Print Assumptions C63_factorial_size.

Theorem C63_factorial_int : forall n,
  ((n <= 12)%nat -> factorial mul_int n = Ok (zfact n)) /\
  ((12 < n)%nat -> factorial mul_int n = Undef IntOverflow).
Proof. exact factorial_int. Qed.
Print Assumptions C63_factorial_int.

Theorem C63_binomial_size_partial : forall eps n k, (k <= n)%nat -> (n <= 20)%nat ->
  @binomial_law R (NumR eps) mul_size n k = Ok (INR (binom n k)).
Proof. exact binomial_size. Qed.
Print Assumptions C63_binomial_size_partial.

Theorem C63_binomial_int_partial : forall eps n k, (k <= n)%nat -> (n <= 12)%nat ->
  @binomial_law R (NumR eps) mul_int n k = Ok (INR (binom n k)).
Proof. exact binomial_int. Qed.
Print Assumptions C63_binomial_int_partial.

(** C(21,1) = 21 and C(13,1) = 13 fit, their computation does not. *)
Theorem C63_binomial_size_refuted : exists x, @binomial_law Q NumQ mul_size 21 1 = Ok x /\ ~ (x == 21)%Q.
Proof. exact binomial_wraps. Qed.
Print Assumptions C63_binomial_size_refuted.

Theorem C63_binomial_int_refuted : @binomial_law Q NumQ mul_int 13 1 = Undef IntOverflow.
Proof. exact binomial_overflows. Qed.
Print Assumptions C63_binomial_int_refuted.
