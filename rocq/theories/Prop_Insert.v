(** Properties C16, C17 (knot insertion). *)
From Coq Require Import List Arith ZArith Reals.
From Verif Require Import Model_Base Model_Basis Model_Knots Spec_Base Spec_Basis Spec_Eval
  Proof_PropInsert.
Import ListNotations.
Local Open Scope R_scope.

(** C16: inserting a knot of the domain adds min(r, p - s) copies of u to the knots at
    its sorted place, as many poles, and every value and derivative is unchanged. *)
Theorem C16_insert_knots : forall eps k n p u r P,
  knots_ok k n p -> length P = n -> kn k p <= u < kn k n -> (1 <= r)%nat ->
  (count_occ Req_EM_T k u < p)%nat ->
  exists idx k' P' r', r' = min r (p - count_occ Req_EM_T k u) /\
    @insert_knots R (NumR eps) u p r k P = Ok (idx, k', P') /\
    (exists a b, k = a ++ b /\ k' = a ++ repeat u r' ++ b) /\
    knots_ok k' (n + r') p /\ length P' = (n + r')%nat /\
    kn k' p = kn k p /\ kn k' (n + r') = kn k n /\
    (evaluable eps k n p -> evaluable eps k' (n + r') p ->
     forall x d, kn k p <= x <= kn k n ->
     exists q q', @eval_value R (NumR eps) x k P p d = Ok q /\
       @eval_value R (NumR eps) x k' P' p d = Ok q' /\ forall c, q' c = q c).
Proof. exact insert_same_curve. Qed.
Print Assumptions C16_insert_knots.

(** ... whereas before the first knot the behaviour is undefined. *)
Theorem C16_below_undefined : forall eps k p u r P,
  (1 <= p)%nat -> P <> [] -> u < kn k 0 -> k <> [] ->
  @insert_knots R (NumR eps) u p r k P = Undef BadIndex.
Proof. exact insert_below. Qed.
Print Assumptions C16_below_undefined.

(** C17: the multiplicity of u becomes min(p, s+r) (or stays as it is above p), the
    other knots keep theirs. *)
Theorem C17_multiplicity : forall eps k n p u r P,
  knots_ok k n p -> length P = n -> kn k p <= u < kn k n -> (1 <= r)%nat ->
  exists idx k' P', @insert_knots R (NumR eps) u p r k P = Ok (idx, k', P') /\
    count_occ Req_EM_T k' u = max (count_occ Req_EM_T k u) (min p (count_occ Req_EM_T k u + r)) /\
    (forall x, x <> u -> count_occ Req_EM_T k' x = count_occ Req_EM_T k x) /\
    ((p <= count_occ Req_EM_T k u)%nat -> k' = k /\ P' = P).
Proof. exact insert_mult. Qed.
Print Assumptions C17_multiplicity.

Theorem C17_saturated : forall eps k p u r P, nondecreasing k -> P <> [] ->
  (p <= count_occ Req_EM_T k u)%nat ->
  exists idx, @insert_knots R (NumR eps) u p r k P = Ok (idx, k, P).
Proof. exact insert_saturated. Qed.
Print Assumptions C17_saturated.

(** The clause "a request of zero insertions changes nothing" is false: poles are
    overwritten. *)
Theorem C17_zero_insertions_refuted : forall eps,
  exists k n p u P k' P' idx, knots_ok k n p /\ length P = n /\ kn k p <= u < kn k n /\
    @insert_knots R (NumR eps) u p 0 k P = Ok (idx, k', P') /\
    length P' = n /\ exists i c, (i < n)%nat /\ polec P' c i <> polec P c i.
Proof. exact insert_zero. Qed.
Print Assumptions C17_zero_insertions_refuted.

Example ex_insert_hypotheses : let k := [0;0;0;1;1;2;3;3;3] in
  knots_ok k 6 2 /\ kn k 2 <= 2 < kn k 6 /\ (count_occ Req_EM_T k 2%R < 2)%nat /\
  evaluable (1/1000) k 6 2 /\ evaluable (1/1000) [0;0;0;1;1;2;2;3;3;3] 7 2.
Proof. exact ex_insert. Qed.
