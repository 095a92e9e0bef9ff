(** Vocabulary for statements about curve objects. *)
From Coq Require Import List Reals.
From Verif Require Import Model_Base Model_Curve Spec_Base Spec_Basis Spec_Eval.
Import ListNotations.
Local Open Scope R_scope.

(** Number of poles. *)
Definition c_n {T} (c : curve T) : nat := length (c_poles c).

(** The relations between degree, poles and knots every curve should satisfy. *)
Definition shape_ok (c : curve R) : Prop :=
  length (c_knots c) = (c_n c + c_deg c + 1)%nat /\ (c_deg c < c_n c)%nat /\
  nondecreasing (c_knots c).

(** Shape, and the first and the last span of the domain [k_p, k_n] are not empty. *)
Definition well_formed (c : curve R) : Prop :=
  shape_ok c /\ kn (c_knots c) (c_deg c) < kn (c_knots c) (S (c_deg c)) /\
  kn (c_knots c) (c_n c - 1) < kn (c_knots c) (c_n c).

(** bounds() are the first and the last knot. *)
Definition natural_bounds (c : curve R) : Prop :=
  c_lo c = kn (c_knots c) 0 /\ c_hi c = kn (c_knots c) (c_n c + c_deg c).

Definition in_domain (c : curve R) (x : R) : Prop :=
  kn (c_knots c) (c_deg c) <= x <= kn (c_knots c) (c_n c).

(** x is not a knot of the open domain, or the d-th derivative is continuous there
    (d + multiplicity <= degree). *)
Definition smooth_at (c : curve R) (x : R) (d : nat) : Prop :=
  kn (c_knots c) (c_deg c) < x < kn (c_knots c) (c_n c) ->
  count_occ Req_EM_T (c_knots c) x = 0%nat \/
  (d + count_occ Req_EM_T (c_knots c) x <= c_deg c)%nat.

Definition clamped_curve (c : curve R) : Prop := clamped (c_knots c) (c_n c) (c_deg c).
Definition evaluable_curve (eps : R) (c : curve R) : Prop :=
  evaluable eps (c_knots c) (c_n c) (c_deg c).

(** A clamped curve with usable spans: both end knots have multiplicity degree+1, the
    knots in between at most degree. *)
Definition standard (c : curve R) : Prop :=
  let k := c_knots c in let p := c_deg c in
  let a := kn k 0 in let b := kn k (c_n c + p) in
  shape_ok c /\ (1 <= p)%nat /\ a < b /\
  count_occ Req_EM_T k a = (p + 1)%nat /\ count_occ Req_EM_T k b = (p + 1)%nat /\
  forall x, a < x < b -> (count_occ Req_EM_T k x <= p)%nat.

(** Calls of the modifying member functions. *)
Inductive op :=
| Insert (u : R) (m : nat) | Inserts (l : list (R * nat))
| Remove (dist : pt R -> pt R -> R) (u tol : R) (m : nat)
| Reverse | Trim (u1 u2 : R) (permanently : bool) | Change (a b : R)
| CopyPoles (P : list (pt R)).

Definition run_op (eps : R) (c : curve R) (o : op) : result (curve R) :=
  match o with
  | Insert u m => @insertKnot R (NumR eps) c u m
  | Inserts l => @insertKnots R (NumR eps) c l
  | Remove dist u tol m => @removeKnot R (NumR eps) dist c u tol m
  | Reverse => @reverse R (NumR eps) c
  | Trim u1 u2 b => @trim_curve R (NumR eps) c u1 u2 b
  | Change a b => @changeBounds R (NumR eps) c a b
  | CopyPoles P => copyPoles c P
  end.

(** Arguments for which the call is meaningful: a knot not after the last one and at
    least one insertion; no more removals than there are copies; trimming to a
    non-empty part of the domain; bounds in increasing order. *)
Definition sensible (c : curve R) (o : op) : Prop :=
  let last := kn (c_knots c) (c_n c + c_deg c) in
  match o with
  | Insert u m => u <= last /\ (1 <= m)%nat
  | Inserts l => forall um, In um l -> fst um <= last
  | Remove dist u tol m => (m <= count_occ Req_EM_T (c_knots c) u)%nat
  | Trim u1 u2 true => kn (c_knots c) 0 <= Rmin u1 u2 /\ u1 <> u2 /\ Rmax u1 u2 <= last
  | Change a b => a < b
  | _ => True
  end.

(** Finite histories of calls. *)
Inductive history (eps : R) (c : curve R) : list op -> curve R -> Prop :=
| h_nil : history eps c [] c
| h_step ops c1 o c2 : history eps c ops c1 -> sensible c1 o -> run_op eps c1 o = Ok c2 ->
    history eps c (ops ++ [o]) c2.
