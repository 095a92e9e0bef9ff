(** Vocabulary of knot unification and joining. *)
From Coq Require Import List Arith Reals.
From Verif Require Import Model_Base Model_Curve Model_Unify Spec_Base Spec_Basis Spec_Knots Spec_Eval Spec_Elevate.
Import ListNotations.
Local Open Scope R_scope.

Definition first_knot (k : list R) : R := kn k 0.
Definition last_knot (k : list R) : R := kn k (length k - 1).

(** Parameter x of knots k, moved to the interval of k0; and the factor of that map. *)
Definition rescale (k0 k : list R) (x : R) : R :=
  first_knot k0 + (last_knot k0 - first_knot k0) * (x - first_knot k) / (last_knot k - first_knot k).
Definition ratio (k0 k : list R) : R := (last_knot k0 - first_knot k0) / (last_knot k - first_knot k).

Definition knots_of (c : @info R) : list R := snd (fst c).
Definition poles_of (c : @info R) : list (pt R) := fst (fst c).

(** Degree p, clamped knots with matching poles. *)
Definition clamped_info (eps : R) (p : nat) (c : @info R) : Prop :=
  snd c = p /\ exists U M, clamped_knots eps p U M /\ knots_of c = repeat_each U M /\
    length (poles_of c) = poles_for p M.

(** After moving all of them to the interval of k0, two knots are equal or more than eps
    apart. *)
Definition knots_apart (eps : R) (k0 : list R) (cs : list (@info R)) : Prop :=
  forall c c' x y, In c cs -> In c' cs -> In x (knots_of c) -> In y (knots_of c') ->
    rescale k0 (knots_of c) x = rescale k0 (knots_of c') y \/
    eps < Rabs (rescale k0 (knots_of c) x - rescale k0 (knots_of c') y).

(** The largest multiplicity of x among the moved knot vectors. *)
Definition max_multiplicity (k0 : list R) (cs : list (@info R)) (x : R) : nat :=
  list_max (map (fun c => count_occ Req_EM_T (map (rescale k0 (knots_of c)) (knots_of c)) x) cs).

(** Evaluation of (P', k', p') at y, derivatives scaled by s^d, gives the evaluation of
    (P, k, p) at x. *)
Definition same_value (eps : R) (k : list R) (P : list (pt R)) (p : nat) (x : R)
    (k' : list R) (P' : list (pt R)) (p' : nat) (y s : R) (d : nat) : Prop :=
  exists q q', @Model_Basis.eval_value R (NumR eps) x k P p d = Ok q /\
    @Model_Basis.eval_value R (NumR eps) y k' P' p' d = Ok q' /\ forall c, s ^ d * q' c = q c.

(** The data of a curve object; a clamped curve object whose bounds are its end knots. *)
Definition info_of (c : curve R) : @info R := (c_poles c, c_knots c, c_deg c).
Definition clamped_object (eps : R) (c : curve R) : Prop :=
  clamped_info eps (c_deg c) (info_of c) /\ c_lo c = first_knot (c_knots c) /\ c_hi c = last_knot (c_knots c).


(** The value of a curve of either kind: [r] says that it is rational, its poles then
    carrying the weight in coordinate dim. *)
Definition curve_value (eps : R) (dim : nat) (r : bool) (c : curve R) (x : R) (d : nat) : result (pt R) :=
  if r then @rational_value R (NumR eps) dim c x d else @value R (NumR eps) c x d.
