(** C76: lofts guided by a spine. *)
From Coq Require Import List Arith ZArith QArith Reals Lia Lra.
From Verif Require Import Model_Base Model_Math Model_Knots Model_Curve Model_Rational Model_Interp Model_Surface Model_Skin Model_Spine
  Spec_Base Spec_Knots Spec_Interp Spec_Surface Spec_Unify Spec_Skin Spec_Solve Spec_Spine
  Proof_Spine5 Proof_Spine6 Proof_Elevate6 Proof_PropUnify Proof_PropSkin Proof_Gauss Proof_PropSpine Proof_PropSpine2.
Import ListNotations.
Local Open Scope R_scope.

(** C76: a loft along a spine carries each section, with all its derivatives, at the averaged
    chord parameter of the sections; there it leaves the section along the tangent of the spine
    at the foot of the section, with a factor interpolated along the section between the
    stretches of the columns of poles, never negative.  [extrema] gives the parameter of the
    foot; [lu] only has to return solutions. *)
Theorem C76_spine : forall eps (lu : @solver R) dist norm2 (extrema : curve R -> curve R -> result R) (dim : nat) c0 rest spine q s, let cs := c0 :: rest in
  let m := list_max (map c_deg cs) in
  0 < eps -> exact_solver lu -> (0 < dim)%nat -> separates dim dist -> loftable eps c0 cs ->
  (forall j c c', nth_error cs j = Some c -> nth_error cs (S j) = Some c' -> sections_differ eps dim c c') ->
  @loft_spine R (NumR eps) lu (fun l => @curve_parametrization R (NumR eps) dist sqrt l ChordLength true) norm2 extrema false dim cs spine q = Ok s -> evaluable_surface eps s ->
  (2 <= length cs)%nat /\ s_degU s = m /\ s_degV s = Nat.max (Nat.min q (length cs - 1)) 1 /\ s_u1 s = c_lo c0 /\ s_u2 s = c_hi c0 /\
  exists us nu v ts feet D, common_form eps c0 cs m (s_ku s) us /\ (nu + m + 1 = length (s_ku s))%nat /\
    mean_params eps dist ChordLength (pole_columns us nu) (length cs) v /\ s_v1 s = 0 /\ s_v2 s = kn v (length cs - 1) /\
    Forall2 (fun c t => extrema spine c = Ok t) us ts /\ Forall2 (fun t x => @value R (NumR eps) spine t 0 = Ok x) ts feet /\ Forall2 (fun t x => @value R (NumR eps) spine t 1 = Ok x) ts D /\
    forall j c, nth_error cs j = Some c -> carries eps dim s c0 c (nth j v 0) /\
      around (length cs) j (steps norm2 feet) <> 0 /\
      forall x, c_lo c0 <= x <= c_hi c0 -> exists z lam, @surf_value R (NumR eps) s x (nth j v 0) 0 1 = Ok z /\
        spline_at eps (s_ku s) m (map (fun i => stretch norm2 (pole_column us i) feet j) (seq 0 nu)) x lam /\
        (forall i, (i < dim)%nat -> z i = lam * pts_at D j i) /\
        ((forall a b, 0 <= norm2 a b) -> 0 <= lam).
Proof. exact spine_ok. Qed.
Print Assumptions C76_spine.

(** The same for rational sections: the section is carried on values, and the derivative across
    it of the projected surface is along the tangent of the spine wherever its weight is not
    null. *)
Theorem C76_spine_rational : forall eps (lu : @solver R) dist norm2 (extrema : curve R -> curve R -> result R) (dim : nat) c0 rest spine q s, let cs := c0 :: rest in
  let m := list_max (map c_deg cs) in
  0 < eps -> exact_solver lu -> separates (S dim) dist -> loftable eps c0 cs ->
  (forall j c c', nth_error cs j = Some c -> nth_error cs (S j) = Some c' -> sections_differ eps (S dim) c c') ->
  @loft_spine R (NumR eps) lu (fun l => @curve_parametrization R (NumR eps) dist sqrt l ChordLength true) norm2 extrema true dim cs spine q = Ok s -> evaluable_surface eps s ->
  (2 <= length cs)%nat /\ s_degU s = m /\ s_degV s = Nat.max (Nat.min q (length cs - 1)) 1 /\ s_u1 s = c_lo c0 /\ s_u2 s = c_hi c0 /\
  exists us nu v ts feet D, common_form eps c0 cs m (s_ku s) us /\ (nu + m + 1 = length (s_ku s))%nat /\
    mean_params eps dist ChordLength (pole_columns us nu) (length cs) v /\ s_v1 s = 0 /\ s_v2 s = kn v (length cs - 1) /\
    Forall2 (fun c t => extrema spine c = Ok t) us ts /\ Forall2 (fun t x => @value R (NumR eps) spine t 0 = Ok x) ts feet /\ Forall2 (fun t x => @value R (NumR eps) spine t 1 = Ok x) ts D /\
    forall j c, nth_error cs j = Some c -> carries_rational eps dim s c0 c (nth j v 0) /\
      around (length cs) j (steps norm2 feet) <> 0 /\
      forall x w, c_lo c <= x <= c_hi c -> @value R (NumR eps) c x 0 = Ok w -> w dim <> 0 -> exists z lam,
        @surf_rational_value R (NumR eps) dim s (rescale (c_knots c0) (c_knots c) x) (nth j v 0) 0 1 = Ok z /\
        spline_at eps (s_ku s) m (map (fun i => stretch norm2 (map (@weight_projection R (NumR eps) dim) (pole_column us i)) feet j * pts_at (pole_column us i) j dim) (seq 0 nu))
          (rescale (c_knots c0) (c_knots c) x) (lam * w dim) /\
        forall i, (i < dim)%nat -> z i = lam * pts_at D j i.
Proof. exact spine_rational_ok. Qed.
Print Assumptions C76_spine_rational.

(** Two sections with distinct feet always give a surface.  Missing: three sections or more, for
    which it depends on the parameters (next theorem). *)
Theorem C76_two_returns_partial : forall eps (lu : @solver R) dist norm2 (extrema : curve R -> curve R -> result R) (rat : bool) (dim : nat) c0 c1 spine q, let cs := [c0; c1] in
  let dt := if rat then S dim else dim in
  0 < eps -> complete_solver lu -> (0 < dt)%nat -> separates dt dist -> loftable eps c0 cs -> sections_differ eps dt c0 c1 ->
  (Z.of_nat (52 * (length (c_knots c0) + length (c_knots c1))) < 2 ^ 64)%Z ->
  (forall m k us, common_form eps c0 cs m k us -> exists ts feet D,
     Forall2 (fun c t => extrema spine c = Ok t) us ts /\ Forall2 (fun t x => @value R (NumR eps) spine t 0 = Ok x) ts feet /\ Forall2 (fun t x => @value R (NumR eps) spine t 1 = Ok x) ts D /\
     norm2 (pts_at feet 0) (pts_at feet 1) <> 0) ->
  exists s, @loft_spine R (NumR eps) lu (fun l => @curve_parametrization R (NumR eps) dist sqrt l ChordLength true) norm2 extrema rat dim cs spine q = Ok s /\ evaluable_surface eps s.
Proof. exact spine_two_returns. Qed.
Print Assumptions C76_two_returns_partial.

(** With three sections unevenly spaced no surface exists: unit segments at the abscissae 0, 1 and
    10 along a straight spine of unit speed, each found at its foot. *)
Theorem C76_uneven_refuted : forall lu s, exact_solver_q lu ->
  @loft_spine Q NumQ lu chords distq foot false 2 [bar 0; bar 1; bar 10] rail 2 <> Ok s.
Proof. exact uneven. Qed.
Print Assumptions C76_uneven_refuted.

Example C76_nonvacuous : 0 < 1 / 10 /\ complete_solver gauss /\ separates 2 taxicab /\ loftable (1 / 10) lit_curve [lit_curve; lit_curve2] /\
  (forall j c c', nth_error [lit_curve; lit_curve2] j = Some c -> nth_error [lit_curve; lit_curve2] (S j) = Some c' ->
     sections_differ (1 / 10) 2 c c') /\
  (forall m k us, common_form (1 / 10) lit_curve [lit_curve; lit_curve2] m k us -> exists ts feet D,
     Forall2 (fun c t => lit_foot lit_spine c = Ok t) us ts /\ Forall2 (fun t x => @value R (NumR (1 / 10)) lit_spine t 0 = Ok x) ts feet /\
     Forall2 (fun t x => @value R (NumR (1 / 10)) lit_spine t 1 = Ok x) ts D /\ taxicab (pts_at feet 0) (pts_at feet 1) <> 0) /\
  (exists s, @loft_spine R (NumR (1 / 10)) gauss (fun l => @curve_parametrization R (NumR (1 / 10)) taxicab sqrt l ChordLength true)
     taxicab lit_foot false 2 [lit_curve; lit_curve2] lit_spine 3 = Ok s /\ evaluable_surface (1 / 10) s) /\
  (exists s, @loft_spine R (NumR (1 / 10)) gauss (fun l => @curve_parametrization R (NumR (1 / 10)) taxicab sqrt l ChordLength true)
     taxicab lit_foot true 1 [lit_curve; lit_curve2] lit_spine 3 = Ok s /\ evaluable_surface (1 / 10) s).
Proof.
  split; [lra|]. exact (conj gauss_complete (conj taxicab_separates (conj lit_loftable (conj lit_differ (conj lit_feet (conj lit_spine_loft lit_spine_loft_rational)))))).
Qed.
