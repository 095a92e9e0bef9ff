(** C79, C80: curves and surfaces moved to points and constraints. *)
From Coq Require Import List Arith Reals Lia Lra.
From Verif Require Import Model_Base Model_Curve Model_Interp Model_Surface Model_Skin Model_Shape
  Spec_Base Spec_Basis Spec_Eval Spec_Class Spec_Surface Spec_Interp Spec_Solve Spec_Shape
  Proof_Gauss Proof_PropCurve Proof_Shape3 Proof_Shape4 Proof_Shape5 Proof_Shape7 Proof_Shape8 Proof_Shape9 Proof_PropShape.
Import ListNotations.
Local Open Scope R_scope.

(** C79: only the poles of the window change.  The constraints, given as differences with the
    curve, are met when the window has enough poles; with more poles than constraints no other
    choice of these poles moves them less; with less poles than constraints no other choice
    misses them by less.  [lu] and [llt] only have to return solutions. *)
Theorem C79_delta : forall eps c, shapeable eps c -> forall (lu llt : @solver R) dim goals ds i1 i2,
  exact_solver lu -> exact_solver llt -> (i2 < length (c_poles c))%nat ->
  (forall g, In g goals -> c_lo c <= cp_u g <= c_hi c) -> gaps eps c goals ds ->
  forall c', @moved_to_constraints_delta R (NumR eps) lu llt dim c ds i1 i2 = Ok c' ->
  reshaped c i1 i2 c' /\
  ((length goals <= i2 + 1 - i1)%nat -> meets eps dim c' goals) /\
  ((length goals < i2 + 1 - i1)%nat -> forall c'' co, (co < dim)%nat ->
     reshaped c i1 i2 c'' -> meets eps dim c'' goals ->
     displacement (c_poles c) (c_poles c') co <= displacement (c_poles c) (c_poles c'') co) /\
  ((i2 + 1 - i1 < length goals)%nat -> forall c'' co e e'', (co < dim)%nat ->
     reshaped c i1 i2 c'' -> misses_by eps c' goals co e -> misses_by eps c'' goals co e'' -> e <= e'').
Proof. exact delta_ok. Qed.
Print Assumptions C79_delta.

(** A curve moved to a point passes through it; its poles away from the point, and its end poles
    when they are kept, are unchanged; no curve with the same degree and knots, and the same end
    poles when they are kept, passes there with a smaller displacement of the poles. *)
Theorem C79_point : forall eps c, shapeable eps c -> forall (lu llt : @solver R) dim x u keep c',
  exact_solver lu -> exact_solver llt -> c_lo c <= u <= c_hi c -> movable c u keep ->
  @moved_to_point R (NumR eps) lu llt dim c x u keep = Ok c' ->
  same_frame c keep c' /\ passes eps dim c' u 0 x /\
  (forall j, (u < kn (c_knots c) j \/ kn (c_knots c) (j + c_deg c + 1) < u) ->
     nth j (c_poles c') (fun _ => 0) = nth j (c_poles c) (fun _ => 0)) /\
  forall c'' co, (co < dim)%nat -> same_frame c keep c'' -> passes eps dim c'' u 0 x ->
    displacement (c_poles c) (c_poles c') co <= displacement (c_poles c) (c_poles c'') co.
Proof. exact point_ok. Qed.
Print Assumptions C79_point.

(** The move succeeds wherever a pole that may move acts. *)
Theorem C79_returns : forall eps c, shapeable eps c -> forall (lu llt : @solver R) dim x u keep,
  complete_solver lu -> complete_solver llt -> c_lo c <= u <= c_hi c -> movable c u keep ->
  exists c', @moved_to_point R (NumR eps) lu llt dim c x u keep = Ok c'.
Proof. exact point_returns. Qed.
Print Assumptions C79_returns.

(** When the ends are free such a pole always exists. *)
Theorem C79_free : forall eps c, shapeable eps c -> forall u, c_lo c <= u <= c_hi c -> movable c u false.
Proof. exact free_movable. Qed.
Print Assumptions C79_free.

(** The in place version gives the same curve. *)
Theorem C79_in_place : forall eps c, shapeable eps c -> forall (lu llt : @solver R) dim x u keep c',
  exact_solver lu -> exact_solver llt -> c_lo c <= u <= c_hi c ->
  (@move_to_point R (NumR eps) lu llt dim c x u keep = Ok c' <-> @moved_to_point R (NumR eps) lu llt dim c x u keep = Ok c').
Proof. exact in_place. Qed.
Print Assumptions C79_in_place.

(** The list version adds the constraint to the curve instead of reaching it: every curve and
    every parameter where the curve is not the origin give a curve that misses its constraint. *)
Theorem C79_constraints_refuted : forall eps c (lu llt : @solver R) dim x u v co,
  shapeable eps c -> complete_solver lu -> complete_solver llt -> c_lo c <= u <= c_hi c ->
  @value R (NumR eps) c u 0 = Ok v -> (co < dim)%nat -> v co <> 0 ->
  exists c', @moved_to_constraints R (NumR eps) lu llt dim c [mkcp x u 0%nat] false = Ok c' /\ ~ passes eps dim c' u 0 x.
Proof. exact constraints_refuted. Qed.
Print Assumptions C79_constraints_refuted.

(** With two poles and fixed ends the same curve comes back, without an error. *)
Theorem C79_two_poles_refuted : forall eps c (lu llt : @solver R) dim x u v co,
  shapeable eps c -> complete_solver llt -> c_lo c <= u <= c_hi c -> length (c_poles c) = 2%nat ->
  @value R (NumR eps) c u 0 = Ok v -> (co < dim)%nat -> v co <> x co ->
  @moved_to_point R (NumR eps) lu llt dim c x u true = Ok c /\ ~ passes eps dim c u 0 x.
Proof. exact two_poles_refuted. Qed.
Print Assumptions C79_two_poles_refuted.

Example C79_nonvacuous : shapeable (1 / 1000) ex_c /\ complete_solver gauss /\ c_lo ex_c <= 3 / 2 <= c_hi ex_c /\
  movable ex_c (3 / 2) true /\
  forall x, exists c', @moved_to_point R (NumR (1 / 1000)) gauss gauss 1 ex_c x (3 / 2) true = Ok c'.
Proof.
  split; [exact ex_shapeable|]. split; [exact gauss_complete|]. split; [cbn; lra|]. split; [exact ex_movable|exact ex_curve_moved].
Qed.

(** C80: a surface moved to points keeps its degrees, knots, bounds, and its border poles when
    they are kept.  Some window holds all the poles that may move and act on a constraint, and
    only its poles change: the points are reached if the window has enough poles; with more poles
    than points no other choice moves them less; with less, no other choice misses by less. *)
Theorem C80_positions : forall eps s, shapeable_surface eps s -> forall (lu llt : @solver R) dim goals keep s',
  exact_solver lu -> exact_solver llt -> (0 < length goals)%nat -> positions s goals ->
  @surf_moved_to_constraints R (NumR eps) lu llt dim s goals keep = Ok s' ->
  same_surface_frame s keep s' /\
  exists i1 i2 j1 j2, covers s keep goals i1 i2 j1 j2 /\ reshaped_surface s i1 i2 j1 j2 s' /\
  ((length goals <= (i2 + 1 - i1) * (j2 + 1 - j1))%nat -> meets_surface eps dim s' goals) /\
  ((length goals < (i2 + 1 - i1) * (j2 + 1 - j1))%nat -> forall s'' co, (co < dim)%nat ->
     reshaped_surface s i1 i2 j1 j2 s'' -> meets_surface eps dim s'' goals ->
     displacement (s_poles s) (s_poles s') co <= displacement (s_poles s) (s_poles s'') co) /\
  (((i2 + 1 - i1) * (j2 + 1 - j1) < length goals)%nat -> forall s'' co e e'', (co < dim)%nat ->
     reshaped_surface s i1 i2 j1 j2 s'' -> surface_misses_by eps s' goals co e ->
     surface_misses_by eps s'' goals co e'' -> e <= e'').
Proof. exact surf_constraints_ok. Qed.
Print Assumptions C80_positions.

(** A surface moved to a point: as C79_point. *)
Theorem C80_point : forall eps s, shapeable_surface eps s -> forall (lu llt : @solver R) dim x u v keep s',
  exact_solver lu -> exact_solver llt -> in_surface s u v -> surface_movable s u v keep ->
  @surf_moved_to_point R (NumR eps) lu llt dim s x u v keep = Ok s' ->
  same_surface_frame s keep s' /\ meets_surface eps dim s' [mksc u v x 0%nat 0%nat] /\
  (forall i j, (i < s_nU s)%nat -> (j < s_nV s)%nat ->
     (u < kn (s_ku s) i \/ kn (s_ku s) (i + s_degU s + 1) < u \/ v < kn (s_kv s) j \/ kn (s_kv s) (j + s_degV s + 1) < v) ->
     nth (i + s_nU s * j) (s_poles s') (fun _ => 0) = nth (i + s_nU s * j) (s_poles s) (fun _ => 0)) /\
  forall s'' co, (co < dim)%nat -> same_surface_frame s keep s'' -> meets_surface eps dim s'' [mksc u v x 0%nat 0%nat] ->
    displacement (s_poles s) (s_poles s') co <= displacement (s_poles s) (s_poles s'') co.
Proof. exact surf_point_ok. Qed.
Print Assumptions C80_point.

Theorem C80_returns : forall eps s, shapeable_surface eps s ->
  @mk_surf R (NumR eps) (s_poles s) (s_ku s) (s_kv s) (s_degU s) (s_degV s) = Ok s ->
  forall (lu llt : @solver R) dim x u v keep, complete_solver lu -> complete_solver llt ->
  in_surface s u v -> surface_movable s u v keep ->
  exists s', @surf_moved_to_point R (NumR eps) lu llt dim s x u v keep = Ok s'.
Proof. exact surf_point_returns. Qed.
Print Assumptions C80_returns.

Theorem C80_free : forall eps s, shapeable_surface eps s -> forall u v, in_surface s u v -> surface_movable s u v false.
Proof. exact free_surface_movable. Qed.
Print Assumptions C80_free.

Theorem C80_in_place : forall eps s, shapeable_surface eps s -> forall (lu llt : @solver R) dim x u v keep s',
  exact_solver lu -> exact_solver llt -> in_surface s u v ->
  (@surf_move_to_point R (NumR eps) lu llt dim s x u v keep = Ok s' <->
   @surf_moved_to_point R (NumR eps) lu llt dim s x u v keep = Ok s').
Proof. exact surf_in_place. Qed.
Print Assumptions C80_in_place.

(** Constraints on derivatives are not met: the unit square, asked for the derivative (2, 0)
    along U at its first corner, comes back with another one. *)
Theorem C80_derivative_refuted : forall eps (lu llt : @solver R), 0 < eps < 1 -> complete_solver lu -> complete_solver llt ->
  exists s', @surf_moved_to_constraints R (NumR eps) lu llt 2 sq [sq_goal] false = Ok s' /\
    ~ meets_surface eps 2 s' [sq_goal].
Proof. exact derivative_missed. Qed.
Print Assumptions C80_derivative_refuted.

Example C80_nonvacuous : shapeable_surface (1 / 1000) patch /\ complete_solver gauss /\ in_surface patch (1 / 2) (1 / 2) /\
  surface_movable patch (1 / 2) (1 / 2) true /\
  forall x, exists s', @surf_moved_to_point R (NumR (1 / 1000)) gauss gauss 1 patch x (1 / 2) (1 / 2) true = Ok s'.
Proof. exact (conj patch_shapeable (conj gauss_complete (conj patch_in (conj patch_movable patch_moved)))). Qed.
