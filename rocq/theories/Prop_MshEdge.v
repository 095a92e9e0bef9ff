(** C93: points distributed along an edge. *)
From Coq Require Import List Arith QArith Reals.
From Verif Require Import Model_Base Model_Wrap Model_Interp Model_Analysis Model_MshEdge
  Spec_Base Spec_Solve Spec_Analysis Spec_MshEdge Proof_Gauss Proof_PropAnalysis Proof_PropMshEdge.
Import ListNotations.
Local Open Scope R_scope.

(** An edge can be made on any piece of a curve of which the lengths are known; it has no points yet. *)
Theorem C93_new : forall eps (sparse : @solver R) len L (g : gcurve R) u1 u2, complete_solver sparse -> 0 <= eps -> u1 < u2 -> measures len L u1 u2 ->
  exists e, @new_edge_between R (NumR eps) sparse len g u1 u2 = Ok e /\ edge_points e = [].
Proof. exact new_returns. Qed.
Print Assumptions C93_new.

(** After any calls, the points are as many as asked for last, and the first and the last one are
    the ends of the piece of the curve. *)
Theorem C93_ends : forall eps (sparse : @solver R) len L (g : gcurve R) u1 u2 e os e1 e2, complete_solver sparse -> 0 <= eps -> u1 < u2 -> measures len L u1 u2 ->
  @new_edge_between R (NumR eps) sparse len g u1 u2 = Ok e -> obey_all eps sparse e os = Ok e1 -> @compute_pnts R (NumR eps) e1 = Ok e2 ->
  length (edge_points e2) = asked os 2 /\
  (exists q, nth_error (edge_points e2) 0 = Some q /\ g_value g u1 0%nat = Ok q) /\
  (exists q, nth_error (edge_points e2) (asked os 2 - 1) = Some q /\ g_value g u2 0%nat = Ok q).
Proof. exact ends_ok. Qed.
Print Assumptions C93_ends.

(** When no sizes are given, the points are evenly spread in arc length. *)
Theorem C93_even : forall eps (sparse : @solver R) len L (g : gcurve R) u1 u2 e f n, complete_solver sparse -> 0 <= eps -> u1 < u2 -> measures len L u1 u2 ->
  @new_edge_between R (NumR eps) sparse len g u1 u2 = Ok e -> @abs_curv_law R (NumR eps) sparse len u1 u2 30 3 = Ok f ->
  walkable eps g f (L u1 u2) -> (2 <= n)%nat ->
  exists e', @compute_pnts R (NumR eps) (@set_n_points R (NumR eps) e n) = Ok e' /\ length (edge_points e') = n /\
    forall i, (i < n)%nat -> stands eps g f e' i (INR i / INR (n - 1) * L u1 u2).
Proof. exact even_ok. Qed.
Print Assumptions C93_even.

(** Sizes at the ends: the first step has length h1, the last one h2. *)
Theorem C93_sizes : forall eps (sparse : @solver R) len L (g : gcurve R) u1 u2 e f os e1 h1 h2, complete_solver sparse -> 0 <= eps -> u1 < u2 -> measures len L u1 u2 ->
  @new_edge_between R (NumR eps) sparse len g u1 u2 = Ok e -> @abs_curv_law R (NumR eps) sparse len u1 u2 30 3 = Ok f -> obey_all eps sparse e os = Ok e1 ->
  (4 <= asked os 2)%nat ->
  exists e2, @update_law R (NumR eps) sparse e1 h1 h2 = Ok e2 /\
    forall e3, @compute_pnts R (NumR eps) e2 = Ok e3 -> stands eps g f e3 1 h1 /\ stands eps g f e3 (asked os 2 - 2) (L u1 u2 - h2).
Proof. exact sizes_ok. Qed.
Print Assumptions C93_sizes.

(** With four points and sizes at most the total length, the points are always computed. *)
Theorem C93_four : forall eps (sparse : @solver R) len L (g : gcurve R) u1 u2 e f h1 h2, complete_solver sparse -> 0 <= eps -> u1 < u2 -> measures len L u1 u2 ->
  @new_edge_between R (NumR eps) sparse len g u1 u2 = Ok e -> @abs_curv_law R (NumR eps) sparse len u1 u2 30 3 = Ok f ->
  walkable eps g f (L u1 u2) -> 0 <= h1 <= L u1 u2 -> 0 <= h2 <= L u1 u2 ->
  exists e', obey_all eps sparse e [AskN 4; AskSizes h1 h2; AskPoints] = Ok e' /\ length (edge_points e') = 4%nat /\
    stands eps g f e' 1 h1 /\ stands eps g f e' 2 (L u1 u2 - h2).
Proof. exact four_ok. Qed.
Print Assumptions C93_four.

(** Sizes and growths at the ends: the second step is a1 times the first, the last but one a2 times
    the last. *)
Theorem C93_growth : forall eps (sparse : @solver R) len L (g : gcurve R) u1 u2 e f os e1 h1 h2 a1 a2, complete_solver sparse -> 0 <= eps -> u1 < u2 -> measures len L u1 u2 ->
  @new_edge_between R (NumR eps) sparse len g u1 u2 = Ok e -> @abs_curv_law R (NumR eps) sparse len u1 u2 30 3 = Ok f -> obey_all eps sparse e os = Ok e1 ->
  (6 <= asked os 2)%nat ->
  exists e2, @update_law4 R (NumR eps) sparse e1 h1 h2 a1 a2 = Ok e2 /\
    forall e3, @compute_pnts R (NumR eps) e2 = Ok e3 ->
      stands eps g f e3 1 h1 /\ stands eps g f e3 2 (h1 + a1 * h1) /\
      stands eps g f e3 (asked os 2 - 3) (L u1 u2 - (h2 + a2 * h2)) /\ stands eps g f e3 (asked os 2 - 2) (L u1 u2 - h2).
Proof. exact growth_ok. Qed.
Print Assumptions C93_growth.

(** The interval [0, 1] meets the hypotheses. *)
Example C93_nonvacuous : complete_solver gauss /\ measures span_r (fun a b => b - a) 0 1.
Proof. exact (conj lit_solver line_measured). Qed.
Example C93_walkable : forall eps, 0 <= eps -> exists e f, @new_edge R (NumR eps) gauss span_r line_r = Ok e /\ @abs_curv_law R (NumR eps) gauss span_r 0 1 30 3 = Ok f /\
  walkable eps line_r f (1 - 0).
Proof. exact line_walkable. Qed.

(** The number of points must be set before the points are computed. *)
Theorem C93_no_points_refuted : forall eps (sparse : @solver R) len L (g : gcurve R) u1 u2 e, complete_solver sparse -> 0 <= eps -> u1 < u2 -> measures len L u1 u2 ->
  @new_edge_between R (NumR eps) sparse len g u1 u2 = Ok e -> @compute_pnts R (NumR eps) e = Undef EmptyFront.
Proof. exact no_points. Qed.
Print Assumptions C93_no_points_refuted.

(** With two or three points the sizes are never accepted, however small they are. *)
Theorem C93_three_refuted : forall eps (sparse : @solver R) len L (g : gcurve R) u1 u2 e os e1 h1 h2, complete_solver sparse -> 0 <= eps -> u1 < u2 -> measures len L u1 u2 ->
  @new_edge_between R (NumR eps) sparse len g u1 u2 = Ok e -> obey_all eps sparse e os = Ok e1 -> (asked os 2 <= 3)%nat ->
  0 < h1 -> 0 < h2 -> h1 + h2 < L u1 u2 -> forall e2, @update_law R (NumR eps) sparse e1 h1 h2 <> Ok e2.
Proof. exact three_no. Qed.
Print Assumptions C93_three_refuted.

(** Sizes whose sum is below the total length can make the points go backwards along the curve... *)
Theorem C93_order_refuted : forall sparse, steps_q sparse 11 (3 # 10) (3 # 10) 11 =
  Ok [0%Q; 3 # 10; 1 # 2; 3 # 5; 3 # 5; 1 # 2; 2 # 5; 2 # 5; 1 # 2; 7 # 10; 1%Q].
Proof. exact steps_fold. Qed.
Print Assumptions C93_order_refuted.
(** ... or leave it. *)
Theorem C93_leaves_refuted : forall sparse, steps_q sparse 11 (8 # 10) (1 # 10) 11 = Throw OutOfBoundsEval.
Proof. exact steps_leave. Qed.
Print Assumptions C93_leaves_refuted.
(** Sizes asked for before the number of points are lost: 1/20 was asked for. *)
Theorem C93_stale_refuted : forall sparse, exists l, steps_q sparse 11 (1 # 20) (1 # 20) 6 = Ok l /\ nth 1 l 0%Q = (1 # 8).
Proof. exact steps_stale. Qed.
Print Assumptions C93_stale_refuted.
