(** Vocabulary of C93: what is asked of an edge, and where its points stand. *)
From Coq Require Import List Arith QArith Reals.
From Verif Require Import Model_Base Model_Curve Model_Wrap Model_Interp Model_Tfi Model_MshEdge Spec_Base.
Import ListNotations.
Local Open Scope R_scope.

(** The calls that can be made on an edge, in any order. *)
Inductive order := AskN (n : nat) | AskSizes (h1 h2 : R) | AskGrowth (h1 h2 a1 a2 : R) | AskPoints.
Definition obey (eps : R) (sparse : @solver R) (e : @medge R) (o : order) : result (@medge R) :=
  match o with
  | AskN n => Ok (@set_n_points R (NumR eps) e n)
  | AskSizes h1 h2 => @update_law R (NumR eps) sparse e h1 h2
  | AskGrowth h1 h2 a1 a2 => @update_law4 R (NumR eps) sparse e h1 h2 a1 a2
  | AskPoints => @compute_pnts R (NumR eps) e
  end.
Fixpoint obey_all (eps : R) (sparse : @solver R) (e : @medge R) (os : list order) : result (@medge R) :=
  match os with
  | [] => Ok e
  | o :: t => let* e' := obey eps sparse e o in obey_all eps sparse e' t
  end.
(** The number of points last asked for; less than two count as two. *)
Fixpoint asked (os : list order) (n : nat) : nat :=
  match os with
  | [] => n
  | AskN k :: t => asked t (if k <? 2 then 2 else k)%nat
  | _ :: t => asked t n
  end.

(** The arc length law [f] leads from the length [s] to the point [q] of the curve. *)
Definition at_length (eps : R) (g : gcurve R) (f : curve R) (s : R) (q : pt R) : Prop :=
  exists u, @fvalue R (NumR eps) f s = Ok u /\ g_value g u 0%nat = Ok q.
(** Every length up to the total [l] leads to a point. *)
Definition walkable (eps : R) (g : gcurve R) (f : curve R) (l : R) : Prop :=
  forall s, 0 <= s <= l -> exists q, at_length eps g f s q.
(** Point [i] of the edge is the point at length [s]. *)
Definition stands (eps : R) (g : gcurve R) (f : curve R) (e : @medge R) (i : nat) (s : R) : Prop :=
  exists q, nth_error (edge_points e) i = Some q /\ at_length eps g f s q.

(** The interval [0, 1] as a curve of one dimension. *)
Definition line_r : gcurve R := mkg 0 1 (fun u _ => Ok (fun _ => u)).
Definition span_r (a b : R) : result R := Ok (b - a).

(** The same with rationals.  The points of an edge on it: [n] points are asked for, then the sizes
    [h1] and [h2], then [m] points, then the points are computed. *)
Definition line_q : gcurve Q := mkg 0%Q 1%Q (fun u _ => Ok (fun _ => u)).
Definition span_q (a b : Q) : result Q := Ok (b - a)%Q.
Definition steps_q (sparse : @solver Q) (n : nat) (h1 h2 : Q) (m : nat) : result (list Q) :=
  let* e := @new_edge Q NumQ sparse span_q line_q in
  let* e := @update_law Q NumQ sparse (@set_n_points Q NumQ e n) h1 h2 in
  let* e := @compute_pnts Q NumQ (@set_n_points Q NumQ e m) in Ok (map (fun p => Qred (p 0%nat)) (edge_points e)).
