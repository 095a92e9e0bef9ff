(** Specification vocabulary for the smoothing of grids.  Nothing here uses the functions of
    the model. *)
From Coq Require Import Reals List Arith.
From Verif Require Import Model_Base Model_Mesh Spec_Mesh.
Import ListNotations.
Local Open Scope R_scope.

(** Node (i, j) of a grid stored row after row, each of nj nodes. *)
Definition node (g : list (R * R)) (nj i j : nat) (p : R * R) : Prop := nth_error g (j + nj * i) = Some p.
(** The nodes strictly inside the window. *)
Definition inside (i1 i2 j1 j2 i j : nat) : Prop := (i1 < i < i2)%nat /\ (j1 < j < j2)%nat.

(** Central differences, for steps dk in the first direction and de in the second: of a
    coordinate along each direction; of second order, the middle value being x; mixed. *)
Definition slope (p m d : R) : R := (p - m) / (2 * d).
Definition second (p x m d : R) : R := (p - 2 * x + m) / (d * d).
Definition mixed (pp pm mp mm dk de : R) : R := (pp - pm - mp + mm) / (4 * dk * de).

(** The elliptic equations of grid generation at node (i, j): with X_k and X_e the slopes,
    |X_e|^2 X_kk - 2 (X_k . X_e) X_ke + |X_k|^2 X_ee = 0 for both coordinates.  The slopes and
    the neighbours are those of the grid g of ni rows of nj nodes; the node itself is q. *)
Definition elliptic_at (g : list (R * R)) (ni nj i j : nat) (q : R * R) : Prop :=
  exists ip im jp jm pp pm mp mm,
    node g nj (i + 1) j ip /\ node g nj (i - 1) j im /\ node g nj i (j + 1) jp /\ node g nj i (j - 1) jm /\
    node g nj (i + 1) (j + 1) pp /\ node g nj (i + 1) (j - 1) pm /\
    node g nj (i - 1) (j + 1) mp /\ node g nj (i - 1) (j - 1) mm /\
    let dk := 1 / (INR ni - 1) in let de := 1 / (INR nj - 1) in
    let xk := slope (fst ip) (fst im) dk in let yk := slope (snd ip) (snd im) dk in
    let xe := slope (fst jp) (fst jm) de in let ye := slope (snd jp) (snd jm) de in
    let a := xe * xe + ye * ye in let b := xk * xe + yk * ye in let c := xk * xk + yk * yk in
    0 < a + c /\
    a * second (fst ip) (fst q) (fst im) dk - 2 * b * mixed (fst pp) (fst pm) (fst mp) (fst mm) dk de
      + c * second (fst jp) (fst q) (fst jm) de = 0 /\
    a * second (snd ip) (snd q) (snd im) dk - 2 * b * mixed (snd pp) (snd pm) (snd mp) (snd mm) dk de
      + c * second (snd jp) (snd q) (snd jm) de = 0.

(** |dx| + |dy| *)
Definition move_of (p q : R * R) : R := Rabs (fst q - fst p) + Rabs (snd q - snd p).
(** The second grid is the first with every node strictly inside the window moved to where
    the elliptic equations put it. *)
Definition relaxed (ni nj i1 i2 j1 j2 : nat) (g g' : list (R * R)) : Prop :=
  length g' = length g /\
  (forall i j, (j < nj)%nat -> ~ inside i1 i2 j1 j2 i j -> nth_error g' (j + nj * i) = nth_error g (j + nj * i)) /\
  (forall i j, inside i1 i2 j1 j2 i j -> exists q, node g' nj i j q /\ elliptic_at g ni nj i j q).
(** [e] is the largest move of a node inside the window, 0 if there is none. *)
Definition largest_move (nj i1 i2 j1 j2 : nat) (g g' : list (R * R)) (e : R) : Prop :=
  0 <= e /\
  (forall i j p q, inside i1 i2 j1 j2 i j -> node g nj i j p -> node g' nj i j q -> move_of p q <= e) /\
  (e = 0 \/ exists i j p q, inside i1 i2 j1 j2 i j /\ node g nj i j p /\ node g' nj i j q /\ move_of p q = e).
(** [g] becomes [g'] after [n] passes, the largest move of all but the last being above tol,
    and that of the last being e. *)
Inductive passes_to (ni nj i1 i2 j1 j2 : nat) (tol : R) : nat -> list (R * R) -> list (R * R) -> R -> Prop :=
| one_pass g g' e : relaxed ni nj i1 i2 j1 j2 g g' -> largest_move nj i1 i2 j1 j2 g g' e ->
    passes_to ni nj i1 i2 j1 j2 tol 1 g g' e
| more_passes n g g' g'' e' e : relaxed ni nj i1 i2 j1 j2 g g' -> largest_move nj i1 i2 j1 j2 g g' e' -> tol < e' ->
    passes_to ni nj i1 i2 j1 j2 tol n g' g'' e -> passes_to ni nj i1 i2 j1 j2 tol (S n) g g'' e.

(** The point moved by (a, b). *)
Definition shifted (a b : R) (p : R * R) : R * R := (fst p + a, snd p + b).

(** The number is between the least and the greatest of the list. *)
Definition within (x : R) (l : list R) : Prop := (exists y, In y l /\ y <= x) /\ exists y, In y l /\ x <= y.

(** Vertices joined by a half-edge of the mesh, in one direction or the other. *)
Definition adjacent (h : heap (R * R)) (fs : list nat) (v w : nat) : Prop :=
  exists e, live h fs e /\ ((starts h e v /\ ends h e w) \/ (starts h e w /\ ends h e v)).
(** The mean of the points. *)
Definition mean_of (l : list (R * R)) (m : R * R) : Prop :=
  INR (length l) * fst m = fold_right Rplus 0 (map fst l) /\ INR (length l) * snd m = fold_right Rplus 0 (map snd l) /\ l <> [].
