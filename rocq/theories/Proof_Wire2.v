(** Counterexamples for the wires. *)
From Coq Require Import List Arith Bool Lia Reals Lra.
From Verif Require Import Model_Base Proof_Base Model_Vec Model_Wire Spec_Wire Proof_Wire.
Import ListNotations.
Local Open Scope R_scope.

Lemma dist_1 a b : dist_n 1 a b = Rabs (a 0%nat - b 0%nat).
Proof. unfold dist_n. cbn [sqdist_n]. rewrite Rplus_0_l. apply sqrt_Rsqr_abs. Qed.
Lemma distance_1 eps (a b : pt R) : @distance R (NumR eps) sqrt 1 a b = Rabs (a 0%nat - b 0%nat).
Proof. rewrite dist_ok. apply dist_1. Qed.
Lemma lt_true eps a b : a < b -> @nltb R (NumR eps) a b = true.
Proof. intros H. cbn. destruct (Rltb_spec a b); [reflexivity|lra]. Qed.
Lemma lt_false eps a b : b <= a -> @nltb R (NumR eps) a b = false.
Proof. intros H. cbn. destruct (Rltb_spec a b); [lra|reflexivity]. Qed.

(** points of the line, and the segment from a to b on it *)
Definition on_line (x : R) : pt R := fun _ => x.
Definition clamp (a b x : R) : R := Rmax a (Rmin b x).
(** three curves: the segments [0,1], [3/2,3] and [1,2] *)
Definition segment_of (c : nat) : R * R :=
  match c with 0%nat => (0, 1) | 1%nat => (3 / 2, 3) | _ => (1, 2) end.
(** exact projection on them *)
Definition project_line (c : nat) (p : pt R) : R * R :=
  let (a, b) := segment_of c in (clamp a b (p 0%nat), Rabs (p 0%nat - clamp a b (p 0%nat))).

Definition line_edge (c v1 v2 : nat) (tol : R) : edge R := mke c v1 v2 (fst (segment_of c)) (snd (segment_of c)) tol.

Ltac absv := unfold Rabs; repeat match goal with |- context [Rcase_abs ?x] => destruct (Rcase_abs x) end.
Lemma clamp_lo a b x : a <= b -> x <= a -> clamp a b x = a.
Proof. intros. unfold clamp. rewrite Rmin_right by lra. apply Rmax_left. lra. Qed.
Lemma clamp_in a b x : a <= x -> x <= b -> clamp a b x = x.
Proof. intros. unfold clamp. rewrite Rmin_right by lra. apply Rmax_right. lra. Qed.

(** vertices at 0, 1, 3/2, 3 *)
Definition h_tol : topo R :=
  mkt [on_line 0; on_line 1; on_line (3/2); on_line 3] [line_edge 0 0 1 (1/10); line_edge 1 2 3 (1/10)].
Definition w_tol1 : wire R := mkw [0%nat] 1.

Lemma tol_run eps : exists w', @add_edge R (NumR eps) sqrt 1 project_line segment_of h_tol w_tol1 1 = Ok (true, h_tol, w') /\
  w_edges w' = [0; 1]%nat.
Proof.
  unfold add_edge. cbn -[distance nltb]. rewrite !distance_1. cbn -[nltb]. unfold on_line.
  rewrite (lt_true eps) by (absv; lra). unfold set_vertex1. cbn -[nltb clamp]. unfold on_line.
  rewrite clamp_lo by lra. rewrite (lt_true eps) by (absv; lra). cbn -[nltb distance]. rewrite distance_1. cbn -[nltb]. unfold on_line.
  rewrite (lt_false eps) by (absv; lra). eexists. split; reflexivity.
Qed.

Lemma tol_not : forall w', w_edges w' = [0; 1]%nat -> ~ connected h_tol w'.
Proof.
  intros w' E C. destruct (C 0%nat 0%nat 1%nat) as (eo & fo & A & B & V); [rewrite E; reflexivity|rewrite E; reflexivity|].
  unfold edge_at in *. cbn in A, B. injection A as <-. injection B as <-. discriminate V.
Qed.
Lemma tol_sound : sound h_tol.
Proof. intros [|[|[|e]]] eo E; try discriminate; injection E as <-; cbn; lia. Qed.

(** vertices at 0, 1, 2 and -1, 101/100; the edge 1 is in the wire [0; 1] *)
Definition h_two : topo R :=
  mkt [on_line 0; on_line 1; on_line 2; on_line (-1); on_line (101/100)]
      [line_edge 0 0 1 (1/10); line_edge 2 1 2 (1/10); mke 3 3 4 (-1) (101/100) (1/10)].
Definition w_first : wire R := mkw [0; 1]%nat (1/10).
Definition w_second : wire R := mkw [2%nat] (1/10).

Lemma two_run eps : exists h' w', @add_edge R (NumR eps) sqrt 1 project_line segment_of h_two w_second 1 = Ok (true, h', w') /\
  exists e', nth_error (t_edges h') 1 = Some e' /\ nth_error (t_edges h') 0 = Some (line_edge 0 0 1 (1/10)) /\ e_v1 e' = 4%nat.
Proof.
  unfold add_edge. cbn -[distance nltb]. rewrite !distance_1. cbn -[nltb]. unfold on_line.
  rewrite (lt_true eps) by (absv; lra). unfold set_vertex1. cbn -[nltb clamp]. unfold on_line.
  rewrite clamp_in by lra. rewrite (lt_false eps) by (absv; lra). cbn -[nltb distance clamp]. rewrite distance_1. cbn -[nltb]. unfold on_line.
  rewrite (lt_false eps (Rabs (-1 - 2))) by (absv; lra). cbn -[nltb]. eexists _, _. split; [reflexivity|].
  eexists. split; [reflexivity|]. split; reflexivity.
Qed.
Lemma two_connected : connected h_two w_first.
Proof.
  intros [|[|i]] e f A B; try discriminate; try (destruct i; discriminate). cbn in A, B. injection A as <-. injection B as <-.
  eexists _, _. split; [reflexivity|]. split; reflexivity.
Qed.
Lemma two_sound : sound h_two.
Proof. intros [|[|[|[|e]]]] eo E; try discriminate; injection E as <-; cbn; lia. Qed.

(** a closed polygon on the line: 0 -> 1 -> 0 *)
Definition h_back : topo R :=
  mkt [on_line 0; on_line 1; on_line 0] [line_edge 0 0 1 (1/10); mke 0 1 2 1 0 (1/10)].
Lemma back_run eps : exists w', @add_edge R (NumR eps) sqrt 1 project_line segment_of h_back (mkw [0%nat] (1/10)) 1 = Ok (true, h_back, w') /\
  connected h_back w' /\ starts_at h_back w' 0 /\ ends_at h_back w' 2 /\ is_closed h_back w' = Ok false.
Proof.
  eexists. split; [reflexivity|]. split; [|split; [|split]].
  - intros [|[|i]] e f A B; try discriminate; try (destruct i; discriminate). cbn in A, B. injection A as <-. injection B as <-.
    eexists _, _. split; [reflexivity|]. split; reflexivity.
  - exists 0%nat. eexists. split; [reflexivity|]. split; reflexivity.
  - exists 1%nat. eexists. split; [reflexivity|]. split; reflexivity.
  - reflexivity.
Qed.

(** a triangle of edges with their own end vertices *)
Definition h_tri : topo R :=
  mkt [on_line 0; on_line 1; on_line 1; on_line 2] [line_edge 0 0 1 (1/10); line_edge 2 2 3 (1/10)].
Lemma tri_sound : sound h_tri.
Proof. intros [|[|[|e]]] eo E; try discriminate; injection E as <-; cbn; lia. Qed.
Lemma project_le c a b x q : segment_of c = (a, b) -> a <= q <= b -> snd (project_line c (on_line x)) <= Rabs (x - q).
Proof.
  intros E Q. unfold project_line. rewrite E. cbn [snd]. unfold on_line.
  assert (K : clamp a b x = a /\ x <= a \/ clamp a b x = x \/ clamp a b x = b /\ b <= x).
  { unfold clamp. destruct (Rle_or_lt b x); [rewrite Rmin_left, Rmax_right by lra; lra|].
    rewrite Rmin_right by lra. destruct (Rle_or_lt a x); [rewrite Rmax_right by lra|rewrite Rmax_left by lra]; lra. }
  destruct K as [(-> & K)|[->|(-> & K)]]; absv; lra.
Qed.
Lemma tri_faithful : faithful 1 project_line h_tri (1/10) 1.
Proof.
  exists (line_edge 2 2 3 (1/10)), (on_line 1), (on_line 2). split; [reflexivity|]. split; [reflexivity|]. split; [reflexivity|].
  split; [cbn; lra|]. intros p I. rewrite !dist_1. cbn [line_edge e_curve].
  assert (exists x, p = on_line x) as (x & ->). { cbn in I. repeat (destruct I as [<-|I]; [eauto|]). destruct I. }
  split; (apply (project_le _ 1 2); [reflexivity|unfold on_line; lra]).
Qed.
Lemma two_faithful : faithful 1 project_line h_two (1/10) 1.
Proof.
  exists (line_edge 2 1 2 (1/10)), (on_line 1), (on_line 2). split; [reflexivity|]. split; [reflexivity|]. split; [reflexivity|].
  split; [cbn; lra|]. intros p I. rewrite !dist_1. cbn [line_edge e_curve].
  assert (exists x, p = on_line x) as (x & ->). { cbn in I. repeat (destruct I as [<-|I]; [eauto|]). destruct I. }
  split; (apply (project_le _ 1 2); [reflexivity|unfold on_line; lra]).
Qed.
