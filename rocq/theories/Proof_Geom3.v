(** Cases for the plane predicates. *)
From Coq Require Import List Arith Lia Bool Reals Lra ZArith Permutation.
From Verif Require Import Model_Base Model_Mesh Model_Geom Model_Tess Spec_Mesh Spec_MeshEdit Spec_Geom Spec_Tess Proof_Base Proof_Mesh Proof_Mesh2
  Proof_Mesh3 Proof_Mesh9 Proof_PropMesh Proof_PropMesh2 Proof_Plane Proof_Tess Proof_Tess2 Proof_Tess3 Proof_Tess4 Proof_Tess5 Proof_Tess6 Proof_PropTess2 Proof_Geom Proof_Geom2.
Import ListNotations.
Local Open Scope R_scope.

Lemma circle_case : circle_through (0, 0) 25 [(3, 4); (-5, 0); (4, -3)] /\ ccw (3, 4) (-5, 0) (4, -3).
Proof. split; [|unfold ccw, area2; cbn; lra]. intros p [<-|[<-|[<-|[]]]]; unfold dist2; cbn; lra. Qed.
Lemma in_triangle_prop eps (a b c d : R * R) : ~ flat a b c ->
  (@in_triangle R (NumR eps) a b c d = true <-> in_closed a b c d) /\
  exists r, @in_triangle_barycentric R (NumR eps) a b c d = Some r /\ (r = true <-> in_closed a b c d).
Proof. intros F. split; [now apply in_triangle_ok|now apply in_bary_ok]. Qed.
Lemma on_segment_prop eps (a b p : R * R) tol :
  (0 <= tol -> a <> b -> on_seg a b p -> @on_segment R (NumR eps) a b p tol = true) /\
  (@on_segment R (NumR eps) a b p tol = true -> near_seg a b tol p).
Proof. split; [intros; now apply on_segment_complete|apply on_segment_sound]. Qed.
Lemma in_triangle_flat : exists a b c d : R * R, flat a b c /\ ~ in_closed a b c d /\ forall eps, @in_triangle R (NumR eps) a b c d = true.
Proof.
  exists (0, 0), (1, 0), (2, 0), (5, 0). split; [unfold flat, area2; cbn; lra|]. split.
  - intros (r & s & t & R0 & S0 & T0 & E & Q). unfold mix in Q. cbn in Q. injection Q as Q _. lra.
  - intros eps. unfold in_triangle. nsimp. cbv zeta. cbn [fst snd]. match goal with |- negb ((Rltb ?x 0 || Rltb ?y 0 || Rltb ?z 0) && _) = true =>
      replace x with 0 by ring; replace y with 0 by ring; replace z with 0 by ring end. destruct (Rltb_spec 0 0); [lra|reflexivity].
Qed.
Lemma barycentric_doc : exists a b c d : R * R, ~ flat a b c /\
  forall eps u v, @triangle_barycentric_coordinates R (NumR eps) a b c d = Some (u, v) -> d <> mix a b c u v (1 - u - v).
Proof.
  exists (0, 0), (1, 0), (0, 1), (0, 0). split; [unfold flat, area2; cbn; lra|]. intros eps u v Q E.
  destruct (barycentric_ok eps (0, 0) (1, 0) (0, 1) (0, 0)) as (_ & X). destruct X as (u' & v' & Q' & E'); [unfold flat, area2; cbn; lra|].
  rewrite Q in Q'. injection Q' as <- <-. unfold mix in *. cbn in *. injection E as E1 E2. injection E' as E3 E4. lra.
Qed.
Lemma seg_seg_case eps : @seg_seg_strict_intersection R (NumR eps) (0, 0) (2, 2) (0, 2) (2, 0) (1/100) = true.
Proof.
  apply seg_seg_complete; cbn; try lra.
  - match goal with |- _ <= Rabs ?x => replace x with (-8) by ring end. rewrite Rabs_left; lra.
  - left. rewrite Rabs_pos_eq; lra.
  - left. rewrite Rabs_pos_eq; lra.
  - exists (1/2), (1/2). repeat split; try lra. unfold along. cbn. f_equal; lra.
Qed.
Lemma is_inside_case : exists (h : plane) fs K es q tol, tri_mesh h fs /\ no_overlap h fs /\ incl K fs /\ NoDup K /\ NoDup es /\
  (forall e, In e es <-> on_boundary_of h K e) /\ 0 <= tol /\
  (exists f A B D, In f K /\ corners h f A B D /\ on_seg A B q) /\
  (forall e A B, In e es -> from_to h e A B -> ~ near_seg A B tol q) /\
  (exists f A B D, In f K /\ corners h f A B D /\ in_closed A B D q) /\ length K = 2%nat.
Proof.
  destruct square_tri as (TM & NO). pose proof square_tmesh as TM'. pose proof TM' as (H & HT). destruct square_corners as (C0 & C1).
  exists square, [0; 1]%nat, [0; 1]%nat. destruct (boundary_prop square [0; 1]%nat [0; 1]%nat) as (es & EB & NE & HE); [apply TM|apply incl_refl|repeat constructor; cbn; intuition discriminate|].
  exists es, (1/2, 1/2), (1/100). split; auto. split; auto. split; [apply incl_refl|]. split; [repeat constructor; cbn; intuition discriminate|]. split; auto. split; auto. split; [lra|].
  split; [|split; [|split; auto]].
  - exists 0%nat, (1, 0), (0, 1), (0, 0). split; [now left|]. split; auto. exists (1/2). split; [lra|]. unfold along. cbn. f_equal; lra.
  - intros e A B Ie FT. apply HE, (on_boundary_iff square [0; 1]%nat) in Ie; [|apply TM|apply incl_refl]. apply filter_In in Ie as (Ie & NI).
    apply in_alle in Ie as (f & If & Ie). destruct (from_to_eq square [0; 1]%nat f e A B TM' If Ie FT) as (-> & ->).
    assert (X : (e = 0 \/ e = 2 \/ e = 4 \/ e = 5)%nat).
    { destruct If as [<-|[<-|[]]]; cbn in Ie; destruct Ie as [<-|[<-|[<-|[]]]]; auto; try (vm_compute in NI; discriminate NI). }
    destruct X as [-> |[-> |[-> | ->]]]; intros (t & Ht & N); unfold along in N; cbn in N; revert N.
    all: match goal with |- Rmax (Rabs ?x) (Rabs ?y) * (Rabs ?u + Rabs ?v) <= _ -> False =>
      assert (1 <= Rmax (Rabs x) (Rabs y)) by (first [eapply Rle_trans; [|apply Rmax_l]; first [rewrite Rabs_pos_eq; lra|rewrite Rabs_left; lra]
         |eapply Rle_trans; [|apply Rmax_r]; first [rewrite Rabs_pos_eq; lra|rewrite Rabs_left; lra]]);
      assert (1/8 <= Rabs u + Rabs v) by (pose proof (Rle_abs u); pose proof (Rle_abs v); pose proof (Rle_abs (- u)); pose proof (Rle_abs (- v)); rewrite !Rabs_Ropp in *; lra);
      intros N; assert (1 * (Rabs u + Rabs v) <= Rmax (Rabs x) (Rabs y) * (Rabs u + Rabs v)) by (apply Rmult_le_compat_r; lra); lra end.
  - exists 0%nat, (1, 0), (0, 1), (0, 0). split; [now left|]. split; auto. exists (1/2), (1/2), 0. repeat split; try lra. unfold mix. cbn. f_equal; lra.
Qed.
