(** Concrete meshes: witnesses and counterexamples. *)
From Coq Require Import List Arith Lia Bool Permutation.
From Verif Require Import Model_Base Proof_Base Model_Mesh Spec_Mesh Spec_MeshEdit Proof_Mesh Proof_Mesh2 Proof_Mesh3 Proof_Mesh4 Proof_PropMesh Proof_PropMesh2.
Import ListNotations.
Local Open Scope nat_scope.

Definition he4 (v f n p : nat) (o : ptr) := mkhe (Some v) (Some f) (Some n) (Some p) o.
(** the triangle 0 1 2 and the triangle 2 1 3 on its edge from 1 to 2 *)
Definition pair_mesh : heap nat :=
  mkh [he4 0 0 1 2 None; he4 1 0 2 0 None; he4 2 0 0 1 (Some 3);
       he4 1 1 5 4 (Some 2); he4 2 1 3 5 None; he4 3 1 4 3 None]
      [mkhv 10 (Some 0); mkhv 11 (Some 1); mkhv 12 (Some 2); mkhv 13 (Some 5)] [Some 0; Some 4].
(** the triangle 0 1 2 split by a vertex 3 inside *)
Definition fan_mesh : heap nat :=
  mkh [he4 0 1 3 4 None; he4 1 2 5 6 None; he4 2 3 7 8 None; he4 3 1 4 0 (Some 6); he4 2 1 0 3 (Some 7);
       he4 3 2 6 1 (Some 8); he4 0 2 1 5 (Some 3); he4 3 3 8 2 (Some 4); he4 1 3 2 7 (Some 5)]
      [mkhv 10 (Some 0); mkhv 11 (Some 1); mkhv 12 (Some 2); mkhv 13 (Some 3)] [Some 0; Some 0; Some 1; Some 2].
Definition one_mesh : heap nat :=
  mkh [he4 0 0 1 2 None; he4 1 0 2 0 None; he4 2 0 0 1 None]
      [mkhv 10 (Some 0); mkhv 11 (Some 1); mkhv 12 (Some 2)] [Some 0].
Definition no_mesh : heap nat := mkh [] [] [].

Lemma one_reached : reached one_mesh [0].
Proof. apply (reached_edit no_mesh [] (NewFace [10; 11; 12])); [constructor|cbn; lia|reflexivity]. Qed.
Ltac livetac M := apply (LiveI _ _ _ M); match goal with |- Live _ ?fs ?e => 
   let rec go l := match l with ?f :: ?t => first [exists f; split; [cbn; tauto|vm_compute; tauto] | go t] end in go fs end.
Lemma pair_reached : reached pair_mesh [0; 1].
Proof.
  apply (reached_edit one_mesh [0] (AttachFace (Some 0) (Some 2) 13)); [apply one_reached| |reflexivity].
  intros i [= <-]. pose proof (reached_prop _ _ one_reached) as M. livetac M.
Qed.
Lemma fan_reached : reached fan_mesh [1; 2; 3].
Proof. apply (reached_edit one_mesh [0] (InsertVertex 0 13)); [apply one_reached|cbn; lia|reflexivity]. Qed.

Lemma live_in h fs e : mesh_ok (C := nat) h fs -> live h fs e -> In e (flat_map (Lf h) fs).
Proof. intros M L. apply (LiveI _ _ _ M) in L as (f & I & J). apply in_flat_map. eauto. Qed.
Ltac cases_in H := repeat (destruct H as [<-|H]); [..|destruct H].
Lemma pair_slits : no_slits pair_mesh [0; 1].
Proof.
  intros e o a b Le Lo S1 E1 S2 E2. pose proof (reached_prop _ _ pair_reached) as M.
  apply (live_in _ _ _ M) in Le, Lo. vm_compute in Le, Lo.
  apply starts_iff in S1 as (_ & S1 & _). apply starts_iff in S2 as (_ & S2 & _). apply ends_iff in E1 as (_ & E1 & _). apply ends_iff in E2 as (_ & E2 & _).
  apply opp_iff.
  assert (Q : forall e o, In e [0; 1; 2; 4; 3; 5] -> In o [0; 1; 2; 4; 3; 5] ->
     st pair_mesh e = en pair_mesh o -> en pair_mesh e = st pair_mesh o -> e < ne pair_mesh /\ op pair_mesh e = Some o).
  { clear. intros e o Le Lo. cases_in Le; cases_in Lo; vm_compute; intros; try congruence; split; auto; lia. }
  apply Q; auto; congruence.
Qed.
Lemma pair_vertices : vertices_ok pair_mesh [0; 1].
Proof.
  intros e v Le Ev. pose proof (reached_prop _ _ pair_reached) as M. apply (live_in _ _ _ M) in Le. vm_compute in Le.
  apply ends_iff in Ev as (_ & Ev & _).
  cases_in Le; vm_compute in Ev; injection Ev as <-; eexists; (split; [apply vedge_iff; split; [vm_compute; lia|vm_compute; reflexivity]|]; split; [livetac M|]; apply ends_iff; split; [vm_compute; lia|]; split; [reflexivity|vm_compute; lia]).
Qed.
Definition split_pair := splitHalfEdge (fun a b : nat => a + b) pair_mesh 2 [0; 1].
Definition split_heap : heap nat := Eval vm_compute in match split_pair with Ok (h, _, _) => h | _ => no_mesh end.
Lemma split_run : splitHalfEdge (fun a b : nat => a + b) pair_mesh 2 [0; 1] = Ok (split_heap, [0; 1; 2; 3], 4).
Proof. vm_compute. reflexivity. Qed.
Lemma split_loops : face_loop split_heap 2 [7; 8; 1] /\ face_loop split_heap 3 [10; 11; 5].
Proof.
  rewrite !face_loop_iff. split; (split; [cbn; lia|]; split; [repeat constructor; cbn; lia|]; split; [vm_compute; lia|]; split; [reflexivity|]);
  intros i Hi; cbn in Hi; (destruct i as [|[|[|i]]]; [| | |lia]); vm_compute; (repeat split; try lia); eexists; (split; [reflexivity|lia]).
Qed.
Lemma split_refuted : exists (h : heap nat) fs e o h' fs' v, reached h fs /\ no_slits h fs /\ vertices_ok h fs /\
  live h fs e /\ opp_is h e (Some o) /\
  splitHalfEdge (fun a b => a + b) h e fs = Ok (h', fs', v) /\ ~ no_slits h' fs' /\ ~ vertices_ok h' fs'.
Proof.
  exists pair_mesh, [0; 1], 2, 3, split_heap, [0; 1; 2; 3], 4. pose proof (reached_prop _ _ pair_reached) as M.
  split; [apply pair_reached|]. split; [apply pair_slits|]. split; [apply pair_vertices|].
  split; [livetac M|]. split; [apply opp_iff; vm_compute; split; auto; lia|]. split; [apply split_run|].
  destruct split_loops as (L2 & L3).
  assert (V7 : live split_heap [0; 1; 2; 3] 7) by (exists 2, [7; 8; 1]; cbn; auto).
  split.
  - intros Q.
    assert (O : opp_is split_heap 7 (Some 11)).
    { apply (Q 7 11 1 4); auto.
      - exists 3, [10; 11; 5]. cbn; auto 6.
      - apply starts_iff. vm_compute. repeat split; try lia. eexists; split; [reflexivity|lia].
      - apply ends_iff. vm_compute. repeat split; lia.
      - apply starts_iff. vm_compute. repeat split; try lia. eexists; split; [reflexivity|lia].
      - apply ends_iff. vm_compute. repeat split; lia. }
    apply opp_iff in O. vm_compute in O. destruct O. discriminate.
  - intros Q. destruct (Q 7 4 V7) as (e' & A & _ & B).
    + apply ends_iff. vm_compute. repeat split; lia.
    + apply vedge_iff in A as (_ & A). vm_compute in A. injection A as <-. apply ends_iff in B. vm_compute in B. destruct B as (_ & B & _). discriminate.
Qed.
(** is_boundary *)
Lemma boundary_refuted : exists (h : heap nat) fs v w,
  reached h fs /\
  (forall x, live h fs x -> ends h x v -> exists o, opp_is h x (Some o)) /\ is_boundary h v = Ok true /\
  (exists x, live h fs x /\ ends h x w /\ opp_is h x None) /\ is_boundary h w = Ok false.
Proof.
  exists fan_mesh, [1; 2; 3], 3, 0. pose proof (reached_prop _ _ fan_reached) as M. split; [apply fan_reached|]. split.
  { intros x L Ev. apply (live_in _ _ _ M) in L. vm_compute in L. apply ends_iff in Ev as (_ & Ev & _).
    cases_in L; vm_compute in Ev; try discriminate; eexists; apply opp_iff; (split; [vm_compute; lia|vm_compute; reflexivity]). }
  split; [reflexivity|]. split; [|reflexivity]. exists 0. split; [livetac M|]. rewrite ends_iff, opp_iff. vm_compute. repeat split; lia.
Qed.
(** hypotheses are met *)
Lemma pair_tri : tri pair_mesh 0 2 0 1 2 0 1 /\ tri pair_mesh 1 3 5 4 1 3 2 /\ opp_is pair_mesh 2 (Some 3).
Proof.
  pose proof (reached_prop _ _ pair_reached) as M. pose proof M as H. apply mesh_ok_iff in H.
  assert (L0 : face_loop pair_mesh 0 [0; 1; 2]) by (apply face_loop_iff; apply (Lf_of _ [0; 1] 0 H); cbn; auto).
  assert (L1 : face_loop pair_mesh 1 [4; 3; 5]) by (apply face_loop_iff; apply (Lf_of _ [0; 1] 1 H); cbn; auto).
  assert (EN : forall e v, e < 6 -> en pair_mesh e = Some v -> v < 4 -> ends pair_mesh e v) by (intros; apply ends_iff; auto).
  split; [split; [auto|]|split; [split; [auto|]|apply opp_iff; vm_compute; split; auto; lia]]; repeat split; apply EN; try reflexivity; lia.
Qed.
Lemma one_chain : closed_chain one_mesh [0; 1; 2].
Proof.
  assert (EN : forall e v, e < 3 -> en one_mesh e = Some v -> v < 3 -> ends one_mesh e v) by (intros; apply ends_iff; auto).
  assert (ST : forall e v q, e < 3 -> pv one_mesh e = Some q -> q < 3 -> st one_mesh e = Some v -> v < 3 -> starts one_mesh e v).
  { intros e v q A B D F G. apply starts_iff. split; auto. split; auto. split; auto. exists q. auto. }
  split.
  - intros [|[|[|i]]] e e' H H'; cbn in H, H'; try (destruct i; discriminate); try discriminate; injection H as <-; injection H' as <-.
    + exists 0. split; [apply EN|apply ST with 0]; try reflexivity; lia.
    + exists 1. split; [apply EN|apply ST with 1]; try reflexivity; lia.
  - exists 0, 2, 2. repeat split; [apply EN|apply ST with 2]; try reflexivity; lia.
Qed.
Lemma one_cavity : mesh_ok one_mesh [0] /\ closed_chain one_mesh [0; 1; 2] /\ NoDup [0; 1; 2] /\
  (forall e, In e [0; 1; 2] -> live one_mesh [0] e /\ ~ live one_mesh [] e) /\
  (forall e o, live one_mesh [] e \/ In e [0; 1; 2] -> opp_is one_mesh e (Some o) -> live one_mesh [] o \/ In o [0; 1; 2]).
Proof.
  pose proof (reached_prop _ _ one_reached) as M. split; auto. split; [apply one_chain|].
  split; [repeat constructor; cbn; lia|]. split.
  - intros e H. split; [|intros (f & l & [] & _)]. cases_in H; livetac M.
  - intros e o [(f & l & [] & _)|I] O. apply opp_iff in O as (_ & O). cases_in I; discriminate.
Qed.
Lemma one_ends : forall e, In e [0; 1; 2] -> exists v, ends one_mesh e v.
Proof. intros e H. cases_in H; eexists; apply ends_iff; vm_compute; (split; [lia|]; split; [reflexivity|lia]). Qed.
Lemma pair_loop : face_loop pair_mesh 0 [0; 1; 2].
Proof.
  pose proof (reached_prop _ _ pair_reached) as M. pose proof M as H. apply mesh_ok_iff in H.
  apply face_loop_iff. apply (Lf_of _ [0; 1] 0 H). cbn; auto.
Qed.
