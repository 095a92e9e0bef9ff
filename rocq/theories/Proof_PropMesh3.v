(** Flipping the diagonal of two triangles. *)
From Coq Require Import List Arith Lia Bool Permutation.
From Verif Require Import Model_Base Proof_Base Model_Mesh Spec_Mesh Spec_MeshEdit Proof_Mesh Proof_Mesh2 Proof_Mesh3 Proof_Mesh4 Proof_Mesh5 Proof_Mesh6 Proof_Mesh7 Proof_Mesh8 Proof_Mesh9 Proof_Mesh10 Proof_PropMesh.
Import ListNotations.
Local Open Scope nat_scope.

Section Mesh.
Context {C : Type}.
Implicit Types (h : heap C) (fs l es K N : list nat) (f e o v x y : nat) (p : ptr).

Lemma loop3 h f a b c : floop h f [a; b; c] -> nx h a = Some b /\ nx h b = Some c /\ nx h c = Some a /\ NoDup [a; b; c].
Proof.
  intros (_ & ND & _ & _ & H). pose proof (H 0 ltac:(cbn; lia)) as (_ & _ & A & _). pose proof (H 1 ltac:(cbn; lia)) as (_ & _ & B & _).
  pose proof (H 2 ltac:(cbn; lia)) as (_ & _ & D & _). cbn in A, B, D. auto.
Qed.
Lemma tri_view h f e1 e2 e3 a b c : tri h f e1 e2 e3 a b c ->
  (forall x, In x (Lf h f) <-> In x [e1; e2; e3]) /\ length (Lf h f) = 3 /\ floop h f (Lf h f) /\
  nx h e1 = Some e2 /\ nx h e2 = Some e3 /\ nx h e3 = Some e1 /\
  en h e1 = Some a /\ en h e2 = Some b /\ en h e3 = Some c /\ NoDup [e1; e2; e3].
Proof.
  intros (L & E1 & E2 & E3). apply ends_iff in E1 as (_ & E1 & _). apply ends_iff in E2 as (_ & E2 & _). apply ends_iff in E3 as (_ & E3 & _).
  destruct L as [L|[L|L]]; apply face_loop_iff in L; pose proof (Lf_ok _ _ _ L) as Q; rewrite Q;
    destruct (loop3 _ _ _ _ _ L) as (A & B & D & ND).
  - split; [tauto|]. split; [auto|]. split; [auto|]. auto 10.
  - split; [cbn; tauto|]. split; [auto|]. split; [auto|]. do 6 (split; [auto|]). inversion_clear ND as [|? ? X Y]. inversion_clear Y as [|? ? X' Y']. 
    repeat constructor; cbn in *; intuition.
  - split; [cbn; tauto|]. split; [auto|]. split; [auto|]. do 6 (split; [auto|]). inversion_clear ND as [|? ? X Y]. inversion_clear Y as [|? ? X' Y']. 
    repeat constructor; cbn in *; intuition.
Qed.
Lemma tri_of h f e1 e2 e3 a b c : floop h f (Lf h f) -> Lf h f = [e1; e2; e3] -> en h e1 = Some a -> en h e2 = Some b -> en h e3 = Some c -> tri h f e1 e2 e3 a b c.
Proof.
  intros L Q A B D. rewrite Q in L. split; [left; now apply face_loop_iff|].
  assert (X : forall x v, In x [e1; e2; e3] -> en h x = Some v -> ends h x v).
  { intros x v I Y. destruct (floop_in _ _ _ _ L I) as (X1 & _ & (w & W1 & W2) & _). apply ends_iff. assert (w = v) by congruence. subst w. auto. }
  repeat split; apply X; cbn; auto.
Qed.
Lemma flip_prop h fs f1 f2 e1 e2 e3 o1 o2 o3 v1 v2 v3 v4 : mesh_ok h fs -> In f1 fs -> In f2 fs -> f1 <> f2 ->
  tri h f1 e1 e2 e3 v1 v2 v3 -> tri h f2 o1 o2 o3 v3 v4 v1 -> opp_is h e1 (Some o1) -> NoDup [v1; v2; v3; v4] ->
  exists h', flip h f1 f2 = Ok h' /\ mesh_ok h' fs /\
    tri h' f1 e1 o3 e2 v4 v1 v2 /\ tri h' f2 o1 e3 o2 v2 v3 v4 /\ opp_is h' e1 (Some o1) /\
    (forall x p, In x [e2; e3; o2; o3] -> opp_is h x p -> opp_is h' x p) /\
    (forall x, ~ In x [e1; e2; e3; o1; o2; o3] -> edge_kept h h' x) /\
    (forall g, g <> f1 -> g <> f2 -> face_kept h h' g) /\
    coords_kept h h' /\ (vertices_ok h fs -> vertices_ok h' fs).
Proof.
  intros M I1 I2 N12 T1 T2 OP NV. pose proof M as H. apply mesh_ok_iff in H.
  destruct (tri_view _ _ _ _ _ _ _ _ T1) as (M1 & L1 & FL1 & X1 & X2 & X3 & A1 & A2 & A3 & ND1).
  destruct (tri_view _ _ _ _ _ _ _ _ T2) as (M2 & L2 & FL2 & Y1 & Y2 & Y3 & B1 & B2 & B3 & ND2).
  apply opp_iff in OP as (_ & OP).
  assert (V12 : v1 <> v2 /\ v1 <> v3 /\ v1 <> v4 /\ v2 <> v3 /\ v2 <> v4 /\ v3 <> v4).
  { inversion_clear NV as [|? ? Q1 Q2]. inversion_clear Q2 as [|? ? Q3 Q4]. inversion_clear Q4 as [|? ? Q5 Q6]. cbn in *. intuition. }
  destruct V12 as (V12 & V13 & V14 & V23 & V24 & V34).
  destruct (flip_ok h fs f1 f2) as [(NC & _)|R]; auto.
  { exfalso. apply (NC e1 o1); auto. { apply M1. cbn; auto. } apply (floop_in _ _ _ _ FL2). apply M2. cbn; auto. }
  destruct R as (h' & d1 & d2 & d3 & c1 & c2 & c3 & w1 & w2 & w3 & w4 & ND & P1 & P2 & D1 & D2 & D3 & C1 & C2 & C3 & W1 & W2 & W3 & W4 & W5 & W6 & OD & OC & FLIP
    & G1 & G2 & G3 & G4 & G5 & G6 & K1 & K2 & FR & FF & Nne & Nnv & Nnf & VCO & VE & MI).
  assert (I : In d1 [e1; e2; e3]) by (apply M1, P1; cbn; auto).
  assert (J : In c1 [o1; o2; o3]) by (apply M2, P2; cbn; auto).
  assert (Q : d1 = e1 /\ d2 = e2 /\ d3 = e3 /\ c1 = o1 /\ c2 = o2 /\ c3 = o3 /\ w1 = v1 /\ w2 = v2 /\ w3 = v3 /\ w4 = v4).
  { destruct I as [<-|[<-|[<-|[]]]].
    - assert (d2 = e2) by congruence. subst d2. assert (d3 = e3) by congruence. subst d3. assert (c1 = o1) by congruence. subst c1.
      assert (c2 = o2) by congruence. subst c2. assert (c3 = o3) by congruence. subst c3. repeat split; congruence.
    - exfalso. assert (d2 = e3) by congruence. subst d2. assert (d3 = e1) by congruence. subst d3.
      destruct J as [<-|[<-|[<-|[]]]]; try congruence.
    - exfalso. assert (d2 = e1) by congruence. subst d2. assert (d3 = e2) by congruence. subst d3.
      destruct J as [<-|[<-|[<-|[]]]]; congruence. }
  destruct Q as (-> & -> & -> & -> & -> & -> & -> & -> & -> & ->). clear I J.
  assert (Mh' : mesh_ok h' fs) by now apply mesh_ok_iff.
  assert (EN : en h' e1 = Some v4 /\ en h' o3 = Some v1 /\ en h' e2 = Some v2 /\ en h' o1 = Some v2 /\ en h' e3 = Some v3 /\ en h' o2 = Some v4).
  { unfold en. rewrite G1, G2, G3, G4, G5, G6. auto 10. }
  destruct EN as (En1 & En2 & En3 & En4 & En5 & En6).
  exists h'. split; auto. split; auto.
  split; [apply tri_of; auto; now apply (Lf_of _ fs)|]. split; [apply tri_of; auto; now apply (Lf_of _ fs)|].
  assert (Bx : forall x, In x [e1; e2; e3; o1; o2; o3] -> x < ne h).
  { intros x I. assert (In x (Lf h f1) \/ In x (Lf h f2)) as [Z|Z] by (rewrite M1, M2; cbn in *; tauto).
    - now apply (floop_in _ _ _ _ FL1). - now apply (floop_in _ _ _ _ FL2). }
  split. { apply opp_iff. unfold op. rewrite G1. split; auto. rewrite Nne. apply Bx; cbn; auto. }
  split.
  { intros x p I. rewrite !opp_iff, Nne. intros (Z1 & Z2). split; auto. destruct I as [<-|[<-|[<-|[<-|[]]]]]; unfold op at 1; rewrite ?G2, ?G3, ?G5, ?G6; auto. }
  split. { intros x I. apply edge_kept_E; [lia|]. apply FR. auto. }
  split. { intros g g1 g2. unfold face_kept. destruct (Nat.lt_ge_cases g (nf h)); [apply face_kept_F; auto; lia|].
    rewrite !(proj2 (nth_error_None _ _)); auto; unfold nf in *; lia. }
  split. { apply coords_kept_vco. auto. }
  intros VO e v Le Ev.
  (* half-edges of the mesh *)
  assert (LV : forall x, live h' fs x <-> live h fs x).
  { intros x. rewrite (LiveI _ _ _ M), (LiveI _ _ _ Mh').
    assert (LF : forall g, In g fs -> g <> f1 -> g <> f2 -> Lf h' g = Lf h g).
    { intros g Ig g1 g2. apply (Lf_frame h h' g (Lf h g)); auto; try lia; [now apply (Lf_of _ fs)|].
      intros y Iy. unfold en, fc, nx, pv. rewrite FR; auto. intros Z.
      assert (In y (Lf h f1) \/ In y (Lf h f2)) as [Y|Y] by (rewrite M1, M2; cbn in *; tauto).
      - apply g1. apply (floop_face h g f1 (Lf h g) (Lf h f1) y); auto. now apply (Lf_of _ fs).
      - apply g2. apply (floop_face h g f2 (Lf h g) (Lf h f2) y); auto. now apply (Lf_of _ fs). }
    split; intros (g & Ig & Ix).
    - destruct (Nat.eq_dec g f1) as [->|g1]; [|destruct (Nat.eq_dec g f2) as [->|g2]].
      + rewrite K1 in Ix. destruct Ix as [<-|[<-|[<-|[]]]]; [exists f1|exists f2|exists f1]; rewrite ?M1, ?M2; cbn; auto.
      + rewrite K2 in Ix. destruct Ix as [<-|[<-|[<-|[]]]]; [exists f2|exists f1|exists f2]; rewrite ?M1, ?M2; cbn; auto.
      + exists g. rewrite <- LF; auto.
    - destruct (Nat.eq_dec g f1) as [->|g1]; [|destruct (Nat.eq_dec g f2) as [->|g2]].
      + apply M1 in Ix. destruct Ix as [<-|[<-|[<-|[]]]]; [exists f1|exists f1|exists f2]; rewrite ?K1, ?K2; cbn; auto.
      + apply M2 in Ix. destruct Ix as [<-|[<-|[<-|[]]]]; [exists f2|exists f2|exists f1]; rewrite ?K1, ?K2; cbn; auto.
      + exists g. rewrite LF; auto. }
  assert (L6 : forall x, In x [e1; e2; e3; o1; o2; o3] -> live h' fs x /\ x < ne h').
  { intros x I. assert (Z : live h fs x).
    { apply (LiveI _ _ _ M). assert (In x (Lf h f1) \/ In x (Lf h f2)) as [Z|Z] by (rewrite M1, M2; cbn in *; tauto); [exists f1|exists f2]; auto. }
    split; [now apply LV|]. rewrite Nne. apply Bx; auto. }
  assert (Bv : v < nv h') by (now apply ends_iff in Ev).
  assert (MK : forall x, In x [e1; e2; e3; o1; o2; o3] -> en h' x = Some v -> ve h' v = Some x ->
     exists e', vedge_is h' v (Some e') /\ live h' fs e' /\ ends h' e' v).
  { intros x I Z1 Z2. exists x. destruct (L6 x I). rewrite vedge_iff, ends_iff. auto. }
  destruct (Nat.eq_dec v v2) as [->|n2].
  { apply (MK o1); cbn; auto. rewrite VE. rewrite (proj2 (Nat.eqb_neq v2 v3)), (proj2 (Nat.eqb_neq v2 v1)), Nat.eqb_refl by auto. reflexivity. }
  destruct (Nat.eq_dec v v4) as [->|n4].
  { apply (MK e1); cbn; auto. rewrite VE. rewrite (proj2 (Nat.eqb_neq v4 v3)), (proj2 (Nat.eqb_neq v4 v1)), (proj2 (Nat.eqb_neq v4 v2)), Nat.eqb_refl by auto. reflexivity. }
  (* v had a live half-edge ending at it before: its reference in h *)
  assert (OLD : exists x, live h fs x /\ ends h x v).
  { pose proof Le as Le'. apply LV in Le. apply ends_iff in Ev as (Z1 & Z2 & Z3).
    destruct (in_dec Nat.eq_dec e [e1; e2; e3; o1; o2; o3]) as [I|I].
    - destruct I as [<-|[<-|[<-|[<-|[<-|[<-|[]]]]]]]; try congruence.
      + exists e3. split; [auto|]. apply ends_iff. rewrite Nne, Nnv in *. split; auto. split; [congruence|auto].
      + exists o3. split; [auto|]. apply ends_iff. rewrite Nne, Nnv in *. split; auto. split; [congruence|auto].
    - exists e. split; auto. apply ends_iff. rewrite Nne, Nnv in *. split; auto. split; auto. unfold en in *. rewrite FR in Z2; auto. }
  destruct OLD as (x0 & Lx0 & Ex0). destruct (VO x0 v Lx0 Ex0) as (x & Vx & Lx & Ex).
  apply vedge_iff in Vx as (_ & Vx). apply ends_iff in Ex as (Bxx & Ex & _).
  destruct (Nat.eq_dec v v1) as [->|n1].
  { destruct (Nat.eq_dec x e1) as [->|nx1].
    - apply (MK o3); cbn; auto 10. rewrite VE. rewrite (proj2 (Nat.eqb_neq v1 v3)), Nat.eqb_refl, (proj2 (Nat.eqb_neq v1 v2)), (proj2 (Nat.eqb_neq v1 v4)) by auto.
      rewrite Vx, ptr_eqb_refl. reflexivity.
    - assert (V' : ve h' v1 = Some x).
      { rewrite VE. rewrite (proj2 (Nat.eqb_neq v1 v3)), Nat.eqb_refl, (proj2 (Nat.eqb_neq v1 v2)), (proj2 (Nat.eqb_neq v1 v4)) by auto.
        rewrite Vx. destruct (ptr_eqb_spec (Some x) (Some e1)) as [Z|Z]; [congruence|reflexivity]. }
      exists x. split; [apply vedge_iff; auto|]. split; [now apply LV|]. apply ends_iff. split; [lia|]. split; auto.
      destruct (in_dec Nat.eq_dec x [e1; e2; e3; o1; o2; o3]) as [I|I].
      + destruct I as [<-|[<-|[<-|[<-|[<-|[<-|[]]]]]]]; congruence.
      + unfold en. rewrite FR by auto. exact Ex. }
  destruct (Nat.eq_dec v v3) as [->|n3].
  { destruct (Nat.eq_dec x o1) as [->|nx1].
    - apply (MK e3); cbn; auto 10. rewrite VE. rewrite Nat.eqb_refl, (proj2 (Nat.eqb_neq v3 v1)), (proj2 (Nat.eqb_neq v3 v2)), (proj2 (Nat.eqb_neq v3 v4)) by auto.
      cbn [andb]. rewrite Vx, ptr_eqb_refl. reflexivity.
    - assert (V' : ve h' v3 = Some x).
      { rewrite VE. rewrite Nat.eqb_refl, (proj2 (Nat.eqb_neq v3 v1)), (proj2 (Nat.eqb_neq v3 v2)), (proj2 (Nat.eqb_neq v3 v4)) by auto.
        cbn [andb]. rewrite Vx. destruct (ptr_eqb_spec (Some x) (Some o1)) as [Z|Z]; [congruence|reflexivity]. }
      exists x. split; [apply vedge_iff; auto|]. split; [now apply LV|]. apply ends_iff. split; [lia|]. split; auto.
      destruct (in_dec Nat.eq_dec x [e1; e2; e3; o1; o2; o3]) as [I|I].
      + destruct I as [<-|[<-|[<-|[<-|[<-|[<-|[]]]]]]]; congruence.
      + unfold en. rewrite FR by auto. exact Ex. }
  assert (V' : ve h' v = Some x).
  { rewrite VE. rewrite (proj2 (Nat.eqb_neq v v1)), (proj2 (Nat.eqb_neq v v2)), (proj2 (Nat.eqb_neq v v3)), (proj2 (Nat.eqb_neq v v4)) by auto. exact Vx. }
  exists x. split; [apply vedge_iff; auto|]. split; [now apply LV|]. apply ends_iff. split; [lia|]. split; auto.
  destruct (in_dec Nat.eq_dec x [e1; e2; e3; o1; o2; o3]) as [I|I].
  - destruct I as [<-|[<-|[<-|[<-|[<-|[<-|[]]]]]]]; congruence.
  - unfold en. rewrite FR by auto. exact Ex.
Qed.
Lemma flip_twice h fs f1 f2 e1 e2 e3 o1 o2 o3 v1 v2 v3 v4 : mesh_ok h fs -> In f1 fs -> In f2 fs -> f1 <> f2 ->
  tri h f1 e1 e2 e3 v1 v2 v3 -> tri h f2 o1 o2 o3 v3 v4 v1 -> opp_is h e1 (Some o1) -> NoDup [v1; v2; v3; v4] ->
  exists h1 h2, flip h f1 f2 = Ok h1 /\ flip h1 f1 f2 = Ok h2 /\ mesh_ok h2 fs /\
    tri h2 f1 e1 o2 o3 v3 v4 v1 /\ tri h2 f2 o1 e2 e3 v1 v2 v3 /\
    opp_is h2 e1 (Some o1) /\
    (forall x p, In x [e2; e3; o2; o3] -> opp_is h x p -> opp_is h2 x p) /\
    (forall x, ~ In x [e1; e2; e3; o1; o2; o3] -> edge_kept h h2 x).
Proof.
  intros M I1 I2 N12 T1 T2 OP NV.
  destruct (flip_prop h fs f1 f2 e1 e2 e3 o1 o2 o3 v1 v2 v3 v4) as (h1 & A0 & A1 & A2 & A3 & A4 & A5 & A6 & _); auto.
  destruct (flip_prop h1 fs f1 f2 e1 o3 e2 o1 e3 o2 v4 v1 v2 v3) as (h2 & B0 & B1 & B2 & B3 & B4 & B5 & B6 & _); auto.
  { apply (Permutation_NoDup (l := [v1; v2; v3; v4])); auto.
    change [v1; v2; v3; v4] with ([v1; v2; v3] ++ [v4]). apply Permutation_sym, Permutation_cons_append. }
  exists h1, h2. split; auto. split; auto. split; auto. split; auto. split; auto. split; auto. split.
  - intros x p I O. apply B5; [cbn in *; tauto|]. now apply A5.
  - intros x I r R. apply B6; [cbn in *; tauto|]. now apply A6.
Qed.
Lemma flip_none h fs f1 f2 : mesh_ok h fs -> In f1 fs ->
  (forall e o l, face_loop h f1 l -> In e l -> opp_is h e (Some o) -> ~ face_is h o (Some f2)) -> flip h f1 f2 = Ok h.
Proof.
  intros M I1 Q. pose proof M as H. apply mesh_ok_iff in H.
  destruct (getCommonEdges_ok h fs f1 f2 H I1) as [(e & o & Ie & O & Fo & _)|(_ & A)].
  - exfalso. assert (L : Live h fs e) by (exists f1; auto). apply (Q e o (Lf h f1)); auto.
    + apply face_loop_iff. now apply (Lf_of _ fs).
    + apply opp_iff. split; auto. now apply (Live_lt _ fs).
    + apply face_iff. split; auto. apply (Live_lt _ fs); auto. now apply (minv_pair h fs e).
  - unfold flip. rewrite A. reflexivity.
Qed.
End Mesh.
