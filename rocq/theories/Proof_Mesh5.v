(** The mesh invariant is kept: add_face. *)
From Coq Require Import List Arith Lia Bool Permutation.
From Verif Require Import Model_Base Proof_Base Model_Mesh Spec_Mesh Proof_Mesh Proof_Mesh2 Proof_Mesh3 Proof_Mesh4.
Import ListNotations.
Local Open Scope nat_scope.

Ltac eqbs := repeat match goal with
  | |- context [?a =? ?b] => destruct (Nat.eqb_spec a b); try lia
  | H : context [?a =? ?b] |- _ => destruct (Nat.eqb_spec a b); try lia
  end.

Section Mesh.
Context {C : Type}.
Implicit Types (h : heap C) (fs l es K N : list nat) (f e o v x y : nat) (p : ptr).

Lemma attach_face_ok h fs e (c : C) : minv h fs -> Live h fs e -> op h e = None ->
  exists h' a b, st h e = Some a /\ en h e = Some b /\
  attach_face h e c = Ok (h', Some (nf h)) /\
  ne h' = ne h + 3 /\ nv h' = S (nv h) /\ nf h' = S (nf h) /\
  (forall x, x < ne h -> x <> e -> E h' x = E h x) /\
  E h' e = wopp (E h e) (Some (ne h)) /\
  floop h' (nf h) [ne h + 1; ne h; ne h + 2] /\
  en h' (ne h + 1) = Some b /\ en h' (ne h) = Some a /\ en h' (ne h + 2) = Some (nv h) /\
  op h' (ne h + 1) = None /\ op h' (ne h) = Some e /\ op h' (ne h + 2) = None /\
  (forall f, f < nf h -> F h' f = F h f) /\
  (forall v, v < nv h -> vco h' v = vco h v) /\ vco h' (nv h) = Some c /\
  (forall v, v < nv h -> ve h v <> None -> ve h' v = ve h v) /\ ve h' (nv h) = Some (ne h + 2) /\
  minv h' (fs ++ [nf h]).
Proof.
  intros H Le Oe. pose proof (Live_lt _ _ _ H Le) as Be.
  pose proof H as (_ & HL & _).
  destruct (Live_e _ _ _ HL Le) as (_ & _ & (b & Eb & Bb) & _ & (p & Pp & Lp & _) & (a & Sa & Ba)).
  pose proof (Live_lt _ _ _ H Lp) as Bp. assert (Ep : en h p = Some a) by (unfold st in Sa; now rewrite Pp in Sa).
  unfold attach_face, make_opposite. rewrite (start_of_ok h e p a) by auto. cbn [bind].
  rewrite make_edge_ok by auto. cbn [bind]. set (h1 := mke h a None).
  assert (M1 : ne h1 = S (ne h)) by apply ne_mke.
  rewrite set_opp_ok by lia. cbn [bind]. set (h2 := ue h1 (ne h) _).
  assert (M2 : ne h2 = S (ne h)) by (unfold h2; now rewrite ne_ue).
  rewrite set_opp_ok by lia. cbn [bind]. set (h3 := ue h2 e _).
  assert (M3 : ne h3 = S (ne h)) by (unfold h3; now rewrite ne_ue).
  assert (E3 : forall x, E h3 x = if x =? e then wopp (E h e) (Some (ne h)) else if x =? ne h then mkhe (Some a) None None None (Some e) else E h x).
  { intros x. unfold h3. rewrite E_ue by lia. unfold h2. rewrite !E_ue by lia. unfold h1. rewrite !E_mke.
    rewrite Nat.eqb_refl. eqbs; reflexivity. }
  assert (V3 : nv h3 = nv h) by (unfold h3; rewrite nv_ue; unfold h2; rewrite nv_ue; apply nv_mke).
  assert (F3 : nf h3 = nf h) by (unfold h3; rewrite nf_ue; unfold h2; rewrite nf_ue; apply nf_mke).
  rewrite (end_of_ok h3 e b).
  2: lia.
  2:{ unfold en. rewrite E3, Nat.eqb_refl. exact Eb. }
  cbn [bind]. rewrite make_edge_ok by lia. cbn [bind]. rewrite M3. set (h4 := mke h3 b None).
  assert (M4 : ne h4 = S (S (ne h))) by (unfold h4; rewrite ne_mke; lia).
  unfold make_edge_at, make_vertex.
  change (mkh (h_e h4) (h_v h4 ++ [mkhv c None]) (h_f h4)) with (av h4 c).
  change (length (h_v h4)) with (nv h4).
  assert (V4 : nv h4 = nv h) by (unfold h4; rewrite nv_mke; lia).
  rewrite make_edge_ok by (rewrite nv_av; lia). cbn [bind]. rewrite V4, ne_av, M4.
  set (h5 := mke (av h4 c) (nv h) None).
  assert (M5 : ne h5 = ne h + 3) by (unfold h5; rewrite ne_mke, ne_av; lia).
  assert (V5 : nv h5 = S (nv h)) by (unfold h5; rewrite nv_mke, nv_av; lia).
  assert (N5 : nf h5 = nf h) by (unfold h5; rewrite nf_mke, nf_av; unfold h4; rewrite nf_mke; lia).
  assert (E5 : forall x, E h5 x = if x =? ne h + 2 then newe (nv h) None else if x =? ne h + 1 then newe b None else E h3 x).
  { intros x. unfold h5. rewrite E_mke, ne_av, E_av. unfold h4. rewrite ne_mke, E_mke. eqbs; reflexivity. }
  set (es := [S (ne h); ne h; S (S (ne h))]).
  destruct (make_face_ok h5 es) as (h' & A0 & A1 & A2 & A3 & A4 & A5 & A6).
  { unfold es. repeat constructor; cbn; lia. } { cbn; lia. }
  { intros x. cbn. lia. }
  rewrite N5 in *. exists h', a, b. split; [auto|]. split; [auto|].
  split; [exact A0|]. split; [lia|]. split; [unfold nv in *; now rewrite A1|]. split; [auto|].
  assert (EO : forall x, x < ne h -> x <> e -> E h' x = E h x).
  { intros x Bx Nx. rewrite A6 by (cbn; lia). rewrite E5, E3. eqbs; try reflexivity. }
  assert (Ee : E h' e = wopp (E h e) (Some (ne h))).
  { rewrite A6 by (cbn; lia). rewrite E5, E3. eqbs; try reflexivity. }
  assert (En1 : E h' (ne h + 1) = mkhe (Some b) (Some (nf h)) (Some (ne h)) (Some (ne h + 2)) None).
  { replace (ne h + 1) with (nth 0 es 0) by (cbn; lia). rewrite A5 by (cbn; lia). unfold lp, en, op, cyc. cbn.
    rewrite !E5. replace (S (S (ne h))) with (ne h + 2) by lia. eqbs; reflexivity. }
  assert (En0 : E h' (ne h) = mkhe (Some a) (Some (nf h)) (Some (ne h + 2)) (Some (ne h + 1)) (Some e)).
  { replace (ne h) with (nth 1 es 0) at 1 by (cbn; lia). rewrite A5 by (cbn; lia). unfold lp, en, op, cyc. cbn.
    rewrite !E5, !E3. replace (S (S (ne h))) with (ne h + 2) by lia. replace (S (ne h)) with (ne h + 1) by lia. eqbs; reflexivity. }
  assert (En2 : E h' (ne h + 2) = mkhe (Some (nv h)) (Some (nf h)) (Some (ne h + 1)) (Some (ne h)) None).
  { replace (ne h + 2) with (nth 2 es 0) by (cbn; lia). rewrite A5 by (cbn; lia). unfold lp, en, op, cyc. cbn.
    rewrite !E5. replace (S (ne h)) with (ne h + 1) by lia. eqbs; reflexivity. }
  assert (FL : floop h' (nf h) [ne h + 1; ne h; ne h + 2]).
  { replace [ne h + 1; ne h; ne h + 2] with es by (unfold es; repeat f_equal; lia). rewrite <- N5.
    apply (make_face_floop h5 es h').
    - unfold es. repeat constructor; cbn; lia.
    - cbn; lia.
    - intros x Hx. cbn in Hx. split; [lia|]. unfold en. rewrite E5, E3.
      destruct Hx as [<-|[<-|[<-|[]]]]; eqbs; cbn; eexists; (split; [reflexivity|]); lia.
    - now rewrite N5. }
  assert (FO : forall f, f < nf h -> F h' f = F h f).
  { intros f Hf. rewrite A4. eqbs. unfold h5. rewrite F_mke, F_av. unfold h4. rewrite F_mke. unfold h3. rewrite F_ue. unfold h2. rewrite F_ue. apply F_mke. }
  split; [exact EO|]. split; [exact Ee|]. split; [exact FL|].
  split; [unfold en; now rewrite En1|]. split; [unfold en; now rewrite En0|]. split; [unfold en; now rewrite En2|].
  split; [unfold op; now rewrite En1|]. split; [unfold op; now rewrite En0|]. split; [unfold op; now rewrite En2|].
  split; [exact FO|].
  assert (VC : forall v, vco h' v = if v =? nv h then Some c else vco h v).
  { intros v. unfold vco in *. rewrite A1. fold (vco h5 v). unfold h5. rewrite vco_mke, vco_av, V4.
    eqbs; try reflexivity. unfold h4. rewrite vco_mke. unfold h3. rewrite vco_ue. unfold h2. rewrite vco_ue. apply vco_mke. }
  split; [intros v Hv; rewrite VC; eqbs; reflexivity|]. split; [rewrite VC, Nat.eqb_refl; reflexivity|].
  assert (VE3 : forall v, v < nv h -> ve h v <> None -> ve h3 v = ve h v).
  { intros v Hv Nv. unfold h3. rewrite ve_ue. unfold h2. rewrite ve_ue. unfold h1. rewrite ve_mke by auto.
    destruct (Nat.eqb_spec v a) as [->|]; auto. destruct (ve h a); congruence. }
  assert (VE5 : forall v, ve h' v = ve h5 v) by (intros v; unfold ve; now rewrite A1).
  split.
  { intros v Hv Nv. rewrite VE5. unfold h5. rewrite ve_mke by (rewrite nv_av; lia).
    eqbs. rewrite ve_av. unfold h4. rewrite ve_mke by lia. rewrite <- VE3 in Nv |- * by auto.
    destruct (Nat.eqb_spec v b) as [->|]; auto. destruct (ve h3 b); congruence. }
  split.
  { rewrite VE5. unfold h5. rewrite ve_mke by (rewrite nv_av; lia). rewrite Nat.eqb_refl, ve_av, ne_av, M4.
    replace (ve h4 (nv h)) with (@None nat); [f_equal; lia|]. symmetry. unfold ve.
    rewrite (proj2 (nth_error_None (h_v h4) (nv h))); auto. unfold nv in *; lia. }
  apply (minv_build h h' fs fs [nf h] (fun _ => [ne h + 1; ne h; ne h + 2])); auto.
  - intros x; auto.
  - apply NoDup_snoc; [apply H|apply minv_fresh; auto].
  - lia.
  - unfold nv in *. rewrite A1. lia.
  - lia.
  - intros f If. apply FO. now apply (minv_lt _ _ _ H).
  - intros x Lx. pose proof (Live_lt _ _ _ H Lx) as Bx. unfold en, fc, nx, pv.
    destruct (Nat.eq_dec x e) as [->|Nx]; [rewrite Ee; auto|rewrite EO by auto; auto].
  - intros f [<-|[]]. exact FL.
  - assert (SO : forall x, Live h fs x -> st h' x = st h x /\ en h' x = en h x).
    { intros x Lx. destruct (Live_e _ _ _ HL Lx) as (Bx & _ & _ & _ & (q & Pq & Lq & _) & _).
      pose proof (Live_lt _ _ _ H Lq) as Bq. unfold st, pv, en in *. split.
      - replace (he_prev (E h' x)) with (he_prev (E h x)).
        2:{ destruct (Nat.eq_dec x e) as [->|Nx]; [rewrite Ee; auto|rewrite EO by auto; auto]. }
        rewrite Pq. destruct (Nat.eq_dec q e) as [->|Nx]; [rewrite Ee; auto|rewrite EO by auto; auto].
      - destruct (Nat.eq_dec x e) as [->|Nx]; [rewrite Ee; auto|rewrite EO by auto; auto]. }
    intros x y Lx Hy. pose proof (Live_lt _ _ _ H Lx) as Bx. destruct (Nat.eq_dec x e) as [->|Nx].
    + unfold op in Hy. rewrite Ee in Hy. cbn in Hy. injection Hy as <-. split; [right; exists (nf h); cbn; auto|].
      split; [lia|]. split; [unfold op; now rewrite En0|]. unfold rev_pair. destruct (SO e Le) as [-> ->].
      rewrite Sa, Eb. unfold st, pv, en. rewrite En0. cbn. now rewrite En1.
    + unfold op in Hy. rewrite EO in Hy by auto.
      destruct (minv_pair _ _ _ _ H Lx Hy) as (A & B & D & G1 & G2).
      split; [auto|]. split; [auto|]. unfold rev_pair. destruct (SO x Lx) as [-> ->]. destruct (SO y A) as [-> ->].
      split; [|auto]. destruct (Nat.eq_dec y e) as [->|Ny]; [congruence|].
      unfold op. rewrite EO; auto. now apply (Live_lt _ _ _ H).
  - intros g x y [<-|[]] [<-|[<-|[<-|[]]]] Hy; unfold op in Hy; rewrite ?En0, ?En1, ?En2 in Hy; cbn in Hy; try discriminate.
    injection Hy as <-. split; [auto|]. split; [lia|]. split; [unfold op; now rewrite Ee|].
    assert (S0 : st h' (ne h) = Some b) by (unfold st, pv, en; rewrite En0; cbn; now rewrite En1).
    assert (e0 : en h' (ne h) = Some a) by (unfold en; now rewrite En0).
    unfold rev_pair. rewrite S0, e0. split.
    + unfold en. rewrite Ee. exact Eb.
    + rewrite <- Sa. unfold st, pv. rewrite Ee. cbn. unfold pv in Pp. rewrite Pp. unfold en.
      destruct (Nat.eq_dec p e) as [->|Nx]; [rewrite Ee; auto|rewrite EO by auto; auto].
Qed.
End Mesh.
