(** Proofs about the further quality measures. *)
From Coq Require Import Reals List Arith Bool Lia Lra.
From Verif Require Import Model_Base Model_Vec Model_Knots Model_Mesh Model_Geom Model_Tess Model_Refine Model_Quality
  Spec_Base Spec_Build Spec_Motion Spec_Mesh Spec_MeshEdit Spec_Geom Spec_Tess Spec_Refine Spec_Quality
  Proof_Base Proof_Build Proof_Mesh Proof_Mesh3 Proof_Tess Proof_Tess2 Proof_Tess5 Proof_Tess6 Proof_Geom2 Proof_PropTess Proof_PropTess2 Proof_Ellip Proof_TessRefine2 Proof_PropTessRefine.
Import ListNotations.
Local Open Scope R_scope.

Section AtR.
Variable eps : R.
Local Hint Extern 0 (Num R) => exact (NumR eps) : typeclass_instances.

(** What a measure sees of a half-edge. *)
Definition vw (h : plane) (e : nat) : bool * (R * R) * (R * R) := (match op h e with Some _ => true | None => false end, sc h e, ec h e).

Lemma view_local (q : measure) F : (forall h f e1 e2 e3, floop h f [e1; e2; e3] -> q h f = F (map (vw h) [e1; e2; e3])) -> local eps q.
Proof.
  intros HF h fs xy h' fs' r f TM E If If'. apply tri_mesh_iff in TM. destruct (kept_view eps h fs xy h' fs' r f TM E If If') as (L & L' & V).
  destruct TM as (_ & HT). destruct (HT f If) as (e1 & e2 & e3 & Q & _). rewrite Q in L, L'. rewrite (HF h f e1 e2 e3 L), (HF h' f e1 e2 e3 L'). f_equal.
  apply map_ext_in. intros e Ie. rewrite <- Q in Ie. destruct (V e Ie) as (A & B & D). unfold vw. rewrite A, B, D. reflexivity.
Qed.
Lemma vw_inner (h : plane) fs f e A B : tmesh h fs -> In f fs -> In e (Lf h f) -> inner_edge h e A B -> vw h e = (true, A, B).
Proof. intros TM If Ie IE. destruct (inner_op h fs f e A B TM If Ie IE) as (O & -> & ->). unfold vw. destruct (op h e); congruence. Qed.
Lemma vw_case (h : plane) fs f e b A B : tmesh h fs -> In f fs -> In e (Lf h f) -> vw h e = (b, A, B) -> b = true -> inner_edge h e A B.
Proof.
  intros TM If Ie E ->. unfold vw in E. destruct (op h e) eqn:O; [|discriminate]. injection E as <- <-. apply (op_inner h fs f); auto. congruence.
Qed.

(** ** The worst of the inner edges *)
Definition edge_val (m : R * R -> R * R -> R) (x : bool * (R * R) * (R * R)) : R * (R * R) :=
  let '(b, A, B) := x in if b then (m A B, middle_of A B) else (0, (0, 0)).
Lemma sqnorm_sq dim (p q : pt R) : sq_norm dim (psub p q) = sqdist dim p q.
Proof. rewrite sq_norm_R. reflexivity. Qed.

Lemma surf_size_ok dim S (h : plane) f l : floop h f l ->
  MaxEdgeSizeSurface dim (fun x => Ok (S x)) h f = worst_pair (map (edge_val (fun A B => sqdist dim (S B) (S A))) (map (vw h) l)).
Proof.
  intros L. unfold MaxEdgeSizeSurface. rewrite (iter_edges_ok h f l L). cbn [bind]. rewrite map_map.
  rewrite (mapM_ok _ (fun e => edge_val (fun A B => sqdist dim (S B) (S A)) (vw h e))); [reflexivity|].
  intros e Ie. pose proof (floop_in _ _ _ _ L Ie) as (A & _). rewrite get_e_ok by auto. cbn [bind]. unfold vw, edge_val. change (he_opp (E h e)) with (op h e).
  destruct (op h e); [|reflexivity]. unfold edge_midpoint. rewrite (floop_sc _ _ _ _ L Ie), (floop_ec _ _ _ _ L Ie). cbn [bind].
  rewrite sqnorm_sq. apply f_equal. f_equal. unfold middle_of, half. cbn. f_equal; lra.
Qed.
Lemma sqdist_nonneg dim (a b : vec) : 0 <= sqdist dim a b.
Proof. apply sqlen_nonneg. Qed.
Lemma sqdist_sym dim (a b : vec) : sqdist dim a b = sqdist dim b a.
Proof. unfold sqdist. induction dim as [|m IH]; cbn [sqlen]; [reflexivity|]. rewrite IH. ring. Qed.

Lemma surf_size_prop dim S (h : plane) fs f l : tri_mesh h fs -> In f fs -> face_loop h f l ->
  exists v p, MaxEdgeSizeSurface dim (fun x => Ok (S x)) h f = Ok (v, p) /\
  (forall e A B, In e l -> inner_edge h e A B -> sqdist dim (S A) (S B) <= v) /\
  ((exists e A B, In e l /\ inner_edge h e A B /\ v = sqdist dim (S A) (S B) /\ p = middle_of A B) \/
   ((forall e A B, In e l -> inner_edge h e A B -> sqdist dim (S A) (S B) = 0) /\ v = 0 /\ p = (0, 0))).
Proof.
  intros TM If FL. apply tri_mesh_iff in TM. pose proof (loop_Lf h fs f l TM If FL) as ->. clear FL. pose proof (tm_L _ _ _ TM If) as L.
  rewrite (surf_size_ok dim S h f _ L). rewrite map_map. set (g := fun e => edge_val (fun A B => sqdist dim (S B) (S A)) (vw h e)).
  destruct (worst_pair_ok eps (map g (Lf h f))) as ([v p] & -> & I & W & _).
  { pose proof L as (H1 & _). destruct (Lf h f); [cbn in H1; lia|discriminate]. }
  assert (UB : forall e A B, In e (Lf h f) -> inner_edge h e A B -> sqdist dim (S A) (S B) <= v).
  { intros e A B Ie IE. pose proof (W (g e) (in_map _ _ _ Ie)) as X. unfold g in X. rewrite (vw_inner h fs f e A B TM If Ie IE) in X. cbn in X. rewrite sqdist_sym. exact X. }
  exists v, p. split; [reflexivity|]. split; [exact UB|].
  apply in_map_iff in I as (e & Q & Ie). unfold g in Q. destruct (vw h e) as [[b A] B] eqn:V. cbn [edge_val] in Q. destruct b; injection Q as <- <-.
  - left. exists e, A, B. split; [auto|]. split; [apply (vw_case h fs f e true A B); auto|]. split; [apply sqdist_sym|reflexivity].
  - right. split; [|auto]. intros e' A' B' Ie' IE'. pose proof (UB e' A' B' Ie' IE'). pose proof (sqdist_nonneg dim (S A') (S B')). lra.
Qed.

(** ** Distance to the surface *)
Lemma norm_dist dim (p q : pt R) (a b : vec) : (forall i, (i < dim)%nat -> p i - q i = a i - b i) -> norm sqrt dim (psub p q) = sqrt (sqdist dim a b).
Proof. intros Hpq. unfold norm. rewrite sqnorm_sq. f_equal. apply sqlen_ext. exact Hpq. Qed.
Lemma distance3_ok dim S (h : plane) f e1 e2 e3 : floop h f [e1; e2; e3] ->
  DistanceMeshSurface3 sqrt dim (fun x => Ok (S x)) h f =
  worst_pair (map (edge_val (chord_gap dim S)) (map (vw h) [e1; e2; e3]) ++
    [(centre_gap dim S (ec h e1) (ec h e2) (ec h e3), centre (ec h e1) (ec h e2) (ec h e3))]).
Proof.
  intros L. unfold DistanceMeshSurface3, getFaceCoords. rewrite (getFaceEdges_ok _ _ _ L). cbn [bind].
  rewrite (mapM_ok (end_coords h) (ec h)) by (intros x Ix; now apply (floop_ec h f [e1; e2; e3])). cbn [bind].
  cbn [length map]. rewrite (divc_good eps) by (cbn; lra). cbn [bind foldM].
  match goal with |- context [times2 ?x (fold_left ?p ?l ?z)] =>
    assert (MC : times2 x (fold_left p l z) = centre (ec h e1) (ec h e2) (ec h e3)) by (unfold times2, plus2, centre; cbn; f_equal; field) end.
  rewrite MC. rewrite (mapM_ok _ (fun e => edge_val (chord_gap dim S) (vw h e))).
  - cbn [bind]. cbn [map app]. do 5 f_equal. apply f_equal2; [|reflexivity].
    apply norm_dist. intros i Hi. unfold centre_of. cbn. field.
  - intros e Ie. pose proof (floop_in _ _ _ _ L Ie) as (A & _). rewrite get_e_ok by auto. cbn [bind]. unfold vw, edge_val. change (he_opp (E h e)) with (op h e).
    destruct (op h e); [|reflexivity]. rewrite (floop_sc _ _ _ _ L Ie), (floop_ec _ _ _ _ L Ie). cbn [bind].
    assert (MM : plus2 (sc h e) (times2 half (nsub (fst (ec h e)) (fst (sc h e)), nsub (snd (ec h e)) (snd (sc h e)))) = middle_of (sc h e) (ec h e))
      by (unfold plus2, times2, middle_of, half; cbn; f_equal; lra).
    rewrite MM. apply f_equal. apply f_equal2; [|reflexivity]. apply norm_dist. intros i Hi. unfold half. cbn. lra.
Qed.
Lemma chord_nonneg dim S A B : 0 <= chord_gap dim S A B.
Proof. apply sqrt_pos. Qed.
Lemma distance3_prop dim S (h : plane) fs f l A B D : tri_mesh h fs -> In f fs -> face_loop h f l -> corners h f A B D ->
  exists v p, DistanceMeshSurface3 sqrt dim (fun x => Ok (S x)) h f = Ok (v, p) /\
  (forall e P Q, In e l -> inner_edge h e P Q -> chord_gap dim S P Q <= v) /\ centre_gap dim S A B D <= v /\
  ((exists e P Q, In e l /\ inner_edge h e P Q /\ v = chord_gap dim S P Q /\ p = middle_of P Q) \/
   (v = centre_gap dim S A B D /\ p = centre A B D) \/ (v = 0 /\ p = (0, 0))).
Proof.
  intros TM If FL HC. apply tri_mesh_iff in TM. pose proof (loop_Lf h fs f l TM If FL) as ->. clear FL.
  apply corners_inv in HC as (e1 & e2 & e3 & L & Q & -> & -> & ->). pose proof L as L3. rewrite Q in L3. rewrite (distance3_ok dim S h f e1 e2 e3 L3).
  rewrite map_map. rewrite <- Q. set (g := fun e => edge_val (chord_gap dim S) (vw h e)). set (c := (centre_gap dim S _ _ _, _)).
  destruct (worst_pair_ok eps (map g (Lf h f) ++ [c])) as ([v p] & -> & I & W & _). { destruct (map g (Lf h f)); discriminate. }
  exists v, p. split; [reflexivity|]. split.
  { intros e P R Ie IE. pose proof (W (g e) (in_or_app _ _ _ (or_introl (in_map _ _ _ Ie)))) as X. unfold g in X. rewrite (vw_inner h fs f e P R TM If Ie IE) in X. exact X. }
  split. { apply (W c). apply in_or_app. right. now left. }
  apply in_app_or in I as [I|[I|[]]].
  - apply in_map_iff in I as (e & X & Ie). unfold g in X. destruct (vw h e) as [[b P] R] eqn:V. cbn [edge_val] in X. destruct b; injection X as <- <-; [|auto].
    left. exists e, P, R. split; [auto|]. split; [apply (vw_case h fs f e true P R); auto|auto].
  - right. left. unfold c in I. injection I as <- <-. auto.
Qed.

(** ** Shape *)
Lemma getTriangleCoords_ok (h : plane) f e1 e2 e3 : floop h f [e1; e2; e3] -> getTriangleCoords h f = Ok (ec h e2, ec h e1, ec h e3).
Proof.
  intros L. destruct (tri_facts _ _ _ _ _ L) as (A & B & B1 & B2 & B3 & N1 & N2 & N3 & P1 & _). unfold getTriangleCoords.
  rewrite get_f_ok by auto. cbn [bind]. rewrite B. cbn [deref bind]. rewrite (next_of_ok _ _ _ B1 N1). cbn [bind].
  rewrite !(floop_ec _ _ _ _ L) by (cbn; auto). cbn [bind]. rewrite (prev_of_ok _ _ _ B1 P1). cbn [bind]. rewrite (floop_ec _ _ _ _ L) by (cbn; auto). reflexivity.
Qed.
Lemma centroid_ok A B D : centroid A B D = Ok (centre A B D).
Proof. unfold centroid. rewrite (divc_good eps) by (unfold three; cbn; lra). cbn [bind]. apply f_equal. unfold times2, plus2, centre, three. cbn. f_equal; field. Qed.
Lemma least3 x y z : least_of [x; y; z] = Ok (Rmin x (Rmin y z)).
Proof. cbn [least_of fold_left]. apply f_equal. nsimp. unfold Rmin. destruct (Rltb_spec y x); destruct (Rle_dec y z); repeat match goal with |- context [Rltb ?a ?b] => destruct (Rltb_spec a b) | |- context [Rle_dec ?a ?b] => destruct (Rle_dec a b) end; lra. Qed.
Lemma largest3 x y z : largest_of [x; y; z] = Ok (Rmax x (Rmax y z)).
Proof. cbn [largest_of fold_left]. apply f_equal. nsimp. unfold Rmax. destruct (Rltb_spec y x); destruct (Rle_dec y z); repeat match goal with |- context [Rltb ?a ?b] => destruct (Rltb_spec a b) | |- context [Rle_dec ?a ?b] => destruct (Rle_dec a b) end; lra. Qed.
Lemma sqrt_max x y : sqrt (Rmax x y) = Rmax (sqrt x) (sqrt y).
Proof.
  unfold Rmax at 1. destruct (Rle_dec x y) as [H|H].
  - rewrite Rmax_right; auto. apply sqrt_le_1_alt; auto.
  - rewrite Rmax_left; auto. apply sqrt_le_1_alt; lra.
Qed.
Lemma sqrt_min x y : sqrt (Rmin x y) = Rmin (sqrt x) (sqrt y).
Proof.
  unfold Rmin at 1. destruct (Rle_dec x y) as [H|H].
  - rewrite Rmin_left; auto. apply sqrt_le_1_alt; auto.
  - rewrite Rmin_right; auto. apply sqrt_le_1_alt; lra.
Qed.
Lemma shape_view lowest m (h : plane) f e1 e2 e3 : floop h f [e1; e2; e3] ->
  TriangleShape sqrt lowest m h f =
  (let A := ec h e1 in let B := ec h e2 in let D := ec h e3 in
   let mx := Rmax (sq_dist D A) (Rmax (sq_dist A B) (sq_dist B D)) in
   let mn := Rmin (sq_dist D A) (Rmin (sq_dist A B) (sq_dist B D)) in
   if Rltb (sqrt mx) m then Ok (lowest, centre B A D) else let* q := divc mx mn in Ok (sqrt q, centre B A D)).
Proof.
  intros L. unfold TriangleShape. rewrite (iter_edges_ok h f _ L). cbn [bind].
  rewrite (mapM_ok (edge_sq_length h) (fun e => sq_dist (sc h e) (ec h e))).
  2:{ intros e Ie. unfold edge_sq_length. rewrite (floop_sc _ _ _ _ L Ie), (floop_ec _ _ _ _ L Ie). reflexivity. }
  cbn [bind map]. rewrite least3. cbn [bind]. rewrite largest3. cbn [bind]. rewrite (getTriangleCoords_ok h f e1 e2 e3 L). cbn [bind].
  rewrite centroid_ok. cbn [bind]. destruct (tri_st _ _ _ _ _ L) as (-> & -> & ->). reflexivity.
Qed.
Lemma shape_prop lowest m (h : plane) fs f A B D : tri_mesh h fs -> In f fs -> corners h f A B D ->
  exists v, TriangleShape sqrt lowest m h f = Ok (v, centre A B D) /\ 0 < shortest A B D /\
    (longest A B D < m -> v = lowest) /\ (m <= longest A B D -> v = longest A B D / shortest A B D).
Proof.
  intros TM If HC. pose proof TM as TM'. apply tri_mesh_iff in TM'.
  apply corners_inv in HC as (e1 & e2 & e3 & L & Q & -> & -> & ->). rewrite Q in L. rewrite (shape_view lowest m h f e1 e2 e3 L). cbv zeta.
  set (A := ec h e1). set (B := ec h e2). set (D := ec h e3).
  assert (E : centre B A D = centre A B D) by (unfold centre; f_equal; lra). rewrite E.
  destruct (tri_st _ _ _ _ _ L) as (T1 & T2 & T3).
  assert (P1 : 0 < sq_dist D A). { unfold D, A. rewrite <- T1. apply sq_dist_pos. apply (tri_ends h fs f); auto. rewrite Q. cbn; auto. }
  assert (P2 : 0 < sq_dist A B). { unfold A, B. rewrite <- T2. apply sq_dist_pos. apply (tri_ends h fs f); auto. rewrite Q. cbn; auto. }
  assert (P3 : 0 < sq_dist B D). { unfold B, D. rewrite <- T3. apply sq_dist_pos. apply (tri_ends h fs f); auto. rewrite Q. cbn; auto. }
  set (mx := Rmax (sq_dist D A) (Rmax (sq_dist A B) (sq_dist B D))). set (mn := Rmin (sq_dist D A) (Rmin (sq_dist A B) (sq_dist B D))).
  assert (Pn : 0 < mn) by (unfold mn; repeat apply Rmin_glb_lt; auto).
  assert (Px : 0 < mx) by (unfold mx; eapply Rlt_le_trans; [exact P1|apply Rmax_l]).
  assert (Sx : sqrt mx = longest A B D). { unfold mx, longest, side. rewrite !sqrt_max. rewrite Rmax_comm. rewrite Rmax_assoc. reflexivity. }
  assert (Sn : sqrt mn = shortest A B D). { unfold mn, shortest, side. rewrite !sqrt_min. rewrite Rmin_comm. rewrite Rmin_assoc. reflexivity. }
  assert (Hs : 0 < shortest A B D) by (rewrite <- Sn; apply sqrt_lt_R0; exact Pn).
  rewrite Sx. destruct (Rltb_spec (longest A B D) m) as [Hm|Hm].
  - eexists. split; [reflexivity|]. split; [exact Hs|]. split; [auto|intros; lra].
  - rewrite (divc_good eps) by lra. cbn [bind]. eexists. split; [reflexivity|]. split; [exact Hs|]. split; [intros; lra|]. intros _.
    rewrite <- Sx, <- Sn. apply sqrt_div; lra.
Qed.
Lemma shape_one A B D : 0 < shortest A B D -> 1 <= longest A B D / shortest A B D /\
  (longest A B D / shortest A B D = 1 <-> side A B = side B D /\ side B D = side D A).
Proof.
  intros H. assert (X : shortest A B D <= side A B /\ shortest A B D <= side B D /\ shortest A B D <= side D A /\ side A B <= longest A B D /\ side B D <= longest A B D /\ side D A <= longest A B D).
  { unfold shortest, longest. repeat split.
    - apply Rmin_l.
    - eapply Rle_trans; [apply Rmin_r|apply Rmin_l].
    - eapply Rle_trans; [apply Rmin_r|apply Rmin_r].
    - apply Rmax_l.
    - eapply Rle_trans; [apply Rmax_l|apply Rmax_r].
    - eapply Rle_trans; [apply Rmax_r|apply Rmax_r]. }
  destruct X as (X1 & X2 & X3 & X4 & X5 & X6). split.
  - apply Rmult_le_reg_r with (shortest A B D); [exact H|]. unfold Rdiv. rewrite Rmult_assoc, Rinv_l by lra. lra.
  - split; intros E.
    + assert (longest A B D = shortest A B D). { apply Rmult_eq_reg_r with (/ shortest A B D); [|apply Rinv_neq_0_compat; lra]. rewrite Rinv_r by lra. exact E. } lra.
    + destruct E as (E1 & E2). assert (Z : longest A B D = shortest A B D).
      { unfold longest, shortest. rewrite E1, E2. generalize (side D A). intros t. rewrite (Rmax_left t t) by lra. rewrite (Rmax_left t t) by lra. rewrite (Rmin_left t t) by lra. rewrite (Rmin_left t t) by lra. reflexivity. }
      rewrite Z. apply Rinv_r. lra.
Qed.

(** ** Locality *)
Lemma quality_local dim S : (defined (MaxEdgeSizeSurface dim (fun x => Ok (S x))) /\ local eps (MaxEdgeSizeSurface dim (fun x => Ok (S x)))) /\
  (defined (DistanceMeshSurface3 sqrt dim (fun x => Ok (S x))) /\ local eps (DistanceMeshSurface3 sqrt dim (fun x => Ok (S x)))) /\
  forall lowest m, defined (TriangleShape sqrt lowest m) /\ local eps (TriangleShape sqrt lowest m).
Proof.
  split; [split|split; [split|intros lowest m; split]].
  - intros h fs f TM If. pose proof TM as TM'. apply tri_mesh_iff in TM'. destruct (surf_size_prop dim S h fs f (Lf h f) TM If) as (v & p & E & _); eauto.
    apply face_loop_iff. now apply (tm_L _ fs).
  - apply (view_local _ (fun l => worst_pair (map (edge_val (fun A B => sqdist dim (S B) (S A))) l))). intros. apply surf_size_ok. assumption.
  - intros h fs f TM If. pose proof TM as (_ & HT). destruct (HT f If) as (A & B & D & HC & _). pose proof TM as TM'. apply tri_mesh_iff in TM'.
    destruct (distance3_prop dim S h fs f (Lf h f) A B D TM If) as (v & p & E & _); eauto. apply face_loop_iff. now apply (tm_L _ fs).
  - apply (view_local _ (fun l => match l with [(_, _, A); (_, _, B); (_, _, D)] =>
      worst_pair (map (edge_val (chord_gap dim S)) l ++ [(centre_gap dim S A B D, centre A B D)]) | _ => Fuel end)).
    intros h f e1 e2 e3 L. rewrite (distance3_ok dim S h f e1 e2 e3 L). reflexivity.
  - intros h fs f TM If. pose proof TM as (_ & HT). destruct (HT f If) as (A & B & D & HC & _). destruct (shape_prop lowest m h fs f A B D TM If HC) as (v & E & _); eauto.
  - eapply (view_local _ (fun l => match l with [(_, _, A); (_, _, B); (_, _, D)] => _ | _ => Fuel end)).
    intros h f e1 e2 e3 L. rewrite (shape_view lowest m h f e1 e2 e3 L). cbn [map vw].
    instantiate (1 := (let mx := Rmax (sq_dist D A) (Rmax (sq_dist A B) (sq_dist B D)) in
      let mn := Rmin (sq_dist D A) (Rmin (sq_dist A B) (sq_dist B D)) in
      if Rltb (sqrt mx) m then Ok (lowest, centre B A D) else let* q := divc mx mn in Ok (sqrt q, centre B A D))). reflexivity.
Qed.

(** ** TriangleShape2 *)
Definition big (s : R) : plane := box (s, 0) (0, s) (0, 0) (s, s).
Lemma big_tri s : 0 < s -> tri_mesh (big s) [0; 1]%nat /\ corners (big s) 0 (s, 0) (0, s) (0, 0).
Proof.
  intros Hs. assert (TM : tmesh (big s) [0; 1]%nat) by (apply box_tmesh; lra). split; [apply tri_mesh_iff; exact TM|].
  apply (corners_of (big s) 0 0 1 2); [apply (tm_L _ [0; 1]%nat _ TM); cbn; auto|reflexivity].
Qed.
Lemma larger_ok (x y : R) : larger x y = Rmax x y.
Proof. unfold larger. nsimp. unfold Rmax. destruct (Rltb_spec x y); destruct (Rle_dec x y); lra. Qed.
Lemma shape2_value s : 0 < s -> TriangleShape2 sqrt (big s) 0%nat = Ok (Rmax (Rabs (sqrt 3 / 2 - s * s)) (sqrt 3 / 2), centre (s, 0) (0, s) (0, 0)).
Proof.
  intros Hs. destruct (big_tri s Hs) as (TM & _). apply tri_mesh_iff in TM. pose proof (tm_L _ _ 0%nat TM (or_introl eq_refl)) as L.
  change (Lf (big s) 0) with [0; 1; 2]%nat in L. unfold TriangleShape2. rewrite (getTriangleCoords_ok _ _ _ _ _ L). cbn [bind]. rewrite centroid_ok. cbn [bind].
  change (ec (big s) 0) with (s, 0). change (ec (big s) 1) with (0, s). change (ec (big s) 2) with (0, 0).
  apply f_equal. f_equal; [|unfold centre; cbn [fst snd]; f_equal; lra].
  rewrite !larger_ok. unfold sin60_gap, three. cbn [fst snd]. nsimp.
  rewrite !(nabs_R eps).
  replace (sqrt (1 + 1 + 1) * half) with (sqrt 3 / 2) by (replace (1 + 1 + 1) with 3 by lra; unfold half; cbn; lra).
  replace ((s - 0) * (0 - 0) + (0 - s) * (0 - s)) with (s * s) by ring. replace ((0 - s) * (0 - s) + (s - 0) * (0 - 0)) with (s * s) by ring.
  replace ((s - 0) * (0 - 0) + (0 - 0) * (s - 0)) with 0 by ring.
  rewrite (Rabs_right (s * s)) by nra. rewrite Rabs_R0, Rminus_0_r. pose proof (sqrt_lt_R0 3 ltac:(lra)). rewrite (Rabs_right (sqrt 3 / 2)) by lra.
  unfold Rmax. repeat destruct (Rle_dec _ _); lra.
Qed.
Lemma shape2_bad : exists (v w : R) p q,
  TriangleShape2 sqrt (big 1) 0%nat = Ok (v, p) /\ TriangleShape2 sqrt (big 2) 0%nat = Ok (w, q) /\ v < w.
Proof.
  assert (H0 : 0 < sqrt 3) by (apply sqrt_lt_R0; lra). assert (H2 : sqrt 3 < 2). { rewrite <- (sqrt_square 2) by lra. apply sqrt_lt_1_alt. lra. }
  assert (H1 : 1 < sqrt 3). { rewrite <- sqrt_1 at 1. apply sqrt_lt_1_alt. lra. }
  do 4 eexists. split; [apply shape2_value; lra|]. split; [apply shape2_value; lra|].
  rewrite Rmax_right by (unfold Rabs; destruct (Rcase_abs _); lra). rewrite Rmax_left; unfold Rabs; destruct (Rcase_abs _); lra.
Qed.
Lemma shape2_refuted : exists (h h' : plane) fs v w p q,
  tri_mesh h fs /\ tri_mesh h' fs /\ In 0%nat fs /\
  corners h 0 (1, 0) (0, 1) (0, 0) /\ corners h' 0 (2, 0) (0, 2) (0, 0) /\
  TriangleShape2 sqrt h 0%nat = Ok (v, p) /\ TriangleShape2 sqrt h' 0%nat = Ok (w, q) /\ v < w.
Proof.
  destruct shape2_bad as (v & w & p & q & E1 & E2 & H). destruct (big_tri 1) as (T1 & C1); [lra|]. destruct (big_tri 2) as (T2 & C2); [lra|].
  exists (big 1), (big 2), [0; 1]%nat, v, w, p, q. repeat (split; [first [assumption | cbn; auto]|]). exact H.
Qed.
End AtR.
Lemma quality_nonvacuous : exists (h : plane) fs l, tri_mesh h fs /\ In 0%nat fs /\ face_loop h 0 l /\
  corners h 0 (1, 0) (0, 1) (0, 0) /\ (exists e, In e l /\ inner_edge h e (1, 0) (0, 1)) /\ 0 < shortest (1, 0) (0, 1) (0, 0).
Proof.
  exists square, [0; 1]%nat, (Lf square 0). destruct square_tri as (TM & _). split; [exact TM|]. split; [cbn; auto|].
  split. { apply face_loop_iff. apply (tm_L _ [0; 1]%nat); [apply square_tmesh|cbn; auto]. }
  split; [apply square_corners|]. split. { exists 1%nat. split; [vm_compute; auto|]. apply square_inner. }
  unfold shortest, side. repeat apply Rmin_glb_lt; apply sqrt_lt_R0; unfold sq_dist; cbn; lra.
Qed.
