(** Proofs about the measures that compare normals and tangents. *)
From Coq Require Import Reals List Arith Bool Lia Lra.
From Verif Require Import Model_Base Model_Vec Model_Knots Model_Mesh Model_Geom Model_Tess Model_Refine Model_Quality
  Spec_Base Spec_Build Spec_Motion Spec_Mesh Spec_MeshEdit Spec_Geom Spec_Tess Spec_Refine Spec_Quality
  Proof_Base Proof_Build Proof_Motion Proof_Mesh Proof_Mesh3 Proof_Tess Proof_Tess2 Proof_Tess5 Proof_Tess6 Proof_Geom2 Proof_PropTess Proof_PropTess2 Proof_Ellip
  Proof_TessRefine2 Proof_PropTessRefine Proof_Quality.
Import ListNotations.
Local Open Scope R_scope.

Section AtR.
Variable eps : R.
Local Hint Extern 0 (Num R) => exact (NumR eps) : typeclass_instances.

Lemma norm_len dim (a : pt R) : norm sqrt dim a = len dim a.
Proof. unfold norm. rewrite sq_norm_R. reflexivity. Qed.
Lemma adim_unit dim (a : pt R) : nonzero dim a -> adim sqrt dim a = Ok (unit dim a).
Proof. apply adim_ok. Qed.
Lemma len_ext3 (a b : vec) : (forall i, (i < 3)%nat -> a i = b i) -> len 3 a = len 3 b.
Proof. intros H. unfold len. f_equal. apply sqlen_ext. exact H. Qed.
Lemma len_opp (a b : vec) : (forall i, (i < 3)%nat -> a i = - b i) -> len 3 a = len 3 b.
Proof.
  intros H. unfold len. f_equal. rewrite (sqlen_ext 3 a (fun i => -1 * b i)). { rewrite sqlen_scal. ring. } intros i Hi. rewrite (H i Hi). ring.
Qed.
Lemma cross_is (a b : pt R) i : (i < 3)%nat -> Model_Vec.cross a b i = cross3 a b i.
Proof. intros H. destruct i as [|[|[|]]]; try lia; reflexivity. Qed.

Lemma deviation_prop (S du dv : R * R -> vec) (h : plane) fs f A B D : tri_mesh h fs -> In f fs -> corners h f A B D ->
  nonzero 3 (cross3 (fun i => S B i - S A i) (fun i => S D i - S A i)) -> nonzero 3 (cross3 (du (centre A B D)) (dv (centre A B D))) ->
  DeviationMeshSurface sqrt (fun x => Ok (S x)) (fun x => Ok (du x)) (fun x => Ok (dv x)) h f =
  Ok (len 3 (fun i => flat_normal (S A) (S B) (S D) i + surface_normal (du (centre A B D)) (dv (centre A B D)) i), centre A B D).
Proof.
  intros TM If HC NF NS. apply corners_inv in HC as (e1 & e2 & e3 & L & Q & EA & EB & ED). rewrite Q in L.
  unfold DeviationMeshSurface. rewrite (getTriangleCoords_ok _ _ _ _ _ L). cbn [bind]. rewrite <- EA, <- EB, <- ED. rewrite centroid_ok. cbn [bind].
  replace (centre B A D) with (centre A B D) by (unfold centre; f_equal; lra). set (G := centre A B D) in *.
  assert (C : forall i, (i < 3)%nat -> Model_Vec.cross (psub (S A) (S B)) (psub (S D) (S B)) i = - cross3 (fun i => S B i - S A i) (fun i => S D i - S A i) i).
  { intros i Hi. unfold psub. destruct i as [|[|[|]]]; try lia; cbn; nsimp; ring. }
  rewrite adim_unit. 2:{ destruct NF as (i & Hi & N). exists i. split; [exact Hi|]. rewrite (C i Hi). lra. }
  cbn [bind]. rewrite adim_unit. 2:{ destruct NS as (i & Hi & N). exists i. split; [exact Hi|]. now rewrite cross_is. }
  cbn [bind]. apply f_equal. f_equal. rewrite norm_len. apply len_opp. intros i Hi. match goal with |- psub ?x ?y i = _ => change (psub x y i) with (x i - y i) end. unfold flat_normal, surface_normal, unit.
  rewrite (len_opp _ _ C). rewrite (C i Hi). rewrite (len_ext3 (Model_Vec.cross (du G) (dv G)) (cross3 (du G) (dv G))) by (intros; apply cross_is; auto). rewrite (cross_is (du G) (dv G) i Hi).
  unfold Rdiv. ring.
Qed.
Lemma deviation_flat (O a b : vec) (h : plane) fs f A B D : tri_mesh h fs -> In f fs -> corners h f A B D -> nonzero 3 (cross3 a b) ->
  DeviationMeshSurface sqrt (fun x => Ok (fun i => O i + fst x * a i + snd x * b i)) (fun _ => Ok a) (fun _ => Ok b) h f = Ok (2, centre A B D).
Proof.
  intros TM If HC N. pose proof TM as (_ & HT). destruct (HT f If) as (A' & B' & D' & HC' & W).
  assert (ES : A' = A /\ B' = B /\ D' = D).
  { apply corners_inv in HC as (e1 & e2 & e3 & L & Q & -> & -> & ->). apply corners_inv in HC' as (f1 & f2 & f3 & L' & Q' & -> & -> & ->). rewrite Q in Q'. injection Q' as <- <- <-. auto. }
  destruct ES as (-> & -> & ->). clear HC'.
  set (S := fun x : R * R => (fun i => O i + fst x * a i + snd x * b i) : vec). set (k := (fst B - fst A) * (snd D - snd A) - (snd B - snd A) * (fst D - fst A)).
  assert (K : 0 < k). { unfold ccw, area2 in W. unfold k. first [exact W | lra | nra]. }
  assert (C : forall i, (i < 3)%nat -> cross3 (fun i => S B i - S A i) (fun i => S D i - S A i) i = k * cross3 a b i).
  { intros i Hi. unfold S, k. destruct i as [|[|[|]]]; try lia; cbn; ring. }
  destruct (len_pos 3 _ N) as (_ & P).
  etransitivity.
  { apply (deviation_prop S (fun _ => a) (fun _ => b) h fs f A B D TM If HC); [|exact N].
    destruct N as (i & Hi & N). exists i. split; [exact Hi|]. rewrite (C i Hi). apply Rmult_integral_contrapositive. split; [lra|exact N]. }
  apply f_equal. f_equal.
  assert (LC : len 3 (cross3 (fun i => S B i - S A i) (fun i => S D i - S A i)) = k * len 3 (cross3 a b)).
  { rewrite (len_ext3 _ (fun i => k * cross3 a b i) C). unfold len. rewrite sqlen_scal. rewrite sqrt_mult_alt by (apply pow2_ge_0). rewrite sqrt_pow2 by lra. reflexivity. }
  rewrite (len_ext3 _ (fun i => (2 / len 3 (cross3 a b)) * cross3 a b i)).
  2:{ intros i Hi. unfold flat_normal, surface_normal, unit. rewrite LC, (C i Hi). field. lra. }
  unfold len at 1. rewrite sqlen_scal. rewrite <- len_sq. 
  replace ((2 / len 3 (cross3 a b)) ^ 2 * (len 3 (cross3 a b) * len 3 (cross3 a b))) with (2 * 2) by (field; lra). apply sqrt_square. lra.
Qed.

(** ** The turn of the tangent along the inner edges *)
Lemma sine_ok (a b : pt R) : nonzero 3 a -> nonzero 3 b ->
  divc (norm sqrt 3 (Model_Vec.cross a b)) (nmul (norm sqrt 3 a) (norm sqrt 3 b)) = Ok (sine a b).
Proof.
  intros Ha Hb. destruct (len_pos 3 a Ha) as (_ & Pa). destruct (len_pos 3 b Hb) as (_ & Pb). rewrite !norm_len.
  rewrite (divc_good eps) by (nsimp; nra). apply f_equal. unfold sine. rewrite (len_ext3 (Model_Vec.cross a b) (cross3 a b)) by (intros; apply cross_is; auto). reflexivity.
Qed.
Lemma deviation2_prop (du dv : R * R -> vec) (h : plane) fs f l : tri_mesh h fs -> In f fs -> face_loop h f l ->
  (forall e A B, In e l -> inner_edge h e A B -> nonzero 3 (towards du dv A A B) /\ nonzero 3 (towards du dv B A B)) ->
  exists v p, DeviationMeshSurface2 sqrt (fun x => Ok (du x)) (fun x => Ok (dv x)) h f = Ok (v, p) /\
  (forall e A B, In e l -> inner_edge h e A B -> turn du dv A B <= v) /\
  ((exists e A B, In e l /\ inner_edge h e A B /\ v = turn du dv A B /\ p = middle_of A B) \/ (v = 0 /\ p = (0, 0))).
Proof.
  intros TM If FL HN. apply tri_mesh_iff in TM. pose proof (loop_Lf h fs f l TM If FL) as ->. clear FL. pose proof (tm_L _ _ _ TM If) as L.
  set (g := fun e => edge_val (turn du dv) (vw h e)).
  assert (E : DeviationMeshSurface2 sqrt (fun x => Ok (du x)) (fun x => Ok (dv x)) h f = worst_pair (map g (Lf h f))).
  { unfold DeviationMeshSurface2. rewrite (iter_edges_ok h f _ L). cbn [bind]. rewrite (mapM_ok _ g); [reflexivity|].
    intros e Ie. pose proof (floop_in _ _ _ _ L Ie) as (X & _). rewrite get_e_ok by auto. cbn [bind]. unfold g, vw, edge_val. change (he_opp (E h e)) with (op h e).
    destruct (op h e) eqn:O; [|reflexivity]. rewrite (floop_sc _ _ _ _ L Ie), (floop_ec _ _ _ _ L Ie). cbn [bind].
    assert (IE : inner_edge h e (sc h e) (ec h e)) by (apply (vw_case h fs f e true); auto; unfold vw; rewrite O; reflexivity).
    destruct (HN e _ _ Ie IE) as (N1 & N2). unfold tangent. cbn [bind fst snd].
    set (t1 := padd _ _). set (t2 := padd (pscal _ (du (ec h e))) _).
    change t1 with (towards du dv (sc h e) (sc h e) (ec h e)). change t2 with (towards du dv (ec h e) (sc h e) (ec h e)). rewrite (sine_ok _ _ N1 N2). cbn [bind].
    apply f_equal. f_equal. unfold plus2, times2, half, middle_of. cbn. f_equal; field. }
  destruct (worst_pair_ok eps (map g (Lf h f))) as ([v p] & EW & I & W & _).
  { destruct TM as (_ & HT). destruct (HT f If) as (e1 & e2 & e3 & Q & _). rewrite Q. discriminate. }
  exists v, p. split; [rewrite E; exact EW|]. split.
  { intros e A B Ie IE. pose proof (W (g e) (in_map _ _ _ Ie)) as X. unfold g in X. rewrite (vw_inner h fs f e A B TM If Ie IE) in X. exact X. }
  apply in_map_iff in I as (e & Q & Ie). unfold g in Q. destruct (vw h e) as [[b A] B] eqn:V. cbn [edge_val] in Q. destruct b; injection Q as <- <-; [|auto].
  left. exists e, A, B. split; [auto|]. split; [apply (vw_case h fs f e true A B); auto|auto].
Qed.
Lemma turn_flat (a b : vec) A B : turn (fun _ => a) (fun _ => b) A B = 0.
Proof.
  unfold turn, sine. replace (len 3 (cross3 _ _)) with 0; [unfold Rdiv; ring|]. unfold len. rewrite sqlen3. unfold dot3, towards. cbn.
  match goal with |- 0 = sqrt ?x => replace x with 0 by ring end. now rewrite sqrt_0.
Qed.
Lemma flat_case : exists (h : plane) fs a b, tri_mesh h fs /\ In 0%nat fs /\ corners h 0 (1, 0) (0, 1) (0, 0) /\ nonzero 3 (cross3 a b) /\
  forall A B, A <> B -> nonzero 3 (towards (fun _ => a) (fun _ => b) A A B).
Proof.
  exists square, [0; 1]%nat, (fun i => match i with 0%nat => 1 | _ => 0 end), (fun i => match i with 1%nat => 1 | _ => 0 end).
  split; [apply square_tri|]. split; [cbn; auto|]. split; [apply square_corners|]. split. { exists 2%nat. split; [lia|]. cbn. lra. }
  intros [x y] [z t] N. unfold towards. cbn [fst snd]. destruct (Req_dec x z) as [E|E].
  - exists 1%nat. split; [lia|]. cbn. intros Z. apply N. f_equal; lra.
  - exists 0%nat. split; [lia|]. cbn. lra.
Qed.
End AtR.
