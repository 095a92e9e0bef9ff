(** Proofs about the helpers on one triangle. *)
From Coq Require Import Reals List Arith Bool Lia Lra.
From Verif Require Import Model_Base Model_Vec Model_Geom Model_Quality Model_Triangle
  Spec_Base Spec_Build Spec_Motion Spec_Geom Spec_Refine Spec_Quality Spec_Abscissa Spec_Triangle
  Proof_Base Proof_Build Proof_Ellip Proof_Motion Proof_Abscissa Proof_Quality Proof_Quality2.
Import ListNotations.
Local Open Scope R_scope.

Section AtR.
Variable eps : R.
Local Hint Extern 0 (Num R) => exact (NumR eps) : typeclass_instances.

(** ** Perimeter and incircle *)
Lemma lengths3_ok a b c : lengths3 hypot a b c = (side b c, side c a, side a b).
Proof. unfold lengths3, hypot, side, sq_dist. nsimp. f_equal; [f_equal|]; f_equal; ring. Qed.
Lemma perimeter_prop a b c : perimeter hypot a b c = side a b + side b c + side c a.
Proof. unfold perimeter. rewrite lengths3_ok. nsimp. ring. Qed.
Lemma squares0 x y : x * x + y * y <= 0 -> x = 0 /\ y = 0.
Proof. intros H. apply Rplus_sqr_eq_0. unfold Rsqr. pose proof (Rle_0_sqr x) as X. pose proof (Rle_0_sqr y) as Y. unfold Rsqr in X, Y. lra. Qed.
Lemma side_pos a b c : area2 a b c <> 0 -> 0 < side a b /\ 0 < side b c /\ 0 < side c a.
Proof.
  unfold area2, side, sq_dist. intros H. repeat split; apply sqrt_lt_R0; apply Rnot_le_lt; intros K; apply H; apply squares0 in K as (X & Y).
  - rewrite X, Y. ring.
  - replace (fst c) with (fst b) by lra. replace (snd c) with (snd b) by lra. ring.
  - replace (fst c) with (fst a) by lra. replace (snd c) with (snd a) by lra. ring.
Qed.
Lemma incenter_prop a b c : area2 a b c <> 0 -> exists q, incenter hypot a b c = Ok q /\ in_open a b c q /\
  line_distance a b q = area2 a b c / perimeter hypot a b c /\
  line_distance b c q = area2 a b c / perimeter hypot a b c /\
  line_distance c a q = area2 a b c / perimeter hypot a b c.
Proof.
  intros H. destruct (side_pos a b c H) as (P1 & P2 & P3). rewrite perimeter_prop. unfold incenter. rewrite lengths3_ok. nsimp.
  set (x := side a b) in *. set (y := side b c) in *. set (z := side c a) in *. rewrite !(divc_good eps) by (nsimp; lra). cbn [bind]. nsimp.
  eexists. split; [reflexivity|]. split.
  - exists (y / (y + z + x)), (z / (y + z + x)), (x / (y + z + x)). assert (0 < / (y + z + x)) by (apply Rinv_0_lt_compat; lra).
    split; [apply Rmult_lt_0_compat; lra|]. split; [apply Rmult_lt_0_compat; lra|]. split; [apply Rmult_lt_0_compat; lra|]. split; [field; lra|].
    unfold mix. f_equal; field; lra.
  - unfold line_distance. fold x y z. unfold area2. cbn [fst snd]. repeat split; field; lra.
Qed.

(** ** Deviation *)
Lemma tri_deviation_prop (S du dv : R * R -> vec) A B D :
  nonzero 3 (cross3 (fun i => S B i - S A i) (fun i => S D i - S A i)) -> nonzero 3 (cross3 (du (centre A B D)) (dv (centre A B D))) ->
  surface_triangle_deviation sqrt (fun x => Ok (S x)) (fun x => Ok (du x)) (fun x => Ok (dv x)) A B D =
  Ok (len 3 (fun i => flat_normal (S A) (S B) (S D) i - surface_normal (du (centre A B D)) (dv (centre A B D)) i)).
Proof.
  intros NF NS. unfold surface_triangle_deviation. cbn [bind]. rewrite centroid_ok. cbn [bind]. set (G := centre A B D) in *.
  assert (C : forall i, (i < 3)%nat -> Model_Vec.cross (psub (S B) (S A)) (psub (S D) (S A)) i = cross3 (fun i => S B i - S A i) (fun i => S D i - S A i) i).
  { intros i Hi. unfold psub. destruct i as [|[|[|]]]; try lia; cbn; nsimp; ring. }
  rewrite adim_unit. 2:{ destruct NF as (i & Hi & N). exists i. split; [exact Hi|]. rewrite (C i Hi). exact N. }
  cbn [bind]. rewrite adim_unit. 2:{ destruct NS as (i & Hi & N). exists i. split; [exact Hi|]. now rewrite cross_is. }
  cbn [bind]. apply f_equal. rewrite norm_len. apply len_ext3. intros i Hi. match goal with |- psub ?x ?y i = _ => change (psub x y i) with (x i - y i) end.
  unfold flat_normal, surface_normal, unit. rewrite (len_ext3 _ _ C). rewrite (C i Hi).
  rewrite (len_ext3 (Model_Vec.cross (du G) (dv G)) (cross3 (du G) (dv G))) by (intros; apply cross_is; auto). rewrite (cross_is eps (du G) (dv G) i Hi). reflexivity.
Qed.
Lemma tri_deviation_flat (O a b : vec) A B D : ccw A B D -> nonzero 3 (cross3 a b) ->
  surface_triangle_deviation sqrt (fun x => Ok (fun i => O i + fst x * a i + snd x * b i)) (fun _ => Ok a) (fun _ => Ok b) A B D = Ok 0.
Proof.
  intros W N. set (S := fun x : R * R => (fun i => O i + fst x * a i + snd x * b i) : vec). set (k := area2 A B D). assert (K : 0 < k) by exact W.
  assert (C : forall i, (i < 3)%nat -> cross3 (fun i => S B i - S A i) (fun i => S D i - S A i) i = k * cross3 a b i).
  { intros i Hi. unfold S, k, area2. destruct i as [|[|[|]]]; try lia; cbn; ring. }
  destruct (len_pos 3 _ N) as (_ & P). etransitivity.
  { apply (tri_deviation_prop S (fun _ => a) (fun _ => b) A B D); [|exact N].
    destruct N as (i & Hi & N). exists i. split; [exact Hi|]. rewrite (C i Hi). apply Rmult_integral_contrapositive. split; [lra|exact N]. }
  apply f_equal.
  assert (LC : len 3 (cross3 (fun i => S B i - S A i) (fun i => S D i - S A i)) = k * len 3 (cross3 a b)).
  { rewrite (len_ext3 _ (fun i => k * cross3 a b i) C). unfold len. rewrite sqlen_scal. rewrite sqrt_mult_alt by (apply pow2_ge_0). rewrite sqrt_pow2 by lra. reflexivity. }
  rewrite (len_ext3 _ (fun i => 0 * cross3 a b i)).
  2:{ intros i Hi. unfold flat_normal, surface_normal, unit. rewrite LC, (C i Hi). field. lra. }
  unfold len. rewrite sqlen_scal. replace (0 ^ 2 * sqlen 3 (cross3 a b)) with 0 by ring. apply sqrt_0.
Qed.

(** ** Coordinates in the triangle *)
Lemma dot_rev dim (a b c : vec) : dot dim (psub a b) (psub a c) = inner_product dim (fun i => b i - a i) (fun i => c i - a i).
Proof. induction dim as [|m IH]; cbn [dot inner_product]; nsimp; [reflexivity|]. rewrite IH. unfold psub. nsimp. ring. Qed.
Lemma inner_over dim (w a b c p : vec) u v :
  inner_product dim w (fun i => p i - a i) = u * inner_product dim w (fun i => b i - a i) + v * inner_product dim w (fun i => c i - a i) +
    inner_product dim w (fun i => p i - (a i + u * (b i - a i) + v * (c i - a i))).
Proof. induction dim as [|m IH]; cbn [inner_product]; [ring|]. rewrite IH. ring. Qed.
Lemma inner_comm dim (a b : vec) : inner_product dim a b = inner_product dim b a.
Proof. induction dim as [|m IH]; cbn [inner_product]; [reflexivity|]. rewrite IH. ring. Qed.
Lemma inner_sq dim (a b : vec) : inner_product dim (fun i => b i - a i) (fun i => b i - a i) = sqdist dim b a.
Proof. unfold sqdist. induction dim as [|m IH]; cbn [inner_product sqlen]; [reflexivity|]. rewrite IH. ring. Qed.
Lemma gram_det dim (a b c : vec) : nsub (nmul (dot dim (psub a b) (psub a b)) (dot dim (psub a c) (psub a c))) (nmul (dot dim (psub a b) (psub a c)) (dot dim (psub a b) (psub a c))) = gram dim a b c.
Proof. rewrite !dot_rev, !inner_sq. unfold gram. nsimp. ring. Qed.
Lemma uv_prop tiny dim (a b c p : vec) u v : 0 < tiny -> tiny <= Rabs (gram dim a b c) -> over dim a b c p u v -> computeUV tiny dim a b c p = Ok (u, v).
Proof.
  intros HT HG (O1 & O2). unfold computeUV. rewrite gram_det. rewrite (nabs_R eps). nsimp. destruct (Rltb_spec (Rabs (gram dim a b c)) tiny) as [X|_]; [lra|].
  assert (NG : gram dim a b c <> 0). { intros X. rewrite X, Rabs_R0 in HG. lra. }
  rewrite !dot_rev. rewrite (inner_over dim _ a b c p u v), O1. rewrite (inner_over dim (fun i => c i - a i) a b c p u v), O2.
  rewrite !(divc_good eps) by exact NG. cbn [bind]. apply f_equal. revert NG. unfold gram. rewrite !inner_sq. rewrite (inner_comm dim (fun i => c i - a i) (fun i => b i - a i)). nsimp.
  set (X := sqdist dim b a). set (Z := sqdist dim c a). set (Y := inner_product dim _ _). intros NG. f_equal; field; lra.
Qed.
Lemma uv_throws tiny dim (a b c p : vec) : Rabs (gram dim a b c) < tiny -> computeUV tiny dim a b c p = Throw RuntimeError.
Proof. intros H. unfold computeUV. rewrite gram_det. rewrite (nabs_R eps). nsimp. destruct (Rltb_spec (Rabs (gram dim a b c)) tiny); [reflexivity|lra]. Qed.
Lemma uv_small tiny : 0 < tiny -> exists a b c, gram 3 a b c <> 0 /\ forall p, computeUV tiny 3 a b c p = Throw RuntimeError.
Proof.
  intros H. set (e := Rmin 1 (tiny / 2)). assert (E : 0 < e) by (apply Rmin_glb_lt; lra). assert (E1 : e <= 1) by apply Rmin_l. assert (E2 : e <= tiny / 2) by apply Rmin_r.
  exists (at3 0 0 0), (at3 e 0 0), (at3 0 e 0).
  assert (G : gram 3 (at3 0 0 0) (at3 e 0 0) (at3 0 e 0) = (e * e) * (e * e)). { unfold gram, sqdist, at3. cbn [sqlen inner_product]. ring. }
  assert (Q : 0 < e * e <= e) by nra. rewrite G. split; [nra|]. intros p. apply uv_throws. rewrite G. rewrite Rabs_right by nra. nra.
Qed.

(** ** Centre of a sphere *)
Lemma sphere_flat tiny (a b c : vec) : 0 < tiny -> b 2%nat = a 2%nat -> c 2%nat = a 2%nat -> sphere_center tiny a b c = Ok None.
Proof.
  intros H Eb Ec. unfold sphere_center. rewrite Eb, Ec. nsimp. rewrite (nabs_R eps).
  match goal with |- (if Rltb (Rabs ?x) _ then _ else _) = _ => replace x with 0 by ring end. rewrite Rabs_R0. destruct (Rltb_spec 0 tiny); [reflexivity|lra].
Qed.
Lemma sphere_wrong tiny : 0 < tiny <= 1 -> exists o, sphere_center tiny (at3 0 0 0) (at3 1 0 1) (at3 0 1 1) = Ok (Some o) /\
  sqdist 3 o (at3 0 0 0) = 0 /\ sqdist 3 o (at3 1 0 1) = 2 /\ sqdist 3 o (at3 0 1 1) = 2.
Proof.
  intros H. unfold sphere_center, at3. nsimp. rewrite (nabs_R eps).
  match goal with |- context [Rltb (Rabs ?x) _] => replace x with 1 by ring end. rewrite (Rabs_right 1) by lra. destruct (Rltb_spec 1 tiny) as [X|_]; [lra|].
  rewrite !(divc_good eps) by (nsimp; lra). cbn [bind]. eexists. split; [reflexivity|]. unfold sqdist. cbn [sqlen]. nsimp. repeat split; field.
Qed.
Lemma triangle_case : area2 (0, 0) (3, 0) (0, 4) <> 0 /\ ccw (0, 0) (3, 0) (0, 4) /\ 1 <= Rabs (gram 3 (at3 0 0 0) (at3 3 0 0) (at3 0 4 0)) /\
  over 3 (at3 0 0 0) (at3 3 0 0) (at3 0 4 0) (at3 1 1 5) (1 / 3) (1 / 4).
Proof.
  unfold ccw, area2, over, gram, sqdist, at3. cbn [fst snd sqlen inner_product]. split; [lra|]. split; [lra|]. split; [|split; field].
  match goal with |- 1 <= Rabs ?x => replace x with 144 by ring end. rewrite Rabs_right; lra.
Qed.
End AtR.
