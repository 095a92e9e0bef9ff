(** Proofs about the iteration over a face, the area and the quality measures. *)
From Coq Require Import Reals List Arith Bool Lia Lra Psatz Permutation.
From Verif Require Import Model_Base Model_Knots Model_Mesh Model_Geom Model_Tess Model_Refine Spec_Mesh Spec_MeshEdit Spec_Geom Spec_Tess Spec_Refine
  Proof_Base Proof_Mesh Proof_Mesh3 Proof_Tess Proof_Tess2 Proof_Tess5 Proof_Geom2 Proof_PropTess Proof_Ellip.
Import ListNotations.
Local Open Scope nat_scope.

(** ** Iteration *)
Lemma fi_loop_ok {X} (h : heap X) f l : floop h f l -> forall fuel i, i < length l -> length l - i < fuel ->
  fi_loop fuel h (mkfi (Some (nth i l 0)) (Some (nth 0 l 0)) false) (mkfi (Some (nth 0 l 0)) (Some (nth 0 l 0)) true) = Ok (skipn i l).
Proof.
  intros (H1 & H2 & _ & _ & H4). induction fuel as [|k IH]; intros i Hi Hf; [lia|].
  destruct (H4 i Hi) as (A & _ & B & _). cbn [fi_loop]. unfold fi_ne. cbn [fi_cur fi_end Bool.eqb negb]. rewrite orb_true_r.
  cbn [deref bind]. unfold fi_next. cbn [fi_cur fi_end fi_init]. rewrite get_e_ok by auto. cbn [bind].
  unfold nx in B. rewrite B. rewrite skipn_S_nth by auto. unfold cyc.
  destruct (Nat.eq_dec (i + 1) (length l)) as [e|e].
  - rewrite e, Nat.mod_same by lia. cbn [ptr_eqb]. rewrite Nat.eqb_refl. rewrite skipn_all2 by lia.
    destruct k; [lia|]. cbn [fi_loop]. unfold fi_ne. cbn [fi_cur fi_end ptr_eqb Bool.eqb]. rewrite Nat.eqb_refl. reflexivity.
  - rewrite Nat.mod_small by lia. cbn [ptr_eqb].
    destruct (Nat.eqb_spec (nth (i + 1) l 0) (nth 0 l 0)) as [D|D].
    + exfalso. apply (proj1 (NoDup_nth l 0) H2) in D; lia.
    + replace (i + 1) with (S i) by lia. rewrite IH by lia. reflexivity.
Qed.
Lemma face_ends_ok {X} (h : heap X) f a l : floop h f (a :: l) ->
  face_begin h f = Ok (mkfi (Some a) (Some a) false) /\ face_end h f = Ok (mkfi (Some a) (Some a) true).
Proof.
  intros (_ & _ & A & B & _). unfold face_begin, face_end. rewrite get_f_ok by auto. rewrite B. auto.
Qed.
Lemma iter_edges_ok {X} (h : heap X) f l : floop h f l -> iter_edges h f = Ok l.
Proof.
  intros L. pose proof (floop_len _ _ _ L) as N. pose proof L as (H1 & _). destruct l as [|a l]; [cbn in H1; lia|].
  destruct (face_ends_ok _ _ _ _ L) as (A & B). unfold iter_edges. rewrite A, B. cbn [bind].
  apply (fi_loop_ok h f (a :: l) L _ 0); unfold ne in N; cbn [length] in *; lia.
Qed.
Lemma iteration_prop {X} (h : heap X) f l : face_loop h f l -> iter_edges h f = Ok l.
Proof. intros L. apply iter_edges_ok. now apply face_loop_iff. Qed.
Lemma iterators_prop {X} (h : heap X) f l : face_loop h f l -> exists b e, face_begin h f = Ok b /\ face_end h f = Ok e /\ fi_eq b e = true /\ fi_ne b e = true.
Proof.
  intros L. apply face_loop_iff in L. pose proof L as (H1 & _). destruct l as [|a l]; [cbn in H1; lia|].
  destruct (face_ends_ok _ _ _ _ L) as (A & B). eexists _, _. split; [exact A|]. split; [exact B|]. split; [cbn; now rewrite Nat.eqb_refl|apply orb_true_r].
Qed.
Lemma max_edge_prop {X} (h : heap X) f a l less : face_loop h f (a :: l) -> max_edge h less f = Ok a.
Proof.
  intros L. apply face_loop_iff in L. destruct (face_ends_ok _ _ _ _ L) as (A & B). unfold max_edge. rewrite A, B. cbn [bind].
  unfold fi_eq. cbn. rewrite Nat.eqb_refl. reflexivity.
Qed.

Section AtR.
Variable eps : R.
Local Hint Extern 0 (Num R) => exact (NumR eps) : typeclass_instances.

(** ** Area *)
Lemma mapM_ok {A B} (f : A -> result B) (g : A -> B) : forall l, (forall x, In x l -> f x = Ok (g x)) -> mapM f l = Ok (map g l).
Proof. induction l as [|x l IH]; intros F; cbn; auto. rewrite F by now left. cbn. rewrite IH by (intros; apply F; now right). reflexivity. Qed.
Lemma face_area_ok (h : plane) f A B D : corners h f A B D -> ccw A B D -> face_area h f = Ok (area2 A B D / 2)%R.
Proof.
  intros X O. apply corners_inv in X as (e1 & e2 & e3 & L & Q & -> & -> & ->). unfold face_area, getFaceCoords.
  rewrite (getFaceEdges_ok _ _ _ L). cbn [bind]. rewrite (mapM_ok _ (ec h)) by (intros x Ix; now apply (floop_ec h f (Lf h f))). cbn [bind].
  rewrite Q. cbn [map]. f_equal. unfold tri_area2. rewrite (nabs_R eps). cbn. unfold ccw in O. revert O. unfold area2.
  generalize (ec h e1) (ec h e2) (ec h e3). intros [x1 y1] [x2 y2] [x3 y3]. cbn. intros O.
  match goal with |- (_ * Rabs ?z)%R = _ => rewrite (Rabs_pos_eq z) by nra end. field.
Qed.

(** A face's contribution, and the sum of a list of terms *)
Definition val (a : nat -> R) (t : term (T := R)) : R := match t with TNum x => x | TFace f => a f end.
Definition total_of (a : nat -> R) (l : list (term (T := R))) : R := fold_right (fun t s => val a t + s)%R 0%R l.
Lemma total_app a l l' : total_of a (l ++ l') = (total_of a l + total_of a l')%R.
Proof. unfold total_of. induction l as [|t l IH]; cbn [app fold_right]; [lra|]. rewrite IH. lra. Qed.
Lemma total_perm a l l' : Permutation l l' -> total_of a l = total_of a l'.
Proof. unfold total_of. induction 1; cbn [fold_right]; lra. Qed.
Lemma sum_area_ok (h : plane) a s t : (forall f, s = TFace f \/ t = TFace f -> face_area h f = Ok (a f)) -> sum_area h s t = Ok (val a s + val a t)%R.
Proof.
  intros F. destruct s as [x|f], t as [y|g]; cbn [sum_area val]; rewrite ?F by auto; cbn [bind]; apply f_equal; cbn; lra.
Qed.
Lemma run_ok (h : plane) a : forall s, (forall f, In (TFace f) (leaves s) -> face_area h f = Ok (a f)) ->
  exists t, run h s = Ok t /\ val a t = total_of a (leaves s) /\ (forall f, t = TFace f -> face_area h f = Ok (a f)).
Proof.
  induction s as [t|l IHl r IHr]; intros F; cbn [run leaves].
  - exists t. split; [auto|]. split; [cbn; lra|]. intros f ->. apply F. now left.
  - destruct IHl as (x & -> & X & FX); [intros; apply F; cbn [leaves]; apply in_or_app; auto|].
    destruct IHr as (y & -> & Y & FY); [intros; apply F; cbn [leaves]; apply in_or_app; auto|]. cbn [bind].
    rewrite (sum_area_ok h a x y) by (intros f [->| ->]; auto). cbn [bind]. eexists. split; [reflexivity|]. split; [|intros f [=]].
    rewrite total_app. cbn [val]. lra.
Qed.
Lemma area_prop (h : plane) fs s x : tri_mesh h fs -> Permutation (leaves s) (TNum x :: map TFace fs) ->
  exists a, mesh_area h s = Ok (x + a)%R /\ total_area h fs a.
Proof.
  intros (_ & TM) P.
  set (a := fun f => match face_area h f with Ok y => y | _ => 0%R end).
  assert (F : forall f, In f fs -> face_area h f = Ok (a f) /\ exists A B D, corners h f A B D /\ a f = (area2 A B D / 2)%R).
  { intros f If. destruct (TM f If) as (A & B & D & X & O). unfold a. rewrite (face_area_ok h f A B D X O). eauto 6. }
  destruct (run_ok h a s) as (t & E & V & G).
  { intros f If. apply (Permutation_in _ P) in If. destruct If as [[=]|If]. apply in_map_iff in If as (g & [= ->] & Ig). now apply F. }
  exists (fold_right Rplus 0%R (map a fs)). split.
  - assert (T1 : total_of a (leaves s) = (x + fold_right Rplus 0%R (map a fs))%R).
    { rewrite (total_perm _ _ _ P). cbn. f_equal. clear. induction fs as [|f fs IH]; cbn; [auto|]. now rewrite IH. }
    unfold mesh_area. rewrite E. cbn [bind]. rewrite <- T1, <- V. destruct t as [y|f]; cbn [val]; auto.
  - exists (map a fs). split; [|auto]. clear - F. induction fs as [|f fs IH]; cbn; constructor; [apply F; now left|apply IH; intros g Ig; apply F; now right].
Qed.
Lemma in_order_leaves fs : leaves (in_order (T := R) fs) = TNum 0%R :: map TFace fs.
Proof.
  unfold in_order. assert (G : forall l s, leaves (fold_left (fun s f => Both s (Leaf (TFace f))) l s) = leaves s ++ map (TFace (T := R)) l).
  { induction l as [|f l IH]; intros s; cbn [fold_left map]; [now rewrite app_nil_r|]. rewrite IH. cbn [leaves]. now rewrite <- app_assoc. }
  rewrite G. reflexivity.
Qed.

(** ** Measures *)
Lemma worst_pair_ok {A} (l : list (R * A)) : l <> [] -> exists b, worst_pair l = Ok b /\ In b l /\ (forall x, In x l -> (fst x <= fst b)%R) /\ forall x0, hd_error l = Some x0 -> fst b = fst x0 -> b = x0.
Proof.
  destruct l as [|x0 l]; [congruence|]. intros _. cbn [worst_pair]. set (step := fun b x => if nltb (fst b) (fst x) then x else b).
  assert (G : forall (l : list (R * A)) b, let r := fold_left step l b in (r = b \/ In r l) /\ (fst b <= fst r)%R /\ (forall g, In g l -> (fst g <= fst r)%R) /\ (fst r = fst b -> r = b)).
  { induction l0 as [|x l0 IH]; intros b; cbn [fold_left]; [cbn; repeat split; auto; try apply Rle_refl; intros ? []|].
    destruct (IH (step b x)) as (P & Q & S & W). cbv zeta in *.
    assert (S1 : (fst b <= fst (step b x))%R /\ (fst x <= fst (step b x))%R /\ (step b x = b \/ step b x = x)).
    { unfold step. cbn. destruct (Rltb_spec (fst b) (fst x)); repeat split; auto; lra. }
    destruct S1 as (S1 & S2 & S3). split; [|split; [lra|]].
    - cbn [In]. destruct P as [->|P]; [destruct S3 as [-> | ->]; auto|auto].
    - split; [intros g [<-|Ig]; [lra|auto]|]. intros Z. assert (Z1 : step b x = b).
      { unfold step in *. cbn in *. destruct (Rltb_spec (fst b) (fst x)); [lra|auto]. }
      rewrite Z1 in *. auto. }
  destruct (G l x0) as (P & Q & S & W). cbv zeta in *. eexists. split; [reflexivity|]. split; [cbn; intuition|].
  split; [intros x [<-|I]; auto|]. intros x [= <-]. exact W.
Qed.
Definition size_of (h : plane) e : R * (R * R) := match op h e with Some _ => (sq_dist (sc h e) (ec h e), middle_of (sc h e) (ec h e)) | None => (0%R, (0, 0)%R) end.
Lemma MaxEdgeSize_ok (h : plane) f l : floop h f l -> MaxEdgeSize h f = worst_pair (map (size_of h) l).
Proof.
  intros L. unfold MaxEdgeSize. rewrite (iter_edges_ok h f l L). cbn [bind]. rewrite (mapM_ok _ (size_of h)); [reflexivity|].
  intros e Ie. pose proof (floop_in _ _ _ _ L Ie) as (A & _). rewrite get_e_ok by auto. cbn [bind]. unfold size_of. change (he_opp (E h e)) with (op h e).
  destruct (op h e); [|reflexivity]. unfold edge_sq_length, edge_midpoint. rewrite (floop_sc _ _ _ _ L Ie), (floop_ec _ _ _ _ L Ie). cbn [bind].
  apply f_equal. unfold middle_of, sq_dist, half. cbn. f_equal. f_equal; lra.
Qed.
Definition excess_of (d : R * R -> R * R -> R) (h : plane) e : R * (R * R) :=
  match op h e with Some _ => (excess d (fun x => x) (sc h e) (ec h e), middle_of (sc h e) (ec h e)) | None => (0%R, (0, 0)%R) end.
Lemma Distance2_ok d (h : plane) f l : (forall x y, d x y = d y x) -> floop h f l -> (forall e, In e l -> op h e <> None -> d (sc h e) (ec h e) <> 0%R) ->
  DistanceMeshSurface2 (fun a b => Ok (d a b)) h f = worst_pair (repeat (0%R, (0, 0)%R) (length l) ++ map (excess_of d h) l).
Proof.
  intros SY L NZ. unfold DistanceMeshSurface2. rewrite (iter_edges_ok h f l L). cbn [bind]. rewrite (mapM_ok _ (excess_of d h)); [reflexivity|].
  intros e Ie. pose proof (floop_in _ _ _ _ L Ie) as (A & _). rewrite get_e_ok by auto. cbn [bind]. unfold excess_of. change (he_opp (E h e)) with (op h e).
  destruct (op h e) eqn:O; [|reflexivity]. rewrite (floop_sc _ _ _ _ L Ie), (floop_ec _ _ _ _ L Ie). cbn [bind].
  assert (N : d (ec h e) (sc h e) <> 0%R) by (rewrite SY; apply NZ; congruence).
  assert (MID : (nadd (fst (sc h e)) (nmul half (nsub (fst (ec h e)) (fst (sc h e)))), nadd (snd (sc h e)) (nmul half (nsub (snd (ec h e)) (snd (sc h e))))) = middle_of (sc h e) (ec h e))
    by (unfold middle_of, half; cbn; f_equal; lra).
  rewrite MID. rewrite (divc_good eps) by exact N. cbn [bind]. apply f_equal. unfold excess. cbn. rewrite (SY (ec h e) (sc h e)), (SY (ec h e) (middle_of _ _)). reflexivity.
Qed.

Lemma inner_op (h : plane) fs f e A B : tmesh h fs -> In f fs -> In e (Lf h f) -> inner_edge h e A B -> op h e <> None /\ A = sc h e /\ B = ec h e.
Proof.
  intros TM If Ie (FT & o & r & IE & O). apply is_edge_iff in IE as (_ & IE). split; [|now apply (from_to_eq h fs f)].
  unfold op. rewrite IE, O. discriminate.
Qed.
Lemma op_inner (h : plane) fs f e : tmesh h fs -> In f fs -> In e (Lf h f) -> op h e <> None -> inner_edge h e (sc h e) (ec h e).
Proof.
  intros TM If Ie O. split; [now apply (from_to_live h fs f)|]. destruct (op h e) as [o|] eqn:Q; [|congruence]. exists o, (E h e). split; [|exact Q].
  apply is_edge_iff. split; [|auto]. pose proof (tm_L _ _ _ TM If) as L. now destruct (floop_in _ _ _ _ L Ie).
Qed.
Lemma tri_ends (h : plane) fs f e : tmesh h fs -> In f fs -> In e (Lf h f) -> sc h e <> ec h e.
Proof.
  intros TM If Ie. pose proof (tm_L _ _ _ TM If) as L. destruct TM as (_ & HT). destruct (HT f If) as (e1 & e2 & e3 & Q & O). rewrite Q in L, Ie.
  destruct (tri_st _ _ _ _ _ L) as (T1 & T2 & T3). unfold ccw, area2 in O.
  destruct Ie as [<-|[<-|[<-|[]]]]; rewrite ?T1, ?T2, ?T3; intros Z; rewrite Z in O; lra.
Qed.
Lemma sq_dist_pos A B : A <> B -> (0 < sq_dist A B)%R.
Proof.
  destruct A as [x y], B as [u v]. unfold sq_dist. cbn. intros N. assert ((u - x <> 0 \/ v - y <> 0)%R).
  { destruct (Req_dec (u - x) 0); [|auto]. destruct (Req_dec (v - y) 0); [|auto]. exfalso. apply N. f_equal; lra. }
  pose proof (Rle_0_sqr (u - x)). pose proof (Rle_0_sqr (v - y)). unfold Rsqr in *. destruct H as [H|H]; [assert (0 < (u - x) * (u - x))%R|assert (0 < (v - y) * (v - y))%R]; try lra; nra.
Qed.
Lemma loop_Lf (h : plane) fs f l : tmesh h fs -> In f fs -> face_loop h f l -> l = Lf h f.
Proof. intros TM If L. apply face_loop_iff in L. symmetry. now apply Lf_ok. Qed.

Lemma size_prop (h : plane) fs f l : tri_mesh h fs -> In f fs -> face_loop h f l -> exists v p, MaxEdgeSize h f = Ok (v, p) /\
  (forall e A B, In e l -> inner_edge h e A B -> (sq_dist A B <= v)%R) /\
  ((exists e A B, In e l /\ inner_edge h e A B /\ v = sq_dist A B /\ p = middle_of A B) \/
   ((forall e A B, In e l -> ~ inner_edge h e A B) /\ v = 0%R /\ p = (0, 0)%R)).
Proof.
  intros TM If FL. apply tri_mesh_iff in TM. pose proof (loop_Lf h fs f l TM If FL) as ->. clear FL. pose proof (tm_L _ _ _ TM If) as L.
  rewrite (MaxEdgeSize_ok h f _ L). destruct (worst_pair_ok (map (size_of h) (Lf h f))) as ([v p] & -> & I & W & _).
  { pose proof L as (H1 & _). destruct (Lf h f); [cbn in H1; lia|discriminate]. }
  assert (U : forall e A B, In e (Lf h f) -> inner_edge h e A B -> size_of h e = (sq_dist A B, middle_of A B)).
  { intros e A B Ie IE. destruct (inner_op h fs f e A B TM If Ie IE) as (O & -> & ->). unfold size_of. destruct (op h e); congruence. }
  assert (UB : forall e A B, In e (Lf h f) -> inner_edge h e A B -> (sq_dist A B <= v)%R).
  { intros e A B Ie IE. pose proof (W (size_of h e) (in_map _ _ _ Ie)) as X. rewrite (U e A B Ie IE) in X. exact X. }
  exists v, p. split; [reflexivity|]. split; [exact UB|].
  apply in_map_iff in I as (e & Q & Ie). unfold size_of in Q. destruct (op h e) as [o|] eqn:O.
  - left. exists e, (sc h e), (ec h e). injection Q as <- <-. split; [auto|]. split; [apply (op_inner h fs f); congruence|auto].
  - injection Q as <- <-. right. split; [|auto]. intros e' A B Ie' IE'. pose proof (UB e' A B Ie' IE') as X.
    destruct (inner_op h fs f e' A B TM If Ie' IE') as (_ & EA & EB). assert (A <> B) by (subst; now apply (tri_ends h fs f)). pose proof (sq_dist_pos A B H). lra.
Qed.
Lemma excess_nonneg {X} d (S : R * R -> X) A B : distance_like d -> d (S A) (S B) <> 0%R -> (0 <= excess d S A B)%R.
Proof.
  intros (P & SY & T) N. unfold excess. apply Rmult_le_pos; [pose proof (T (S A) (S (middle_of A B)) (S B)); lra|].
  apply Rlt_le, Rinv_0_lt_compat. pose proof (P (S A) (S B)). lra.
Qed.
Lemma distance_prop {X} d (S : R * R -> X) (h : plane) fs f l : distance_like d -> tri_mesh h fs -> In f fs -> face_loop h f l ->
  (forall e A B, In e l -> inner_edge h e A B -> d (S A) (S B) <> 0%R) ->
  exists v p, DistanceMeshSurface2 (fun a b => Ok (d (S a) (S b))) h f = Ok (v, p) /\
  (forall e A B, In e l -> inner_edge h e A B -> (excess d S A B <= v)%R) /\
  ((exists e A B, In e l /\ inner_edge h e A B /\ v = excess d S A B /\ p = middle_of A B /\ (0 < v)%R) \/
   ((forall e A B, In e l -> inner_edge h e A B -> excess d S A B = 0%R) /\ v = 0%R /\ p = (0, 0)%R)).
Proof.
  intros DL TM If FL NZ. pose proof DL as (P & SY & T). apply tri_mesh_iff in TM. pose proof (loop_Lf h fs f l TM If FL) as ->. clear FL. pose proof (tm_L _ _ _ TM If) as L.
  set (d' := fun a b => d (S a) (S b)).
  assert (NZ' : forall e, In e (Lf h f) -> op h e <> None -> d' (sc h e) (ec h e) <> 0%R) by (intros e Ie O; apply (NZ e); auto; now apply (op_inner h fs f)).
  change (fun a b => Ok (d (S a) (S b))) with (fun a b => Ok (d' a b)).
  rewrite (Distance2_ok d' h f _ (fun x y => SY (S x) (S y)) L NZ').
  assert (NE : Lf h f <> []) by (pose proof L as (H1 & _); destruct (Lf h f); [cbn in H1; lia|discriminate]).
  destruct (worst_pair_ok (repeat (0%R, (0, 0)%R) (length (Lf h f)) ++ map (excess_of d' h) (Lf h f))) as ([v p] & -> & I & W & H1).
  { destruct (Lf h f); [congruence|discriminate]. }
  assert (HD : hd_error (repeat (0%R, (0, 0)%R) (length (Lf h f)) ++ map (excess_of d' h) (Lf h f)) = Some (0%R, (0, 0)%R)) by (destruct (Lf h f); [congruence|reflexivity]).
  specialize (H1 _ HD). cbn [fst] in *.
  assert (U : forall e A B, In e (Lf h f) -> inner_edge h e A B -> excess_of d' h e = (excess d S A B, middle_of A B)).
  { intros e A B Ie IE. destruct (inner_op h fs f e A B TM If Ie IE) as (O & -> & ->). unfold excess_of. destruct (op h e); [reflexivity|congruence]. }
  assert (UB : forall e A B, In e (Lf h f) -> inner_edge h e A B -> (excess d S A B <= v)%R).
  { intros e A B Ie IE. pose proof (W (excess_of d' h e) (in_or_app _ _ _ (or_intror (in_map _ _ _ Ie)))) as Y. rewrite (U e A B Ie IE) in Y. exact Y. }
  assert (V0 : (0 <= v)%R) by (apply (W (0%R, (0, 0)%R)); destruct (Lf h f); [congruence|now left]).
  exists v, p. split; [reflexivity|]. split; [exact UB|].
  destruct (Req_dec v 0) as [Z|NZv].
  - right. specialize (H1 Z). injection H1 as Hv Hp. split; [|auto]. intros e A B Ie IE. pose proof (UB e A B Ie IE). pose proof (excess_nonneg d S A B DL (NZ e A B Ie IE)). lra.
  - left. apply in_app_or in I as [I|I]; [apply repeat_spec in I; injection I as -> _; lra|].
    apply in_map_iff in I as (e & Q & Ie). unfold excess_of in Q. destruct (op h e) as [o|] eqn:O; [|injection Q as <- <-; lra].
    exists e, (sc h e), (ec h e). injection Q as <- <-. split; [auto|]. split; [apply (op_inner h fs f); congruence|]. split; [reflexivity|]. split; [reflexivity|lra].
Qed.

(** ** Locality *)
Lemma kept_view h fs xy h' fs' r f : tmesh h fs -> boyerWatson h fs xy = Ok (h', fs', r) -> In f fs -> In f fs' ->
  floop h f (Lf h f) /\ floop h' f (Lf h f) /\ forall e, In e (Lf h f) -> op h' e = op h e /\ sc h' e = sc h e /\ ec h' e = ec h e.
Proof.
  intros TM E If If'. pose proof (tm_L _ _ _ TM If) as L. destruct (boyerWatson_ok eps h fs xy TM) as (h1 & fs1 & r1 & E1 & I). rewrite E in E1. injection E1 as <- <- <-.
  destruct I as [r0 _ _|seed K es h1 _ _ IK NK HB NE ST FW]; [auto|]. pose proof TM as (H & HT). split; [auto|].
  assert (IK' : In f (without K fs)).
  { apply in_app_or in If' as [X|X]; [auto|]. apply in_seq in X. pose proof L as (_ & _ & Lf0 & _). lia. }
  split.
  - rewrite <- (fw_kept _ _ _ _ _ _ FW f IK'). apply (Lf_of _ _ _ (fw_minv _ _ _ _ _ _ FW)). apply in_or_app. auto.
  - intros e Ie. split; [now apply (kept_op h fs xy K es h1 f e)|]. now apply (fw_keptc _ _ _ _ _ _ FW f e IK').
Qed.
Lemma size_local : local eps MaxEdgeSize.
Proof.
  intros h fs xy h' fs' r f TM E If If'. apply tri_mesh_iff in TM. destruct (kept_view h fs xy h' fs' r f TM E If If') as (L & L' & V).
  rewrite (MaxEdgeSize_ok h f _ L), (MaxEdgeSize_ok h' f _ L'). f_equal. apply map_ext_in. intros e Ie. destruct (V e Ie) as (A & B & D). unfold size_of. now rewrite A, B, D.
Qed.
Lemma size_defined : defined MaxEdgeSize.
Proof.
  intros h fs f TM If. pose proof TM as TM'. apply tri_mesh_iff in TM'. destruct (size_prop h fs f (Lf h f) TM If) as (v & p & E & _); eauto.
  apply face_loop_iff. now apply (tm_L _ fs).
Qed.
Lemma distance_local {X} d (S : R * R -> X) : distance_like d -> (forall a b, a <> b -> d (S a) (S b) <> 0%R) ->
  defined (DistanceMeshSurface2 (fun a b => Ok (d (S a) (S b)))) /\ local eps (DistanceMeshSurface2 (fun a b => Ok (d (S a) (S b)))).
Proof.
  intros DL NZ. pose proof DL as (P & SY & T). split.
  - intros h fs f TM If. pose proof TM as TM'. apply tri_mesh_iff in TM'. destruct (distance_prop d S h fs f (Lf h f) DL TM If) as (v & p & E & _); eauto.
    + apply face_loop_iff. now apply (tm_L _ fs).
    + intros e A B Ie IE. destruct (inner_op h fs f e A B TM' If Ie IE) as (_ & -> & ->). apply NZ. now apply (tri_ends h fs f).
  - intros h fs xy h' fs' r f TM E If If'. apply tri_mesh_iff in TM. destruct (kept_view h fs xy h' fs' r f TM E If If') as (L & L' & V).
    set (d' := fun a b => d (S a) (S b)). change (fun a b => Ok (d (S a) (S b))) with (fun a b => Ok (d' a b)).
    assert (NZ' : forall e, In e (Lf h f) -> op h e <> None -> d' (sc h e) (ec h e) <> 0%R) by (intros e Ie O; apply NZ; now apply (tri_ends h fs f)).
    rewrite (Distance2_ok d' h f _ (fun x y => SY (S x) (S y)) L NZ').
    rewrite (Distance2_ok d' h' f _ (fun x y => SY (S x) (S y)) L').
    + do 2 f_equal. apply map_ext_in. intros e Ie. destruct (V e Ie) as (A & B & D). unfold excess_of. now rewrite A, B, D.
    + intros e Ie. destruct (V e Ie) as (A & B & D). rewrite A, B, D. auto.
Qed.
End AtR.
