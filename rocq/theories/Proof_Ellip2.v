(** Proofs about smoothing: translations, and the vertices of meshes. *)
From Coq Require Import Reals List Arith Bool Lia Lra Psatz.
From Verif Require Import Model_Base Model_Mesh Model_Geom Model_Ellip Spec_Mesh Spec_Ellip Proof_Base Proof_Ellip.
Import ListNotations.
Local Open Scope R_scope.

Section AtR.
Variable eps : R.
Local Hint Extern 0 (Num R) => exact (NumR eps) : typeclass_instances.

Lemma node_shift a b (g : list (R * R)) nj i j :
  node_at (map (shifted a b) g) nj i j = (let* p := node_at g nj i j in Ok (shifted a b p)).
Proof. unfold node_at, get. rewrite nth_error_map. destruct (nth_error g _); reflexivity. Qed.
Lemma sub_shift (x y t : R) : nsub (x + t) (y + t) = nsub x y.
Proof. cbn. ring. Qed.
Lemma moved_shift a b (g : list (R * R)) ni nj i j :
  moved (map (shifted a b) g) ni nj i j = (let* q := moved g ni nj i j in Ok (shifted a b q)).
Proof.
  unfold moved. rewrite !node_shift.
  destruct (divc n1 (nsub (nofnat ni) n1)) as [dk| | |]; cbn [bind]; auto.
  destruct (divc n1 (nsub (nofnat nj) n1)) as [de| | |]; cbn [bind]; auto.
  destruct (node_at g nj (i + 1) j) as [ip| | |]; cbn [bind]; auto.
  destruct (node_at g nj (i - 1) j) as [im| | |]; cbn [bind]; auto.
  destruct (node_at g nj i (j + 1)) as [jp| | |]; cbn [bind]; auto.
  destruct (node_at g nj i (j - 1)) as [jm| | |]; cbn [bind]; auto.
  unfold shifted at 1 2 3 4 5 6 7 8. cbn [fst snd]. rewrite !sub_shift.
  destruct (divc (nsub (fst ip) (fst im)) _) as [xk| | |]; cbn [bind]; auto.
  destruct (divc (nsub (snd ip) (snd im)) _) as [yk| | |]; cbn [bind]; auto.
  destruct (divc (nsub (fst jp) (fst jm)) _) as [xe| | |]; cbn [bind]; auto.
  destruct (divc (nsub (snd jp) (snd jm)) _) as [ye| | |]; cbn [bind]; auto.
  destruct (node_at g nj (i + 1) (j + 1)) as [pp| | |]; cbn [bind]; auto.
  destruct (node_at g nj (i + 1) (j - 1)) as [pm| | |]; cbn [bind]; auto.
  destruct (node_at g nj (i - 1) (j - 1)) as [mm| | |]; cbn [bind]; auto.
  destruct (node_at g nj (i - 1) (j + 1)) as [mp| | |]; cbn [bind]; auto.
  unfold shifted at 1 2 3 4 5 6 7 8 9 10 11 12 13 14 15 16. cbn [fst snd]. rewrite !(relax_shift eps).
  match goal with |- context [relax ?p ?q ?r ?s ?t (fst ip)] => destruct (relax p q r s t (fst ip) (fst im) (fst jp) (fst jm) (fst pp) (fst pm) (fst mm) (fst mp)) end; cbn [bind]; auto.
  match goal with |- context [relax ?p ?q ?r ?s ?t (snd ip)] => destruct (relax p q r s t (snd ip) (snd im) (snd jp) (snd jm) (snd pp) (snd pm) (snd mm) (snd mp)) end; cbn [bind]; auto.
Qed.
Definition shift_st a b (st : list (R * R) * R) := (map (shifted a b) (fst st), snd st).
Lemma upd_map {A B} (f : A -> B) : forall l i x, upd (map f l) i (f x) = map f (upd l i x).
Proof. induction l as [|y l IH]; intros [|i] x; cbn; auto. now rewrite IH. Qed.
Lemma sweep_shift a b g ni nj i1 i2 j1 j2 g0 :
  sweep (map (shifted a b) g) ni nj i1 i2 j1 j2 (map (shifted a b) g0) =
  (let* st := sweep g ni nj i1 i2 j1 j2 g0 in Ok (shift_st a b st)).
Proof.
  unfold sweep. change (map (shifted a b) g0, n0) with (shift_st a b (g0, n0)). apply for_map. intros i s _. apply for_map. intros j t _.
  unfold move_node. rewrite moved_shift, node_shift. destruct (moved g ni nj i j) as [q| | |]; cbn [bind]; auto.
  unfold set, shift_st at 1 2. cbn [fst]. rewrite map_length. destruct (j + nj * i <? length (fst t))%nat; cbn [bind]; auto.
  destruct (node_at g nj i j) as [p| | |]; cbn [bind]; auto. unfold shift_st. cbn [fst snd]. rewrite upd_map.
  unfold shifted at 2 3 4 5. cbn [fst snd]. rewrite !sub_shift. reflexivity.
Qed.
Lemma sweeps_shift a b ni nj i1 i2 j1 j2 tol : forall more g g0 it,
  sweeps more (map (shifted a b) g) (map (shifted a b) g0) ni nj i1 i2 j1 j2 tol it =
  (let* (q, it', e) := sweeps more g g0 ni nj i1 i2 j1 j2 tol it in Ok (map (shifted a b) q, it', e)).
Proof.
  induction more as [|more IH]; intros g g0 it; cbn [sweeps]; rewrite sweep_shift; destruct (sweep g ni nj i1 i2 j1 j2 g0) as [[q e]| | |];
    cbn [bind shift_st fst snd]; auto.
  destruct (nltb tol e); [apply IH|reflexivity].
Qed.
Lemma smoothing_shift a b g nj i1 i2 j1 j2 n_it tol :
  elliptic_structured_smoothing (map (shifted a b) g) nj i1 i2 j1 j2 n_it tol =
  (let* (q, it, e) := elliptic_structured_smoothing g nj i1 i2 j1 j2 n_it tol in Ok (map (shifted a b) q, it, e)).
Proof.
  unfold elliptic_structured_smoothing. destruct (nj =? 0)%nat; [reflexivity|]. rewrite map_length. apply sweeps_shift.
Qed.

(** ** Vertices of half-edge meshes *)
Notation plane := (heap (R * R)).
Lemma live_prev (h : plane) fs o r p : live h fs o -> is_edge h o r -> he_prev r = Some p -> live h fs p.
Proof.
  intros (f & l & If & FL & Io) E P. pose proof FL as (_ & _ & _ & FE). apply In_nth_error in Io as (i & Io).
  destruct (FE i o Io) as (_ & _ & (r' & E' & P') & _). unfold is_edge in *. assert (r' = r) by congruence. subst.
  exists f, l. split; [assumption|split; [assumption|]]. apply nth_error_In with ((i + length l - 1) mod length l)%nat. congruence.
Qed.
Lemma mod_pred i n : (2 <= n)%nat -> (i < n)%nat -> (((i + 1) mod n + n - 1) mod n)%nat = i.
Proof.
  intros Hn Hi. destruct (Nat.eq_dec (i + 1) n) as [E|N].
  - rewrite E, Nat.mod_same, Nat.add_0_l, Nat.mod_small by lia. lia.
  - rewrite (Nat.mod_small (i + 1)) by lia. replace (i + 1 + n - 1)%nat with (i + 1 * n)%nat by lia. rewrite Nat.mod_add by lia. now apply Nat.mod_small.
Qed.
Lemma live_next (h : plane) fs e r x v : live h fs e -> is_edge h e r -> he_next r = Some x -> ends h e v -> live h fs x /\ starts h x v.
Proof.
  intros (f & l & If & FL & Ie) E X V. pose proof FL as (L2 & _ & _ & FE). apply In_nth_error in Ie as (i & Ie).
  destruct (FE i e Ie) as (_ & (r' & E' & X') & _). unfold is_edge in *. assert (r' = r) by congruence. subst.
  assert (NX : nth_error l ((i + 1) mod length l) = Some x) by congruence. split.
  - exists f, l. split; [assumption|split; [assumption|]]. now apply nth_error_In in NX.
  - destruct (FE _ x NX) as (_ & _ & (rx & Ex & Px) & _). exists rx, e. repeat split; auto. rewrite Px, mod_pred, Ie; auto.
    apply nth_error_Some. congruence.
Qed.
Lemma ends_det (h : plane) e v w : ends h e v -> ends h e w -> v = w.
Proof. intros (r & E & V & _) (r' & E' & V' & _). unfold is_edge in *. congruence. Qed.
Lemma starts_det (h : plane) e v w : starts h e v -> starts h e w -> v = w.
Proof. intros (r & p & E & P & V) (r' & p' & E' & P' & V'). unfold is_edge in *. assert (r' = r) by congruence. subst. assert (p' = p) by congruence. subst. now apply (ends_det h p). Qed.
Definition only (v : nat) (l : list ptr) := forall p, In p l -> p = Some v.
Lemma get_e_is (h : plane) e r : get_e h e = Ok r -> is_edge h e r.
Proof. intros E. now apply get_some in E. Qed.
Lemma ring_back_only (h : plane) fs v start : mesh_ok h fs -> forall fuel e acc l b, live h fs e -> ends h e v -> only v acc ->
  ring_back fuel h start e acc = Ok (l, b) -> only v l.
Proof.
  intros (_ & _ & MO). induction fuel as [|k IH]; intros e acc l b L V A E; [discriminate|]. cbn [ring_back] in E.
  apply bind_inv in E as (r & E1 & E). apply get_e_is in E1. destruct (he_opp r) as [o|] eqn:O; [|injection E as <- <-; auto].
  apply bind_inv in E as (c & E2 & E). apply bind_inv in E as (rc & E3 & E). apply get_e_is in E3.
  destruct (MO e o L) as (LO & _ & _ & a & b' & _ & VE & SO & _); [now exists r|]. assert (b' = v) by (now apply (ends_det h e)). subst b'.
  unfold prev_of in E2. apply bind_inv in E2 as (ro & E2 & P). apply get_e_is in E2. unfold deref in P. destruct (he_prev ro) as [p|] eqn:PR; [|discriminate]. injection P as ->.
  destruct SO as (ro' & p' & E2' & P' & Vp). unfold is_edge in *. assert (ro' = ro) by congruence. subst. assert (p' = c) by congruence. subst.
  assert (LC : live h fs c) by (now apply (live_prev h fs o ro c)).
  assert (VC : he_vertex rc = Some v). { destruct Vp as (r1 & E4 & V1 & _). unfold is_edge in *. congruence. }
  assert (A' : only v (he_vertex rc :: acc)) by (intros q [<-|Iq]; auto).
  destruct (c =? start)%nat; [injection E as <- <-; auto|]. now apply (IH c (he_vertex rc :: acc) l b).
Qed.
Lemma ring_forth_only (h : plane) fs v start : mesh_ok h fs -> forall fuel e acc l, live h fs e -> ends h e v -> only v acc ->
  ring_forth fuel h start e acc = Ok l -> only v l.
Proof.
  intros (_ & _ & MO). induction fuel as [|k IH]; intros e acc l L V A E; [discriminate|]. cbn [ring_forth] in E.
  apply bind_inv in E as (x & E1 & E). unfold next_of in E1. apply bind_inv in E1 as (r & E1 & X). apply get_e_is in E1.
  unfold deref in X. destruct (he_next r) as [y|] eqn:NX; [|discriminate]. injection X as ->.
  destruct (live_next h fs e r x v L E1 NX V) as (LX & SX).
  apply bind_inv in E as (rx & E2 & E). apply get_e_is in E2. destruct (he_opp rx) as [c|] eqn:O; [|injection E as <-; auto].
  destruct (MO x c LX) as (LC & _ & _ & a & b & SA & _ & _ & EC); [now exists rx|]. assert (a = v) by (now apply (starts_det h x)). subst a.
  apply bind_inv in E as (rc & E3 & E). apply get_e_is in E3.
  assert (VC : he_vertex rc = Some v). { destruct EC as (r1 & E4 & V1 & _). unfold is_edge in *. congruence. }
  assert (A' : only v (acc ++ [he_vertex rc])) by (intros q Iq; apply in_app_or in Iq as [Iq|[<-|[]]]; auto).
  destruct (c =? start)%nat; [injection E as <-; auto|]. now apply (IH c (acc ++ [he_vertex rc]) l).
Qed.
Lemma neighbours_only (h : plane) fs v e l : mesh_ok h fs -> vedge_is h v (Some e) -> live h fs e -> ends h e v ->
  getNeighboringVertices h v = Ok l -> forall p, In p l -> p = Some v.
Proof.
  intros M (r & V & VE) L EE E. unfold getNeighboringVertices in E. apply bind_inv in E as (r' & E1 & E). apply get_some in E1. assert (r' = r) by congruence. subst r'.
  rewrite VE in E. cbn [deref bind] in E. apply bind_inv in E as ((acc & b) & E2 & E).
  assert (A : only v acc) by (apply (ring_back_only h fs v e M _ _ _ _ _ L EE) in E2; auto; intros q []).
  destruct b; [|injection E as <-; auto]. now apply (ring_forth_only h fs v e M _ _ _ _ L EE) in E.
Qed.
Lemma sum_copies (c : R * R) : forall cs s, (forall x, In x cs -> x = c) ->
  fold_left (fun s X => (nadd (fst s) (fst X), nadd (snd s) (snd X))) cs s = (fst s + INR (length cs) * fst c, snd s + INR (length cs) * snd c).
Proof.
  induction cs as [|x cs IH]; intros s A.
  - cbn [fold_left length INR]. rewrite !Rmult_0_l, !Rplus_0_r. now destruct s.
  - cbn [fold_left]. rewrite IH by (intros; apply A; now right). rewrite (A x (or_introl eq_refl)). cbn [length fst snd]. rewrite S_INR. cbn. f_equal; ring.
Qed.
Lemma laplacian_still (h : plane) fs v e h' : mesh_ok h fs -> vedge_is h v (Some e) -> live h fs e -> ends h e v ->
  laplacian_smoothing h v = Ok h' -> h' = h.
Proof.
  intros M VI L EE E. unfold laplacian_smoothing in E. apply bind_inv in E as (ns & E1 & E). pose proof (neighbours_only h fs v e ns M VI L EE E1) as ON.
  apply bind_inv in E as (cs & E2 & E). apply bind_inv in E as (x & E3 & E). apply bind_inv in E as (y & E4 & E). apply bind_inv in E as (r & E5 & E).
  assert (CS : length cs = length ns /\ forall q, In q cs -> q = hv_coords r).
  { clear - ON E2 E5. revert cs E2. induction ns as [|p ns IH]; intros cs E2; cbn [mapM] in E2.
    - injection E2 as <-. split; auto. intros q [].
    - apply bind_inv in E2 as (c & F1 & F). apply bind_inv in F as (cs' & F2 & F). injection F as <-.
      assert (ON' : forall p, In p ns -> p = Some v) by (intros; apply ON; now right).
      destruct (IH ON' cs' F2) as (A & B). split; [cbn; congruence|]. intros q [<-|Iq]; [|auto].
      rewrite (ON p (or_introl eq_refl)) in F1. cbn [deref bind] in F1. rewrite E5 in F1. cbn [bind] in F1. congruence. }
  destruct CS as (LC & CS). rewrite (sum_copies (hv_coords r)) in E3, E4 by auto. cbn [fst snd] in E3, E4. rewrite (nofnat_R eps) in E3, E4.
  apply (divc_inv eps) in E3 as (N & ->). apply (divc_inv eps) in E4 as (_ & ->). rewrite LC in E.
  cbn [n0 NumR] in E. change (@n0 R (NumR eps)) with 0 in E.
  replace ((0 + INR (length ns) * fst (hv_coords r)) / INR (length ns)) with (fst (hv_coords r)) in E by (field; auto).
  replace ((0 + INR (length ns) * snd (hv_coords r)) / INR (length ns)) with (snd (hv_coords r)) in E by (field; auto).
  apply get_some in E5. unfold put_v in E. apply bind_inv in E as (l & E6 & E). apply set_inv in E6 as (_ & ->). injection E as <-.
  replace (mkhv (fst (hv_coords r), snd (hv_coords r)) (hv_edge r)) with r by (destruct r as [[? ?] ?]; reflexivity).
  rewrite upd_self by auto. now destruct h.
Qed.
End AtR.
