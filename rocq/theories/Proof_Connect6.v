(** Extensions of curves to a point, at the start. *)
From Coq Require Import List Arith ZArith Reals Lia Lra Bool.
From Verif Require Import Model_Base Model_Knots Model_Basis Model_Curve Model_Interp Model_Math Model_Wrap Model_Elevate Model_Unify Model_Connect
  Spec_Base Spec_Basis Spec_Eval Spec_Knots Spec_Class Spec_Build Spec_Interp Spec_Solve Spec_Elevate Spec_Unify Spec_Connect Proof_Base Proof_Blossom Proof_Basis Proof_Ders Proof_Eval
  Proof_PropBasis Proof_Ctor Proof_Builders Proof_Curve Proof_Elevate2 Proof_Unify Proof_Unify5 Proof_Join2 Proof_SurfEdit2
  Proof_Invariant Proof_Connect1 Proof_Connect2 Proof_Connect3 Proof_Connect4 Proof_Connect5.
Import ListNotations.
Local Open Scope R_scope.

Lemma right_same f g x b l l' : x < b -> (forall y, x <= y < b -> f y = g y) -> right_deriv f x l -> right_deriv g x l' -> l = l'.
Proof.
  intros Hb Hfg Hf Hg. destruct (Req_dec l l') as [E|E]; [exact E|]. exfalso.
  assert (P : 0 < Rabs (l - l') / 2) by (assert (0 < Rabs (l - l')) by (apply Rabs_pos_lt; lra); lra).
  destruct (Hf _ P) as (d1 & D1 & F1). destruct (Hg _ P) as (d2 & D2 & F2).
  set (h := Rmin (Rmin d1 d2) (b - x) / 2).
  assert (M1 := Rmin_l (Rmin d1 d2) (b - x)). assert (M2 := Rmin_r (Rmin d1 d2) (b - x)). assert (M3 := Rmin_l d1 d2). assert (M4 := Rmin_r d1 d2).
  assert (M0 : 0 < Rmin (Rmin d1 d2) (b - x)) by (repeat apply Rmin_glb_lt; lra).
  specialize (F1 h ltac:(unfold h; lra)). specialize (F2 h ltac:(unfold h; lra)).
  rewrite !Hfg in F1 by (unfold h; lra). set (z := (g (x + h) - g x) / h) in *.
  assert (T := Rabs_triang (z - l') (l - z)). replace (z - l' + (l - z)) with (l - l') in T by ring. rewrite (Rabs_minus_sym l z) in T. lra.
Qed.
Lemma right_local f g x b l : x < b -> (forall y, x <= y < b -> f y = g y) -> right_deriv f x l -> right_deriv g x l.
Proof.
  intros Hb H Hf e He. destruct (Hf e He) as (d & Hd & F). exists (Rmin d (b - x)). split; [apply Rmin_glb_lt; lra|].
  intros h Hh. assert (M1 := Rmin_l d (b - x)). assert (M2 := Rmin_r d (b - x)). rewrite <- !H by lra. apply F. lra.
Qed.
Lemma left_local f g x a l : a < x -> (forall y, a < y <= x -> f y = g y) -> left_deriv f x l -> left_deriv g x l.
Proof.
  intros Hb H Hf e He. destruct (Hf e He) as (d & Hd & F). exists (Rmin d (x - a)). split; [apply Rmin_glb_lt; lra|].
  intros h Hh. assert (M1 := Rmin_l d (x - a)). assert (M2 := Rmin_r d (x - a)). rewrite <- !H by lra. apply F. lra.
Qed.

Section AtR.
Variable eps : R.
Local Hint Extern 0 (Num R) => exact (NumR eps) : typeclass_instances.
Hypothesis He : 0 < eps.

Lemma object_right c x d i : clamped_object eps c -> (c_deg c <= 24)%nat -> c_lo c <= x < c_hi c ->
  right_deriv (fun y => val (value c y d) i) x (val (value c x (S d)) i).
Proof.
  intros Hc Hd Hx. pose proof Hc as (Hi & B1 & B2). destruct (info_gk eps _ _ ltac:(lra) Hi) as (K & E & S1 & Z & T & W).
  unfold info_of, knots_of, poles_of in *. cbn [fst snd] in *.
  rewrite (value_guard_eval eps) by lra.
  apply (right_local (fun y => val (eval_value y (c_knots c) (c_poles c) (c_deg c) d) i) _ x (c_hi c)); [lra| |].
  - intros y Hy. rewrite (value_guard_eval eps) by lra. reflexivity.
  - apply (eval_deriv_right eps _ (length (c_poles c))); [exact K|reflexivity|left; exact Hd|].
    rewrite T, (S1 (c_deg c)) by lia. unfold first_knot in B1. lra.
Qed.
Lemma object_left c d i : clamped_object eps c -> (c_deg c <= 24)%nat ->
  left_deriv (fun y => val (value c y d) i) (c_hi c) (val (value c (c_hi c) (S d)) i).
Proof.
  intros Hc Hd. pose proof (object_lt eps c He Hc) as Hlt.
  pose proof Hc as (Hi & B1 & B2). destruct (info_gk eps _ _ ltac:(lra) Hi) as (K & E & S1 & Z & T & W).
  unfold info_of, knots_of, poles_of in *. cbn [fst snd] in *.
  rewrite (value_guard_eval eps) by lra.
  apply (left_local (fun y => val (eval_value y (c_knots c) (c_poles c) (c_deg c) d) i) _ _ (c_lo c)); [exact Hlt| |].
  - intros y Hy. rewrite (value_guard_eval eps) by lra. reflexivity.
  - rewrite B2, <- T. apply (eval_deriv_left_end eps _ (length (c_poles c))); [exact K|reflexivity|left; exact Hd].
Qed.

(** Curves with the same points have the same derivatives, up to the last parameter. *)
Lemma same_all dim c r a b : clamped_object eps c -> clamped_object eps r -> (c_deg c <= 24)%nat -> (c_deg r <= 24)%nat ->
  c_lo c <= a -> b <= c_hi c -> c_lo r <= a -> b <= c_hi r ->
  (forall x, a <= x < b -> same_points eps dim c r x x 0) ->
  forall d x, a <= x < b -> same_points eps dim c r x x d.
Proof.
  intros Hc Hr Dc Dr A1 A2 A3 A4 H0. induction d as [|d IH]; intros x Hx; [auto|].
  destruct (object_value eps c x (S d) He Hc Dc ltac:(lra)) as (q & Eq). destruct (object_value eps r x (S d) He Hr Dr ltac:(lra)) as (q' & Eq').
  exists q, q'. split; [exact Eq|]. split; [exact Eq'|]. intros i Hi.
  pose proof (object_right c x d i Hc Dc ltac:(lra)) as R1. pose proof (object_right r x d i Hr Dr ltac:(lra)) as R2.
  rewrite Eq in R1. rewrite Eq' in R2. cbn [val] in R1, R2. symmetry.
  apply (right_same _ _ x b _ _ (proj2 Hx)) with (2 := R1) (3 := R2).
  intros y Hy. destruct (IH y ltac:(lra)) as (v & v' & -> & -> & E). cbn [val]. symmetry. apply E, Hi.
Qed.

Lemma object_wf c : clamped_object eps c -> well_formed c /\ natural_bounds c /\ (forall x, in_domain c x <-> c_lo c <= x <= c_hi c).
Proof.
  intros Hc. pose proof Hc as (Hi & B1 & B2). destruct (info_gk eps _ _ ltac:(lra) Hi) as (K & E & S1 & Z & T & W).
  unfold info_of, knots_of, poles_of in *. cbn [fst snd] in *. pose proof K as (K1 & K2 & K3 & K4).
  assert (T0 : kn (c_knots c) (length (c_poles c) + c_deg c) = last_knot (c_knots c)).
  { unfold last_knot. f_equal. lia. }
  split; [|split].
  - split; [|split]; unfold c_n.
    + split; [|split]; unfold c_n; auto; lia.
    + rewrite <- Nat.add_1_r. exact Z.
    + exact K4.
  - split; unfold c_n; [exact B1|]. rewrite B2. auto.
  - intros x. unfold in_domain, c_n. rewrite T, (S1 (c_deg c)), B1, B2 by lia. reflexivity.
Qed.

Lemma object_smooth c x : clamped_object eps c -> smooth_at c x 0.
Proof.
  intros Hc Hx. pose proof Hc as ((_ & U & M & HC & HK & HP) & B1 & B2). pose proof (object_wf c Hc) as (_ & _ & Hdom).
  pose proof (proj1 (Hdom _) (conj (Rle_refl _) (Rlt_le _ _ (Rlt_trans _ _ _ (proj1 Hx) (proj2 Hx))))) as D1.
  pose proof (proj1 (Hdom _) (conj (Rlt_le _ _ (Rlt_trans _ _ _ (proj1 Hx) (proj2 Hx))) (Rle_refl _))) as D2.
  unfold info_of, knots_of, poles_of in *. cbn [fst snd] in *.
  destruct (in_dec Req_EM_T x (c_knots c)) as [Hin|Hin]; [|left; apply count_occ_not_In; exact Hin].
  right. pose proof HC as (L & L2 & Hs & M0 & M1 & Mi). rewrite HK in Hin. apply repeat_each_In in Hin as Hin'.
  assert (Si : strictly_increasing U) by (apply (spaced_strict eps); [lra|exact Hs]).
  apply (In_nth _ _ 0) in Hin' as (i & Hi & Ex). change (nth i U 0) with (kn U i) in Ex. subst x.
  destruct (re_ends _ U M (ck_ckn eps _ U M ltac:(lra) HC)) as (F1 & F2). rewrite <- HK in F1, F2.
  rewrite HK at 1. rewrite count_re by assumption.
  assert (i <> 0%nat) by (intros ->; lra). assert (i <> (length U - 1)%nat) by (intros ->; lra).
  specialize (Mi i ltac:(lia)). lia.
Qed.

Lemma object_reverse c : clamped_object eps c -> (c_deg c <= 24)%nat ->
  exists c', reverse c = Ok c' /\ clamped_object eps c' /\ c_deg c' = c_deg c /\ c_lo c' = c_lo c /\ c_hi c' = c_hi c /\
    (forall x, c_lo c <= x <= c_hi c -> exists q q', value c x 0 = Ok q /\ value c' (c_lo c + c_hi c - x) 0 = Ok q' /\ forall i, q' i = q i) /\
    (forall d, exists q q', value c (c_lo c) d = Ok q /\ value c' (c_hi c) d = Ok q' /\ forall i, q' i = (-1) ^ d * q i) /\
    (forall d, exists q q', value c (c_hi c) d = Ok q /\ value c' (c_lo c) d = Ok q' /\ forall i, q' i = (-1) ^ d * q i).
Proof.
  intros Hc Hd. pose proof (object_wf c Hc) as (Hwf & Hnb & Hdom). pose proof (object_lt eps c He Hc) as Hlt.
  destruct (reverse_prop eps c ltac:(lra) Hwf Hnb) as (c' & E & Bd & Dg & N & Wf & Nb & _ & V).
  unfold bounds in Bd. injection Bd as Blo Bhi.
  assert (Hev : evaluable_curve eps c) by (left; exact Hd). assert (Hev' : evaluable_curve eps c') by (left; lia).
  exists c'. split; [exact E|]. split; [|split; [exact Dg|split; [exact Blo|split; [exact Bhi|split; [|split]]]]].
  - pose proof Hc as ((_ & U & M & HC & HK & HP) & B1 & B2). unfold info_of, knots_of, poles_of in *. cbn [fst snd] in *.
    rewrite (reverse_eq eps) in E by (intros Hn; destruct Hwf as ((A & _) & _); rewrite Hn in A; cbn [length] in A; lia).
    injection E as <-.
    destruct (mirrored_clamped eps (c_deg c) U M (kn (c_knots c) 0 + kn (c_knots c) (length (c_knots c) - 1)) HC) as (HC' & HK' & HP').
    split; [|destruct Nb as (N1 & N2); split; [exact N1|]].
    + split; [reflexivity|]. unfold info_of, knots_of, poles_of, rev_curve. cbn [fst snd c_knots c_poles c_deg].
      eexists; eexists. split; [exact HC'|]. split; [|rewrite rev_length, HP'; exact HP].
      rewrite <- HK', <- HK. reflexivity.
    + rewrite N2. unfold last_knot. f_equal. destruct Wf as ((A & _) & _). lia.
  - intros x Hx. destruct (V Hev Hev' x 0%nat) as (q & q' & E1 & E2 & E3); [apply Hdom; exact Hx|apply object_smooth; exact Hc|].
    exists q, q'. split; [exact E1|]. split; [exact E2|]. intros i. rewrite E3. simpl. ring.
  - intros d. destruct (V Hev Hev' (c_lo c) d) as (q & q' & E1 & E2 & E3); [apply Hdom; lra| |].
    + intros Hx. exfalso. assert (D := proj1 (Hdom _) (conj (Rle_refl _) (Rlt_le _ _ (Rlt_trans _ _ _ (proj1 Hx) (proj2 Hx))))). lra.
    + exists q, q'. split; [exact E1|]. replace (c_lo c + c_hi c - c_lo c) with (c_hi c) in E2 by ring. auto.
  - intros d. destruct (V Hev Hev' (c_hi c) d) as (q & q' & E1 & E2 & E3); [apply Hdom; lra| |].
    + intros Hx. exfalso. assert (D := proj1 (Hdom _) (conj (Rlt_le _ _ (Rlt_trans _ _ _ (proj1 Hx) (proj2 Hx))) (Rle_refl _))). lra.
    + exists q, q'. split; [exact E1|]. replace (c_lo c + c_hi c - c_hi c) with (c_lo c) in E2 by ring. auto.
Qed.

Lemma object_shift c s : clamped_object eps c -> (c_deg c <= 24)%nat ->
  exists c', mk_curve (c_poles c) (map (fun x => x - s) (c_knots c)) (c_deg c) = Ok c' /\ clamped_object eps c' /\ c_deg c' = c_deg c /\
    c_lo c' = c_lo c - s /\ c_hi c' = c_hi c - s /\
    (forall x d, c_lo c <= x <= c_hi c -> exists q q', value c x d = Ok q /\ value c' (x - s) d = Ok q' /\ forall i, q' i = q i).
Proof.
  intros Hc Hd. pose proof (object_wf c Hc) as (Hwf & Hnb & Hdom). pose proof (object_lt eps c He Hc) as Hlt.
  destruct (change_prop eps c (c_lo c - s) (c_hi c - s) ltac:(lra) Hwf Hnb ltac:(lra)) as (c' & E & Bd & Dg & N & Wf & Nb & Kn & V).
  unfold bounds in Bd. injection Bd as Blo Bhi.
  assert (Hev : evaluable_curve eps c) by (left; exact Hd). assert (Hev' : evaluable_curve eps c') by (left; lia).
  pose proof Wf as ((A1 & A2 & A3) & _). pose proof Hwf as ((A4 & A5 & A6) & _).
  assert (EP : c_poles c' = c_poles c).
  { unfold changeBounds in E. destruct (change_bounds (c_lo c - s) (c_hi c - s) (c_knots c)); cbn [bind] in E; try discriminate. injection E as <-. reflexivity. }
  assert (EK : c_knots c' = map (fun x => x - s) (c_knots c)).
  { apply (nth_ext _ _ 0 (0 - s)); [rewrite map_length; lia|]. intros i Hi. rewrite (map_nth (fun x => x - s)).
    change (kn (c_knots c') i = kn (c_knots c) i - s). rewrite Kn by lia. field. lra. }
  exists c'. split; [|split; [|split; [exact Dg|split; [exact Blo|split; [exact Bhi|]]]]].
  - rewrite <- EK, <- EP, <- Dg. rewrite (mk_curve_accepts eps).
    + destruct c' as [dd PP kk ll hh]. cbn [c_deg c_poles c_knots c_lo c_hi c_n] in *. destruct Nb as (N1 & N2). cbn [c_lo c_hi c_knots c_n c_deg c_poles] in *.
      f_equal. f_equal; [symmetry; exact N1|]. rewrite N2. unfold c_n in *. cbn [c_poles] in *. unfold last_knot. f_equal. lia.
    + unfold c_n in *. lia.
    + unfold c_n in *. lia.
    + exact A3.
  - pose proof Hc as ((_ & U & M & HC & HK & HP) & B1 & B2). unfold info_of, knots_of, poles_of in *. cbn [fst snd] in *.
    split; [|destruct Nb as (N1 & N2); split; [exact N1|rewrite N2; unfold last_knot; f_equal; lia]].
    split; [reflexivity|]. unfold info_of, knots_of, poles_of. cbn [fst snd].
    exists (map (fun x => x - s) U), M. rewrite Dg, EP, EK, HK. split; [|split; [apply map_repeat_each|exact HP]].
    destruct HC as (C1 & C2 & C3 & C4 & C5 & C6). split; [rewrite map_length; exact C1|]. split; [rewrite map_length; exact C2|].
    split; [apply (spaced_map_shift eps (- s)); exact C3|]. rewrite map_length. auto.
  - intros x d Hx. destruct (V Hev Hev' x d) as (q & q' & E1 & E2 & E3); [apply Hdom; exact Hx|].
    exists q, q'. split; [exact E1|]. split; [|intros i; rewrite <- E3].
    + replace (x - s) with (c_lo c - s + (c_hi c - s - (c_lo c - s)) * (x - c_lo c) / (c_hi c - c_lo c)) by (field; lra). exact E2.
    + replace ((c_hi c - s - (c_lo c - s)) / (c_hi c - c_lo c)) with 1 by (field; lra). rewrite pow1. ring.
Qed.

Lemma sqlen_ext dim a b : (forall i, (i < dim)%nat -> a i = b i) -> sqlen dim a = sqlen dim b.
Proof. induction dim as [|m IH]; intros H; cbn [sqlen]; [reflexivity|]. rewrite IH, H by auto. reflexivity. Qed.
Lemma sqlen_ext2 dim a b : (forall i, (i < dim)%nat -> a i ^ 2 = b i ^ 2) -> sqlen dim a = sqlen dim b.
Proof. induction dim as [|m IH]; intros H; cbn [sqlen]; [reflexivity|]. rewrite IH, H by auto. reflexivity. Qed.
Lemma sqlen_pos dim a : 0 <= sqlen dim a.
Proof. induction dim as [|m IH]; cbn [sqlen]; [lra|]. pose proof (pow2_ge_0 (a m)). lra. Qed.
Lemma length_eq dim norm e t q : euclidean dim norm ->
  norm (psub e q) * (norm (psub e q) / norm t) = extension_length dim e t q.
Proof.
  intros Hn. rewrite !Hn. unfold extension_length, Rdiv. rewrite <- Rmult_assoc, sqrt_sqrt by apply sqlen_pos. reflexivity.
Qed.

Lemma glue dim m e r z : clamped_object eps e -> clamped_object eps r -> (c_deg e <= 24)%nat -> (c_deg r <= 24)%nat ->
  c_hi e = z -> c_lo r <= c_lo e -> z < c_hi r ->
  (forall x d, c_lo e <= x < z \/ x = z /\ (d <= m)%nat -> same_points eps dim e r x x d) ->
  smooth_through eps dim m r z.
Proof.
  intros Oe Or De Dr Hz L1 L2 Hs d i Hd Hi f l. pose proof (object_lt eps e He Oe) as Hlt. split.
  - pose proof (object_left e d i Oe De) as H. rewrite Hz in H.
    destruct (Hs z (S d)) as (v & v' & E & E' & Hv); [right; split; [reflexivity|lia]|].
    assert (El : val (value e z (S d)) i = l) by (unfold l; rewrite E, E'; cbn [val]; symmetry; apply Hv, Hi). rewrite El in H.
    apply (left_local (fun y => val (value e y d) i) f z (c_lo e)); [lra| |exact H].
    intros y Hy. destruct (Hs y d) as (w & w' & F & F' & Hw).
    { destruct (Rlt_le_dec y z); [left; lra|right; split; [lra|lia]]. }
    unfold f. rewrite F, F'. cbn [val]. symmetry. apply Hw, Hi.
  - apply object_right; [exact Or|exact Dr|lra].
Qed.

Lemma extended_end_ok lu norm dim c (q t e : pt R) (natural : bool) mc :
  complete_solver lu -> euclidean dim norm -> clamped_object eps c -> (1 <= c_deg c <= 12)%nat ->
  value c (c_hi c) 0 = Ok e -> value c (c_hi c) 1 = Ok t -> 0 < sqlen dim t -> eps * INR (c_deg c) < extension_length dim e t q ->
  exists r, extended_to_point lu norm dim c q true natural mc = Ok r /\ clamped_object eps r /\ c_deg r = c_deg c /\
    bounds r = (c_lo c, c_hi c + extension_length dim e t q) /\
    (forall x d, c_lo c <= x < c_hi c \/ x = c_hi c /\ d = 0%nat -> same_points eps dim c r x x d) /\
    smooth_through eps dim (continuity (c_deg c) mc) r (c_hi c) /\
    passes eps dim r (c_hi r) 0 q /\
    (natural = true -> (2 < c_deg c)%nat -> passes eps dim r (c_hi r) 2 (fun _ => 0)).
Proof.
  intros Hco Hn Hc Hp Ee Et Ht HL.
  assert (HL0 : 0 < extension_length dim e t q) by (pose proof (pos_INR (c_deg c)); pose proof (Rmult_le_pos eps (INR (c_deg c)) ltac:(lra) ltac:(lra)); lra).
  destruct (extended_end_full eps lu norm dim c q t e natural mc Hco He Hc Hp Ee Et) as (r & x & Er & Or & Dr & B1 & B2 & V & Pq & Pn & _).
  - rewrite Hn. assert (0 < sqrt (sqlen dim t)) by (apply sqrt_lt_R0; exact Ht). lra.
  - rewrite (length_eq dim) by exact Hn. exact HL.
  - rewrite (length_eq dim) in B2 by exact Hn. exists r. split; [exact Er|]. split; [exact Or|]. split; [exact Dr|].
    split; [unfold bounds; congruence|]. split; [intros y d [Hy|(-> & ->)]; apply V; [left; exact Hy|right; split; [reflexivity|lia]]|].
    split; [|auto]. pose proof (object_lt eps c He Hc).
    apply (glue dim _ c r); auto; [lia|lia|lra|lra].
Qed.

Lemma extended_start_ok lu norm dim c (q t e : pt R) (natural : bool) mc :
  complete_solver lu -> euclidean dim norm -> clamped_object eps c -> (1 <= c_deg c <= 12)%nat ->
  value c (c_lo c) 0 = Ok e -> value c (c_lo c) 1 = Ok t -> 0 < sqlen dim t -> eps * INR (c_deg c) < extension_length dim e t q ->
  exists r, extended_to_point lu norm dim c q false natural mc = Ok r /\ clamped_object eps r /\ c_deg r = c_deg c /\
    bounds r = (c_lo c - extension_length dim e t q, c_hi c) /\
    (forall x d, c_lo c <= x < c_hi c \/ x = c_hi c /\ d = 0%nat -> same_points eps dim c r x x d) /\
    smooth_through eps dim (continuity (c_deg c) mc) r (c_lo c) /\
    passes eps dim r (c_lo r) 0 q /\
    (natural = true -> (2 < c_deg c)%nat -> passes eps dim r (c_lo r) 2 (fun _ => 0)).
Proof.
  intros Hco Hn Hc Hp Ee Et Ht HL. set (L := extension_length dim e t q) in *. set (p := c_deg c) in *. set (m := continuity p mc).
  assert (HL0 : 0 < L) by (pose proof (pos_INR p); pose proof (Rmult_le_pos eps (INR p) ltac:(lra) ltac:(lra)); lra).
  pose proof (object_lt eps c He Hc) as Hlt.
  unfold extended_to_point. rewrite (as_bscurve_ok eps) by (auto; lra). cbn [bind].
  destruct (object_reverse c Hc ltac:(fold p; lia)) as (c1 & E1 & O1 & D1 & L1 & H1 & V1 & S1 & _). fold p in D1. rewrite E1. cbn [bind].
  destruct (S1 0%nat) as (e0 & e1 & Q1 & Q2 & Q3). rewrite Ee in Q1. injection Q1 as <-.
  destruct (S1 1%nat) as (t0 & t1 & W1 & W2 & W3). rewrite Et in W1. injection W1 as <-.
  assert (EL : extension_length dim e1 t1 q = L).
  { unfold L, extension_length. f_equal; [apply sqlen_ext; intros i _; rewrite Q3; simpl; ring|]. apply (f_equal sqrt).
    apply sqlen_ext2. intros i _. rewrite W3. ring. }
  destruct (extended_end_full eps lu norm dim c1 q t1 e1 natural mc Hco He O1 ltac:(lia)) as (r1 & x1 & Er & Or & Dr & B1 & B2 & V & Pq & Pn & Ox & Dx & Lx & Hx & Vx).
  { rewrite H1. exact Q2. }
  { rewrite H1. exact W2. }
  { rewrite Hn. assert (Z : sqlen dim t1 = sqlen dim t) by (apply sqlen_ext2; intros i _; rewrite W3; ring). rewrite Z.
    assert (0 < sqrt (sqlen dim t)) by (apply sqrt_lt_R0; exact Ht). lra. }
  { rewrite (length_eq dim), EL by exact Hn. rewrite D1. exact HL. }
  rewrite (length_eq dim), EL in B2, Hx by exact Hn. rewrite D1 in V, Dr, Dx, Pn. fold m in V.
  rewrite Er. cbn [bind].
  destruct (object_reverse r1 Or ltac:(lia)) as (r2 & E2 & O2 & D2 & L2 & H2 & V2 & _ & S2). rewrite E2. cbn [bind].
  destruct (object_shift r2 L O2 ltac:(lia)) as (r3 & E3 & O3 & D3 & L3 & H3 & V3).
  nsimp. replace (c_hi r2 - c_hi c) with L by lra. replace (c_deg r2) with (c_deg c) in E3 by (fold p; lia).
  exists r3. split; [exact E3|]. split; [exact O3|]. split; [lia|].
  split; [unfold bounds; rewrite L3, H3; f_equal; lra|].
  (* r3 is r1 read backwards *)
  assert (R31 : forall z, c_lo c - L <= z <= c_hi c -> exists v v', value r1 (c_lo c + c_hi c - z) 0 = Ok v /\ value r3 z 0 = Ok v' /\ forall i, v' i = v i).
  { intros z Hz. destruct (V2 (c_lo c + c_hi c - z) ltac:(lra)) as (v & v2 & A1 & A2 & A3).
    destruct (V3 (z + L) 0%nat ltac:(lra)) as (w & w3 & F1 & F2 & F3).
    replace (c_lo r1 + c_hi r1 - (c_lo c + c_hi c - z)) with (z + L) in A2 by (rewrite B1, B2; lra).
    rewrite A2 in F1. injection F1 as <-. replace (z + L - L) with z in F2 by ring.
    exists v, w3. split; [exact A1|]. split; [exact F2|]. intros i. rewrite F3. apply A3. }
  assert (C0 : forall x, c_lo c <= x <= c_hi c -> same_points eps dim c r3 x x 0).
  { intros x Hz. destruct (V1 x Hz) as (v & v1 & A1 & A2 & A3). destruct (R31 x ltac:(lra)) as (w & w3 & F1 & F2 & F3).
    destruct (V (c_lo c + c_hi c - x) 0%nat) as (y & y' & G1 & G2 & G3).
    { destruct (Rlt_le_dec (c_lo c + c_hi c - x) (c_hi c1)); [left; lra|right; split; [lra|lia]]. }
    rewrite A2 in G1. injection G1 as <-. rewrite F1 in G2. injection G2 as <-.
    exists v, w3. split; [exact A1|]. split; [exact F2|]. intros i Hi. rewrite F3, G3, A3 by exact Hi. reflexivity. }
  assert (Call : forall d x, c_lo c <= x < c_hi c -> same_points eps dim c r3 x x d).
  { apply same_all; auto; try lia; try lra. intros x Hz. apply C0. lra. }
  split; [intros x d [Hz|(-> & ->)]; [apply Call; exact Hz|apply C0; lra]|].
  split.
  - destruct (object_reverse x1 Ox ltac:(lia)) as (x2 & E4 & O4 & D4 & L4 & H4 & V4 & S4 & _).
    destruct (object_shift x2 (c_hi c + L - c_lo c) O4 ltac:(lia)) as (x3 & E5 & O5 & D5 & L5 & H5 & V5).
    apply (glue dim m x3 r3); auto; try lia; try lra.
    assert (Z0 : forall x, c_lo x3 <= x < c_lo c -> same_points eps dim x3 r3 x x 0).
    { intros z Hz. destruct (R31 z ltac:(lra)) as (w & w3 & F1 & F2 & F3).
      destruct (V4 (c_lo c + c_hi c - z) ltac:(lra)) as (y & y2 & G1 & G2 & G3).
      destruct (V5 (z + (c_hi c + L - c_lo c)) 0%nat ltac:(lra)) as (a & a3 & I1 & I2 & I3).
      replace (c_lo x1 + c_hi x1 - (c_lo c + c_hi c - z)) with (z + (c_hi c + L - c_lo c)) in G2 by lra.
      rewrite G2 in I1. injection I1 as <-. replace (z + (c_hi c + L - c_lo c) - (c_hi c + L - c_lo c)) with z in I2 by ring.
      destruct (Vx (c_lo c + c_hi c - z) 0%nat ltac:(lra)) as (b & b' & J1 & J2 & J3).
      rewrite G1 in J1. injection J1 as <-. rewrite F1 in J2. injection J2 as <-.
      exists a3, w3. split; [exact I2|]. split; [exact F2|]. intros i Hi. rewrite F3, J3, I3, G3 by exact Hi. reflexivity. }
    intros x d [Hz|(-> & Hd)].
    + apply (same_all dim x3 r3 (c_lo x3) (c_lo c)); auto; try lia; try lra.
    + destruct (Call d (c_lo c) ltac:(lra)) as (v & v3 & A1 & A2 & A3).
      destruct (S1 d) as (u & u1 & K1 & K2 & K3). rewrite A1 in K1. injection K1 as <-.
      destruct (V (c_hi c1) d) as (y & y' & G1 & G2 & G3); [right; auto|]. rewrite H1 in G1. rewrite K2 in G1. injection G1 as <-.
      destruct (Vx (c_lo x1) d ltac:(lra)) as (b & b' & J1 & J2 & J3). rewrite Lx in J2. rewrite G2 in J2. injection J2 as <-.
      destruct (S4 d) as (s & s2 & M1 & M2 & M3). rewrite J1 in M1. injection M1 as <-.
      destruct (V5 (c_hi x1) d ltac:(lra)) as (a & a3 & I1 & I2 & I3). rewrite M2 in I1. injection I1 as <-.
      replace (c_hi x1 - (c_hi c + L - c_lo c)) with (c_lo c) in I2 by lra.
      exists a3, v3. split; [exact I2|]. split; [exact A2|]. intros i Hi. rewrite A3, I3, M3 by exact Hi.
      rewrite <- J3, G3, K3 by exact Hi. rewrite <- Rmult_assoc, <- Rpow_mult_distr.
      replace (-1 * -1) with 1 by ring. rewrite pow1. ring.
  - split.
    2:{ intros N1 N2. destruct (Pn N1 N2) as (v & Ev & Hv). destruct (S2 2%nat) as (w & w2 & F1 & F2 & F3). rewrite Ev in F1. injection F1 as <-.
        destruct (V3 (c_lo r2) 2%nat ltac:(lra)) as (a & a3 & I1 & I2 & I3). rewrite L2, F2 in I1. injection I1 as <-.
        exists a3. rewrite L3. split; [exact I2|]. intros i Hi. rewrite I3, F3, Hv by exact Hi. ring. }
    destruct Pq as (v & Ev & Hv). destruct (R31 (c_lo c - L) ltac:(lra)) as (w & w3 & F1 & F2 & F3).
    replace (c_lo c + c_hi c - (c_lo c - L)) with (c_hi r1) in F1 by lra. rewrite Ev in F1. injection F1 as <-.
    exists w3. replace (c_lo r3) with (c_lo c - L) by lra. split; [exact F2|]. intros i Hi. rewrite F3. apply Hv, Hi.
Qed.

Lemma sqlen_scal dim a s : sqlen dim (fun i => s * a i) = s ^ 2 * sqlen dim a.
Proof. induction dim as [|m IH]; cbn [sqlen]; [ring|]. rewrite IH. ring. Qed.

Lemma extended_ok lu norm length_of dim c (t e : pt R) l (at_end relative natural : bool) mc :
  let x := if at_end then c_hi c else c_lo c in
  let s := if at_end then 1 else -1 in
  let l' := if relative then l * length_of c else l in
  let L := l' ^ 2 / sqrt (sqlen dim t) in
  complete_solver lu -> euclidean dim norm -> clamped_object eps c -> (1 <= c_deg c <= 12)%nat ->
  value c x 0 = Ok e -> value c x 1 = Ok t -> 0 < sqlen dim t -> eps * INR (c_deg c) < L ->
  exists r, extended lu norm length_of dim c l at_end relative natural mc = Ok r /\ clamped_object eps r /\ c_deg r = c_deg c /\
    bounds r = (if at_end then (c_lo c, c_hi c + L) else (c_lo c - L, c_hi c)) /\
    (forall y d, c_lo c <= y < c_hi c \/ y = c_hi c /\ d = 0%nat -> same_points eps dim c r y y d) /\
    smooth_through eps dim (continuity (c_deg c) mc) r x /\
    passes eps dim r (if at_end then c_hi r else c_lo r) 0 (fun i => e i + s * l' * t i / sqrt (sqlen dim t)) /\
    (natural = true -> (2 < c_deg c)%nat -> passes eps dim r (if at_end then c_hi r else c_lo r) 2 (fun _ => 0)).
Proof.
  intros x s l' L Hco Hn Hc Hp Ee Et Ht HL.
  assert (Hs : 0 < sqrt (sqlen dim t)) by (apply sqrt_lt_R0; exact Ht).
  unfold extended. fold x. rewrite Et. cbn [bind]. unfold pdiv.
  assert (Hnt : norm (if at_end then t else pscal (nopp n1) t) = sqrt (sqlen dim t)).
  { rewrite Hn. apply (f_equal sqrt). destruct at_end; [reflexivity|]. unfold pscal. nsimp. apply sqlen_ext2. intros i _. ring. }
  rewrite Hnt. rewrite (divc_ok eps) by lra. cbn [bind]. rewrite Ee. cbn [bind].
  set (q := padd e _).
  assert (Eq : forall i, q i = e i + s * l' * t i / sqrt (sqlen dim t)).
  { intros i. unfold q, padd, pscal, s, l'. destruct at_end, relative; nsimp; field; lra. }
  assert (EL : extension_length dim e t q = L).
  { unfold extension_length, L. f_equal. rewrite (sqlen_ext dim _ (fun i => (- s * l' / sqrt (sqlen dim t)) * t i)).
    - rewrite sqlen_scal. replace ((- s * l' / sqrt (sqlen dim t)) ^ 2) with ((s * s) * l' ^ 2 / (sqrt (sqlen dim t) * sqrt (sqlen dim t))) by (field; lra).
      rewrite sqrt_sqrt by lra. unfold s. destruct at_end; field; lra.
    - intros i _. rewrite Eq. field. lra. }
  assert (Tr : forall r y, passes eps dim r y 0 q -> passes eps dim r y 0 (fun i => e i + s * l' * t i / sqrt (sqlen dim t))).
  { intros r y (v & Ev & Hv). exists v. split; [exact Ev|]. intros i Hi. rewrite Hv by exact Hi. apply Eq. }
  rewrite <- EL in HL |- *.
  destruct at_end; unfold x in *.
  - destruct (extended_end_ok lu norm dim c q t e natural mc Hco Hn Hc Hp Ee Et Ht HL) as (r & A1 & A2 & A3 & A4 & A5 & A6 & A7 & A8).
    exists r. repeat (split; [auto|]). auto.
  - destruct (extended_start_ok lu norm dim c q t e natural mc Hco Hn Hc Hp Ee Et Ht HL) as (r & A1 & A2 & A3 & A4 & A5 & A6 & A7 & A8).
    exists r. repeat (split; [auto|]). auto.
Qed.
End AtR.
