(** Member functions of the curve class: evaluation guard, reversal, change of bounds. *)
From Coq Require Import List Arith ZArith Reals Lia Lra Bool Permutation.
From Verif Require Import Model_Base Model_Basis Model_Knots Model_Rational Model_Curve
  Spec_Base Spec_Basis Spec_Eval Spec_Class Proof_Base Proof_Blossom Proof_Basis Proof_Ders Proof_Eval
  Proof_Refine Proof_Boehm Proof_Continuity Proof_Trim Proof_Unique Proof_PropRemove2
  Proof_Total Proof_Ctor Proof_Affine.
Import ListNotations.
Local Open Scope R_scope.

Lemma count_window (k : list R) u : forall lo m, (forall i, (lo <= i < lo + m)%nat -> kn k i = u) ->
  (lo + m <= length k)%nat -> (m <= count_occ Req_EM_T k u)%nat.
Proof.
  induction k as [|x k IH]; intros lo m H Hl; simpl in Hl; [lia|].
  destruct lo as [|lo].
  - destruct m as [|m]; [lia|]. assert (x = u) by (apply (H 0%nat); lia). subst x.
    rewrite count_occ_cons_eq by auto. apply le_n_S. apply (IH 0%nat m); [|lia].
    intros i Hi. apply (H (S i)). lia.
  - assert (m <= count_occ Req_EM_T k u)%nat.
    { apply (IH lo m); [|lia]. intros i Hi. apply (H (S i)). lia. }
    simpl. destruct (Req_EM_T x u); lia.
Qed.

(** C^{p-m} continuity. *)
Lemma PS_continuous_d k n p l2 l P u d :
  knots_ok k n p -> (p <= l2)%nat -> (l2 <= l)%nat -> (l < n)%nat ->
  kn k l2 < kn k (S l2) -> kn k l < kn k (S l) ->
  (forall x, (l2 < x <= l)%nat -> kn k x = u) -> (d + (l - l2) <= p)%nat ->
  PS k p l d P u = PS k p l2 d P u.
Proof.
  intros Hk H1 H2 H3 Hs2 Hs Hu Hmu. rewrite !PS_blo. f_equal.
  assert (Pm : Permutation (repeat (1, 0) d ++ repeat (u, 1) (p - d))
     (repeat (u, 1) (l - l2) ++ (repeat (1, 0) d ++ repeat (u, 1) (p - d - (l - l2))))).
  { replace (p - d)%nat with ((l - l2) + (p - d - (l - l2)))%nat at 1 by lia.
    rewrite repeat_app. rewrite !app_assoc. apply Permutation_app_tail, Permutation_app_comm. }
  assert (L1 : length (repeat (1, 0) d ++ repeat (u, 1) (p - d)) = p)
    by (rewrite app_length, !repeat_length; lia).
  rewrite (proj1 (blo_symml k n p l P Hk ltac:(lia) Hs) _ _ L1 Pm).
  rewrite (proj1 (blo_symml k n p l2 P Hk ltac:(lia) Hs2) _ _ L1 Pm).
  apply (blo_agree k n p); auto; try lia. rewrite app_length, !repeat_length; lia.
Qed.

Section AtR.
Variable eps : R.
Local Hint Extern 0 (Num R) => exact (NumR eps) : typeclass_instances.

Lemma oob_spec (c : curve R) u : BoolSpec (u < c_lo c - eps \/ c_hi c + eps < u) (~ (u < c_lo c - eps \/ c_hi c + eps < u)) (out_of_bounds c u).
Proof.
  unfold out_of_bounds. nsimp.
  destruct (Rltb_spec u (c_lo c - eps)); destruct (Rltb_spec (c_hi c + eps) u); simpl; constructor; lra.
Qed.

Lemma wf_ends c : well_formed c -> ends_ok (c_knots c) (c_n c) (c_deg c).
Proof. intros ((A & B & C) & D & E). repeat split; auto. Qed.
Lemma wf_knots c : well_formed c -> knots_ok (c_knots c) (c_n c) (c_deg c).
Proof. intros ((A & B & C) & D & E). repeat split; auto. Qed.

(** C14 *)
Lemma value_guard (c : curve R) u d : 0 <= eps -> well_formed c ->
  (value c u d = Throw OutOfBoundsEval <-> u < c_lo c - eps \/ c_hi c + eps < u) /\
  (c_lo c - eps <= u <= c_hi c + eps -> exists q, value c u d = Ok q).
Proof.
  intros He Hc. unfold value.
  destruct (eval_value_total eps He _ _ _ (c_poles c) u d (wf_ends c Hc) eq_refl) as (q & E).
  destruct (oob_spec c u) as [H|H].
  - split; [tauto|intros; lra].
  - rewrite E. split; [|eauto]. split; [congruence|tauto].
Qed.

Lemma derivatives_guard (c : curve R) u m : 0 <= eps -> well_formed c ->
  (derivatives c u m = Throw OutOfBoundsEval <-> u < c_lo c - eps \/ c_hi c + eps < u) /\
  (c_lo c - eps <= u <= c_hi c + eps -> exists q, derivatives c u m = Ok q /\ length q = (m + 1)%nat).
Proof.
  intros He Hc. unfold derivatives.
  destruct (eval_ders_total eps He _ _ _ (c_poles c) u m (wf_ends c Hc) eq_refl) as (q & E & L).
  destruct (oob_spec c u) as [H|H].
  - split; [tauto|intros; lra].
  - rewrite E. split; [|eauto]. split; [congruence|tauto].
Qed.

Lemma rational_value_guard dim (c : curve R) u : 0 <= eps -> well_formed c ->
  (rational_value dim c u 0 = Throw OutOfBoundsEval <-> u < c_lo c - eps \/ c_hi c + eps < u) /\
  (c_lo c - eps <= u <= c_hi c + eps -> exists q, rational_value dim c u 0 = Ok q).
Proof.
  intros He Hc. unfold rational_value, eval_rational_value, eval_rational_rec. simpl Nat.eqb. cbv iota.
  destruct (eval_value_total eps He _ _ _ (c_poles c) u 0 (wf_ends c Hc) eq_refl) as (q & E).
  destruct (oob_spec c u) as [H|H].
  - split; [tauto|intros; lra].
  - rewrite E. cbn [bind]. split; [|eauto]. split; [congruence|tauto].
Qed.

(** Value of a curve object in its domain. *)
Lemma value_CV c x d : well_formed c -> evaluable_curve eps c -> out_of_bounds c x = false ->
  in_domain c x -> (d <= c_deg c)%nat ->
  exists q, value c x d = Ok q /\ forall i, q i = CV (c_knots c) (c_n c) (c_deg c) d (pole (c_poles c) i) x.
Proof.
  intros Hc He Ho Hx Hd. unfold value. rewrite Ho.
  apply (CV_eval eps); auto. apply wf_knots; auto.
Qed.

(** Reversal of a knot list. *)
Definition krev (k : list R) : list R := map (fun x => kn k 0 + kn k (length k - 1) - x) (rev k).

Lemma krev_kn k j : (j < length k)%nat -> kn (krev k) j = kn k 0 + kn k (length k - 1) - kn k (length k - 1 - j).
Proof.
  intros H. unfold krev, kn at 1.
  rewrite (nth_indep _ 0 (kn k 0 + kn k (length k - 1) - 0)) by (rewrite map_length, rev_length; auto).
  rewrite (map_nth (fun x => kn k 0 + kn k (length k - 1) - x)). f_equal.
  rewrite rev_nth by auto. unfold kn. f_equal. lia.
Qed.
Lemma krev_length k : length (krev k) = length k.
Proof. unfold krev. rewrite map_length, rev_length. reflexivity. Qed.

Lemma krev_krev k : k <> [] -> krev (krev k) = k.
Proof.
  intros Hne. assert (L : (0 < length k)%nat) by (destruct k; [congruence|simpl; lia]).
  assert (E : kn (krev k) 0 + kn (krev k) (length (krev k) - 1) = kn k 0 + kn k (length k - 1)).
  { rewrite krev_length, !krev_kn by lia. rewrite Nat.sub_0_r, Nat.sub_diag. ring. }
  unfold krev at 1. rewrite E. unfold krev. rewrite <- map_rev, rev_involutive, map_map.
  transitivity (map (fun x => x) k); [apply map_ext; intros x; ring|apply map_id].
Qed.

Lemma pole_rev (P : list (pt R)) c j : (j < length P)%nat -> pole (rev P) c j = pole P c (length P - 1 - j).
Proof.
  intros H. unfold pole. rewrite rev_nth by exact H. replace (length P - S j)%nat with (length P - 1 - j)%nat by lia. reflexivity.
Qed.

Definition rev_curve (c : curve R) : curve R :=
  mk (c_deg c) (rev (c_poles c)) (krev (c_knots c)) (c_lo c) (c_hi c).

Lemma reverse_eq c : c_knots c <> [] -> reverse c = Ok (rev_curve c).
Proof.
  intros Hne. unfold reverse, rev_curve, krev.
  assert (Hf : front (c_knots c) = Ok (kn (c_knots c) 0)) by (destruct (c_knots c); [congruence|reflexivity]).
  rewrite Hf, back_kn by (destruct (c_knots c); [congruence|simpl; lia]). reflexivity.
Qed.

Lemma rev_curve_wf c : well_formed c -> well_formed (rev_curve c).
Proof.
  intros ((A & B & C) & D & E). unfold well_formed, shape_ok, c_n, rev_curve in *. cbn [c_knots c_deg c_poles] in *.
  rewrite rev_length, krev_length.
  assert (M : forall j, (j < length (c_knots c))%nat -> kn (krev (c_knots c)) j =
     kn (c_knots c) 0 + kn (c_knots c) (length (c_knots c) - 1) - kn (c_knots c) (length (c_knots c) - 1 - j))
    by apply krev_kn.
  repeat split; auto.
  - intros i j Hij Hj. rewrite krev_length in Hj. rewrite !M by lia.
    assert (kn (c_knots c) (length (c_knots c) - 1 - j) <= kn (c_knots c) (length (c_knots c) - 1 - i)) by (apply C; lia).
    lra.
  - rewrite !M by lia. replace (length (c_knots c) - 1 - c_deg c)%nat with (length (c_poles c)) by lia.
    replace (length (c_knots c) - 1 - S (c_deg c))%nat with (length (c_poles c) - 1)%nat by lia. lra.
  - rewrite !M by lia. replace (length (c_knots c) - 1 - (length (c_poles c) - 1))%nat with (S (c_deg c)) by lia.
    replace (length (c_knots c) - 1 - length (c_poles c))%nat with (c_deg c) by lia. lra.
Qed.

Lemma rev_CV c x d i : well_formed c -> in_domain c x -> smooth_at c x d -> (d <= c_deg c)%nat ->
  CV (krev (c_knots c)) (c_n c) (c_deg c) d (pole (rev (c_poles c)) i)
     (kn (c_knots c) 0 + kn (c_knots c) (c_n c + c_deg c) - x)
  = (-1) ^ d * CV (c_knots c) (c_n c) (c_deg c) d (pole (c_poles c) i) x.
Proof.
  intros Hc Hx Hsm Hd. pose proof (wf_knots c Hc) as Hk. pose proof (wf_knots _ (rev_curve_wf c Hc)) as Hk'.
  destruct Hc as ((A & B & C) & D & E).
  unfold smooth_at, in_domain in *. unfold rev_curve, c_n in Hk'. cbn [c_knots c_deg c_poles] in Hk'.
  rewrite rev_length in Hk'. fold (c_n c) in Hk'.
  set (k := c_knots c) in *. set (n := c_n c) in *. set (p := c_deg c) in *.
  set (beta := kn k 0 + kn k (n + p)).
  assert (M : forall j, (j <= n + p)%nat -> kn (krev k) j = beta - kn k (n + p - j)).
  { intros j Hj. rewrite krev_kn by lia. unfold beta. replace (length k - 1)%nat with (n + p)%nat by lia. reflexivity. }
  assert (PR : forall j, (j < n)%nat -> pole (rev (c_poles c)) i j = pole (c_poles c) i (n - 1 - j)).
  { intros j Hj. apply pole_rev. exact Hj. }
  assert (Go : forall l, (p <= l < n)%nat -> kn k l < kn k (S l) ->
     span_at (krev k) n (beta - x) (n + p - 1 - l) -> CV k n p d (pole (c_poles c) i) x = PS k p l d (pole (c_poles c) i) x ->
     CV (krev k) n p d (pole (rev (c_poles c)) i) (beta - x) = (-1) ^ d * CV k n p d (pole (c_poles c) i) x).
  { intros l Hl Hs Hsp Ecv. rewrite (CV_at (krev k) n p d _ (beta - x) (n + p - 1 - l)) by (auto; lia).
    rewrite Ecv. apply PS_rev; auto. }
  destruct (span_at_ex eps n p x k Hk Hx) as (l & Hl & Sx & Hs).
  destruct (Req_dec x (kn k n)) as [En|En].
  - (* the end *)
    assert (l = (n - 1)%nat).
    { destruct Sx as [Sx|[_ Sx]]; auto. assert (kn k (S l) <= kn k n) by (apply C; lia). lra. }
    subst l. apply (Go (n - 1)%nat); auto; [|apply CV_at; auto].
    left. rewrite !M by lia. replace (n + p - (n + p - 1 - (n - 1)))%nat with n by lia.
    replace (n + p - S (n + p - 1 - (n - 1)))%nat with (n - 1)%nat by lia. lra.
  - destruct (Rle_lt_dec x (kn k l)) as [Hle|Hlt].
    + (* x is the knot k_l *)
      destruct Sx as [Sx|[Sx _]]; [|congruence]. assert (x = kn k l) by lra.
      destruct (Rle_lt_dec x (kn k p)) as [Hp|Hp].
      * (* the start *)
        assert (l = p).
        { destruct (Nat.eq_dec l p); auto. assert (kn k (S p) <= kn k l) by (apply C; lia). lra. }
        apply (Go l); auto; [|apply CV_at; auto; left; lra].
        right. split; [|lia]. rewrite M by lia. replace (n + p - n)%nat with p by lia. lra.
      * (* an interior knot *)
        assert (Hdom : kn k p < x < kn k n) by lra.
        assert (Hx' : kn (krev k) p <= beta - x <= kn (krev k) n).
        { rewrite !M by lia. replace (n + p - p)%nat with n by lia. replace (n + p - n)%nat with p by lia. lra. }
        destruct (span_at_ex eps n p (beta - x) (krev k) Hk' Hx') as (m & Hm & Sm & Hsm').
        destruct Sm as [Sm|[Sm _]].
        2: { rewrite M in Sm by lia. replace (n + p - n)%nat with p in Sm by lia. lra. }
        set (l2 := (n + p - 1 - m)%nat).
        assert (Hl2 : (p <= l2 < n)%nat) by (unfold l2; lia).
        assert (E2 : kn k l2 < x <= kn k (S l2)).
        { rewrite !M in Sm by lia. replace (n + p - S m)%nat with l2 in Sm by (unfold l2; lia).
          replace (n + p - m)%nat with (S l2) in Sm by (unfold l2; lia). lra. }
        assert (Hlt2 : (l2 < l)%nat).
        { destruct (Nat.lt_ge_cases l2 l); auto. assert (kn k l <= kn k l2) by (apply C; lia). lra. }
        assert (Hmid : forall y, (l2 < y <= l)%nat -> kn k y = x).
        { intros y Hy. assert (kn k (S l2) <= kn k y) by (apply C; lia).
          assert (kn k y <= kn k l) by (apply C; lia). lra. }
        assert (Hcnt : (l - l2 <= count_occ Req_EM_T k x)%nat).
        { apply (count_window k x (S l2) (l - l2)); [|lia]. intros y Hy; apply Hmid; lia. }
        apply (Go l2); auto; try lra.
        -- left. replace (n + p - 1 - l2)%nat with m by (unfold l2; lia). exact Sm.
        -- rewrite (CV_at k n p d _ x l) by (auto; left; lra).
           apply (PS_continuous_d k n p); auto; try lia; try lra.
           destruct (Hsm Hdom) as [H0|H0]; lia.
    + destruct Sx as [Sx|[Sx _]]; [|congruence].
      apply (Go l); auto; [|apply CV_at; auto; left; lra].
      left. rewrite !M by lia. replace (n + p - (n + p - 1 - l))%nat with (S l) by lia.
      replace (n + p - S (n + p - 1 - l))%nat with l by lia. lra.
Qed.

Lemma value_high c u d : out_of_bounds c u = false -> (c_deg c < d)%nat -> value c u d = Ok (pzero : pt R).
Proof.
  intros Ho Hd. unfold value. rewrite Ho. apply (eval_value_high eps). exact Hd.
Qed.

Lemma reverse_prop c : 0 <= eps -> well_formed c -> natural_bounds c ->
  exists c', reverse c = Ok c' /\ bounds c' = bounds c /\ c_deg c' = c_deg c /\ c_n c' = c_n c /\
    well_formed c' /\ natural_bounds c' /\ reverse c' = Ok c /\
    (evaluable_curve eps c -> evaluable_curve eps c' ->
     forall x d, in_domain c x -> smooth_at c x d ->
     exists q q', value c x d = Ok q /\ value c' (c_lo c + c_hi c - x) d = Ok q' /\
       forall i, q' i = (-1) ^ d * q i).
Proof.
  intros He Hc (B1 & B2). pose proof Hc as ((A & B & C) & D & E).
  assert (Hne : c_knots c <> []) by (intros Hn; rewrite Hn in A; simpl in A; lia).
  assert (Ln : c_n (rev_curve c) = c_n c) by (unfold c_n, rev_curve; cbn [c_poles]; apply rev_length).
  assert (Hnb : natural_bounds (rev_curve c)).
  { unfold natural_bounds. rewrite Ln. unfold rev_curve; cbn [c_lo c_hi c_knots c_deg].
    rewrite !krev_kn by lia. rewrite Nat.sub_0_r. replace (length (c_knots c) - 1)%nat with (c_n c + c_deg c)%nat by lia.
    rewrite Nat.sub_diag. rewrite <- B1, <- B2. split; ring. }
  exists (rev_curve c). split; [apply reverse_eq; auto|]. split; [reflexivity|]. split; [reflexivity|].
  split; [exact Ln|]. split; [apply rev_curve_wf; auto|]. split; [exact Hnb|]. split.
  - rewrite reverse_eq.
    + unfold rev_curve; cbn [c_lo c_hi c_knots c_deg c_poles]. rewrite rev_involutive, krev_krev by auto.
      destruct c; reflexivity.
    + cbn [c_knots rev_curve]. intros Hn. apply (f_equal (@length R)) in Hn. rewrite krev_length in Hn. simpl in Hn; lia.
  - intros Hev Hev' x d Hx Hsm.
    assert (Hb : c_lo c <= x <= c_hi c).
    { rewrite B1, B2. unfold in_domain in Hx.
      assert (kn (c_knots c) 0 <= kn (c_knots c) (c_deg c)) by (apply C; lia).
      assert (kn (c_knots c) (c_n c) <= kn (c_knots c) (c_n c + c_deg c)) by (apply C; lia). lra. }
    assert (O1 : out_of_bounds c x = false) by (destruct (oob_spec c x); [lra|reflexivity]).
    assert (O2 : out_of_bounds (rev_curve c) (c_lo c + c_hi c - x) = false)
      by (destruct (oob_spec (rev_curve c) (c_lo c + c_hi c - x)) as [H|H]; [cbn [rev_curve c_lo c_hi] in H; lra|reflexivity]).
    destruct (Nat.le_gt_cases d (c_deg c)) as [Hd|Hd].
    + destruct (value_CV c x d Hc Hev O1 Hx Hd) as (q & Eq & Vq).
      destruct (value_CV (rev_curve c) (c_lo c + c_hi c - x) d (rev_curve_wf c Hc) Hev' O2) as (q' & Eq' & Vq'); auto.
      { unfold in_domain in *. rewrite Ln. unfold rev_curve. cbn [c_knots c_deg]. rewrite B1, B2.
        rewrite !krev_kn by lia. replace (length (c_knots c) - 1)%nat with (c_n c + c_deg c)%nat by lia.
        replace (c_n c + c_deg c - c_deg c)%nat with (c_n c) by lia.
        replace (c_n c + c_deg c - c_n c)%nat with (c_deg c) by lia. lra. }
      exists q, q'. split; [exact Eq|]. split; [exact Eq'|]. intros i. rewrite Vq, Vq', Ln.
      cbn [rev_curve c_knots c_deg c_poles]. rewrite B1, B2. apply rev_CV; auto.
    + exists pzero, pzero. rewrite !value_high by auto. split; [reflexivity|]. split; [reflexivity|].
      intros i. unfold pzero. nsimp. ring.
Qed.

(** C21 *)
Lemma change_bounds_eq (k : list R) a b : k <> [] -> kn k 0 <> kn k (length k - 1) ->
  change_bounds a b k = Ok (map (fun x => a + (b - a) * (x - kn k 0) / (kn k (length k - 1) - kn k 0)) k).
Proof.
  intros Hne Hd. unfold change_bounds.
  assert (Hf : front k = Ok (kn k 0)) by (destruct k; [congruence|reflexivity]).
  rewrite Hf, back_kn by (destruct k; [congruence|simpl; lia]). cbn [bind].
  apply mapM_ok. intros x _. nsimp. rewrite (divc_ok eps) by lra. reflexivity.
Qed.

Lemma change_prop c a b : 0 <= eps -> well_formed c -> natural_bounds c -> a < b ->
  exists c', changeBounds c a b = Ok c' /\ bounds c' = (a, b) /\ c_deg c' = c_deg c /\ c_n c' = c_n c /\
    well_formed c' /\ natural_bounds c' /\
    (forall i, (i < length (c_knots c))%nat -> kn (c_knots c') i =
       a + (b - a) * (kn (c_knots c) i - c_lo c) / (c_hi c - c_lo c)) /\
    (evaluable_curve eps c -> evaluable_curve eps c' ->
     forall x d, in_domain c x ->
     exists q q', value c x d = Ok q /\
       value c' (a + (b - a) * (x - c_lo c) / (c_hi c - c_lo c)) d = Ok q' /\
       forall i, ((b - a) / (c_hi c - c_lo c)) ^ d * q' i = q i).
Proof.
  intros He Hc (B1 & B2) Hab. pose proof Hc as ((A & B & C) & D & E).
  assert (Hne : c_knots c <> []) by (intros Hn; rewrite Hn in A; simpl in A; lia).
  replace (c_n c + c_deg c)%nat with (length (c_knots c) - 1)%nat in B2 by lia.
  assert (Hlt : c_lo c < c_hi c).
  { rewrite B1, B2. assert (kn (c_knots c) 0 <= kn (c_knots c) (c_deg c)) by (apply C; lia).
    assert (kn (c_knots c) (S (c_deg c)) <= kn (c_knots c) (length (c_knots c) - 1)) by (apply C; lia). lra. }
  set (f := fun x => a + (b - a) * (x - c_lo c) / (c_hi c - c_lo c)).
  assert (Ef : forall x, f x = (b - a) / (c_hi c - c_lo c) * x + (a - (b - a) / (c_hi c - c_lo c) * c_lo c)).
  { intros x. unfold f. field. lra. }
  set (alpha := (b - a) / (c_hi c - c_lo c)) in *. set (beta := a - alpha * c_lo c) in *.
  assert (Ha : 0 < alpha) by (unfold alpha; apply Rdiv_lt_0_compat; lra).
  assert (Fm : forall x y, x <= y -> f x <= f y).
  { intros x y H. rewrite !Ef. apply Rplus_le_compat_r. apply Rmult_le_compat_l; lra. }
  assert (Fs : forall x y, x < y -> f x < f y).
  { intros x y H. rewrite !Ef. apply Rplus_lt_compat_r. apply Rmult_lt_compat_l; lra. }
  set (k' := map f (c_knots c)).
  assert (Ek : change_bounds a b (c_knots c) = Ok k').
  { rewrite change_bounds_eq by (auto; lra). unfold k', f. rewrite B1, B2. reflexivity. }
  assert (L' : length k' = length (c_knots c)) by apply map_length.
  assert (K' : forall i, (i < length (c_knots c))%nat -> kn k' i = f (kn (c_knots c) i)).
  { intros i Hi. unfold kn, k'. rewrite (nth_indep _ 0 (f 0)) by (rewrite map_length; auto). apply map_nth. }
  assert (F0 : f (c_lo c) = a) by (unfold f; field; lra).
  assert (F1 : f (c_hi c) = b) by (unfold f; field; lra).
  exists (mk (c_deg c) (c_poles c) k' a b). unfold changeBounds. rewrite Ek. cbn [bind].
  split; [reflexivity|]. split; [reflexivity|]. split; [reflexivity|]. split; [reflexivity|].
  assert (Hwf : well_formed (mk (c_deg c) (c_poles c) k' a b)).
  { unfold well_formed, shape_ok, c_n in *. cbn [c_knots c_deg c_poles]. rewrite L'.
    repeat split; auto.
    - intros i j Hij Hj. rewrite L' in Hj. rewrite !K' by lia. apply Fm, C; lia.
    - rewrite !K' by lia. apply Fs; auto.
    - rewrite !K' by lia. apply Fs; auto. }
  split; [exact Hwf|].
  assert (Hnb : natural_bounds (mk (c_deg c) (c_poles c) k' a b)).
  { unfold natural_bounds, c_n in *. cbn [c_knots c_deg c_poles c_lo c_hi]. rewrite !K' by lia.
    rewrite <- B1. replace (length (c_poles c) + c_deg c)%nat with (length (c_knots c) - 1)%nat by lia.
    rewrite <- B2. split; auto. }
  split; [exact Hnb|]. split; [exact K'|].
  intros Hev Hev' x d Hx. fold (f x).
  assert (Hb : c_lo c <= x <= c_hi c).
  { rewrite B1, B2. unfold in_domain in Hx.
    assert (kn (c_knots c) 0 <= kn (c_knots c) (c_deg c)) by (apply C; lia).
    assert (kn (c_knots c) (c_n c) <= kn (c_knots c) (length (c_knots c) - 1)) by (apply C; lia). lra. }
  set (c' := mk (c_deg c) (c_poles c) k' a b) in *.
  assert (O1 : out_of_bounds c x = false) by (destruct (oob_spec c x); [lra|reflexivity]).
  assert (O2 : out_of_bounds c' (f x) = false).
  { destruct (oob_spec c' (f x)) as [H|H]; [|reflexivity]. cbn [c' c_lo c_hi] in H.
    pose proof (Fm (c_lo c) x ltac:(lra)). pose proof (Fm x (c_hi c) ltac:(lra)). lra. }
  destruct (Nat.le_gt_cases d (c_deg c)) as [Hd|Hd].
  - destruct (value_CV c x d Hc Hev O1 Hx Hd) as (q & Eq & Vq).
    assert (Hx' : in_domain c' (f x)).
    { unfold in_domain, c_n in *. cbn [c' c_knots c_deg c_poles]. rewrite !K' by lia.
      split; apply Fm; lra. }
    destruct (value_CV c' (f x) d Hwf Hev' O2 Hx' Hd) as (q' & Eq' & Vq').
    exists q, q'. split; [exact Eq|]. split; [exact Eq'|]. intros i. rewrite Vq, Vq'.
    destruct (span_at_ex eps _ _ x _ (wf_knots c Hc) Hx) as (l & Hl & Sx & Hs).
    rewrite (CV_at _ _ _ d _ x l (wf_knots c Hc) Hl Sx).
    assert (Sx' : span_at (c_knots c') (c_n c') (f x) l).
    { unfold c_n in *. cbn [c' c_knots c_poles]. destruct Sx as [Sx|[-> ->]].
      - left. rewrite !K' by lia. split; [apply Fm|apply Fs]; lra.
      - right. rewrite K' by lia. auto. }
    rewrite (CV_at _ _ _ d _ (f x) l (wf_knots c' Hwf) Hl Sx'). cbn [c' c_knots c_deg c_poles].
    rewrite (Ef x). fold alpha beta. apply PS_aff; auto; [lra|].
    unfold c_n in *. intros j Hj. rewrite K' by lia. apply Ef.
  - exists pzero, pzero. rewrite !value_high by auto. split; [reflexivity|]. split; [reflexivity|].
    intros i. unfold pzero. nsimp. ring.
Qed.

Lemma change_zero_length c a b : kn (c_knots c) 0 = kn (c_knots c) (length (c_knots c) - 1) ->
  c_knots c <> [] -> changeBounds c a b = Undef DivByZero.
Proof.
  intros H Hne. unfold changeBounds, change_bounds.
  assert (Hf : front (c_knots c) = Ok (kn (c_knots c) 0)) by (destruct (c_knots c); [congruence|reflexivity]).
  rewrite Hf, back_kn by (destruct (c_knots c); [congruence|simpl; lia]). cbn [bind].
  rewrite <- H. destruct (c_knots c) as [|x t]; [congruence|]. cbn [mapM]. nsimp.
  replace (kn (x :: t) 0 - kn (x :: t) 0) with 0 by ring. rewrite (divc_zero eps). reflexivity.
Qed.
End AtR.
