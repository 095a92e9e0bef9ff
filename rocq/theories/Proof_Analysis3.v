(** Lemmas on the sampling of curves, part 3: what the sampling misses (C84). *)
From Coq Require Import List Arith ZArith Reals Lia Lra Bool.
From Verif Require Import Model_Base Model_Curve Model_Vec Model_Math Model_Wrap Model_Analysis
  Spec_Base Spec_Build Spec_Analysis Proof_Base Proof_Build Proof_Builders Proof_Analysis Proof_Analysis2.
Import ListNotations.
Local Open Scope R_scope.


Lemma linked_width e a l b : linked (fun x y => y - x <= e) a (l ++ [b]) -> b - a <= e * INR (S (length l)).
Proof.
  revert a. induction l as [|c t IH]; intros a H; cbn [app linked] in H.
  - destruct H as (H & _). simpl. lra.
  - destruct H as (H & Ht). specialize (IH c Ht). cbn [length]. rewrite S_INR. lra.
Qed.
Lemma adjacent_linked (P : R -> R -> Prop) a l : (forall x y, adjacent (a :: l) x y -> P x y) -> linked P a l.
Proof.
  revert a. induction l as [|b t IH]; intros a Ha; cbn [linked]; [trivial|]. split; [apply Ha; exists [], t; reflexivity|].
  apply IH. intros x y (l1 & l2 & El). apply Ha. exists (a :: l1), l2. cbn [app]. rewrite El. reflexivity.
Qed.

Section AtR.
Variable eps : R.
Local Hint Extern 0 (Num R) => exact (NumR eps) : typeclass_instances.

Lemma plot_near f a b : near_chord 2 0 (fun u => g_value (plot f) u 0) a b -> a < b ->
  f ((a + b) / 2) = (f a + f b) / 2.
Proof.
  intros H Hab. destruct (H _ _ _ eq_refl eq_refl eq_refl) as [E|(t & E)].
  - specialize (E 0%nat ltac:(lia)). cbn in E. lra.
  - rewrite Rmult_0_l, Rmult_0_l in E. pose proof (sqlen_nonneg 2 (fun i => point2 ((a + b) / 2) (f ((a + b) / 2)) i -
        (point2 a (f a) i + t * (point2 b (f b) i - point2 a (f a) i)))) as Hn.
    assert (Z := sqlen_zero 2 _ (Rle_antisym _ _ E Hn)). pose proof (Z 0%nat ltac:(lia)) as Z0. pose proof (Z 1%nat ltac:(lia)) as Z1.
    cbn in Z0, Z1. assert (t = 1 / 2). { assert (E2 : (t - 1 / 2) * (b - a) = 0) by lra. apply Rmult_integral in E2 as [E2|E2]; lra. }
    subst t. lra.
Qed.

Lemma max_refuted nmax : 0 < eps -> (2 < nmax)%nat -> eps * INR nmax < 1 ->
  exists l, eventually (fun fuel => deviation_based_params sqrt fuel 2 (plot (fun x => x * x)) [] 0 1 2 0 nmax) l /\ (nmax < length l)%nat.
Proof.
  intros He Hm Hs.
  destruct (sampling_ok eps 2 (plot (fun x => x * x)) [] 0 1 2 0 nmax He (or_introl eq_refl) ltac:(lra) ltac:(lia) ltac:(lra)) as (l & E & ((m & Em) & Hr) & _ & _ & Hc & _).
  { intros u _. eexists; reflexivity. }
  exists l. split; [exact E|]. cbn [filter length] in Hc. specialize (Hc ltac:(lia)).
  assert (HL : linked (fun x y => y - x <= eps) 0 (m ++ [1])).
  { apply adjacent_linked. intros x y Hxy. rewrite <- Em in Hxy. destruct (Hc x y Hxy) as [H|H]; [exact H|]. specialize (Hr x y Hxy).
    destruct (Rle_lt_or_eq_dec x y Hr) as [Hlt| ->]; [|lra]. pose proof (plot_near _ x y H Hlt) as E2. cbn beta in E2.
    assert ((y - x) * (y - x) = 0) by lra. apply Rmult_integral in H0 as [H0|H0]; lra. }
  apply linked_width in HL. rewrite Em. cbn [length]. rewrite app_length. cbn [length].
  apply INR_lt. replace (S (length m + 1)) with (S (S (length m))) by lia.
  destruct (Rlt_le_dec (INR nmax) (INR (S (length m)))) as [H|H]; [rewrite (S_INR (S (length m))); lra|].
  assert (eps * INR (S (length m)) <= eps * INR nmax) by (apply Rmult_le_compat_l; lra). lra.
Qed.

(** Two intervals suffice when the middle is not seen to bend. *)
Lemma two_points dim (g : gcurve R) u1 u2 dev nmax p m q : (2 < nmax)%nat -> u1 < u2 ->
  g_value g u1 0 = Ok p -> g_value g ((u1 + u2) / 2) 0 = Ok m -> g_value g u2 0 = Ok q -> bends sqrt dim dev p m q = false ->
  eventually (fun fuel => deviation_based_params sqrt fuel dim g [] u1 u2 2 dev nmax) [u1; u2].
Proof.
  intros Hm Hu Ep Em Eq B. exists 1%nat. intros fuel Hf. destruct fuel as [|fuel]; [lia|].
  unfold deviation_based_params. rewrite spread_ok by lia. cbn [bind filter app seq map].
  rewrite spread_first. replace (spread u1 u2 2 1) with u2 by (unfold spread; simpl; field).
  cbn [list_sort fold_right insert_sorted]. nsimp. destruct (Rltb_spec u2 u1) as [H|_]; [lra|].
  unfold refined. cbn [length]. apply Nat.ltb_lt in Hm. rewrite Hm. cbn [refine_all refine_params].
  rewrite (middle_R eps), Ep, Em, Eq. cbn [bind]. rewrite B. destruct (true && _); reflexivity.
Qed.

Definition wave (k x : R) : R := k * (x * (x - 1 / 2) * (x - 1)).
Lemma middle_refuted dev D nmax : 0 <= dev -> 0 <= D -> (2 < nmax)%nat ->
  exists (g : gcurve R) (p m q : pt R),
    eventually (fun fuel => deviation_based_params sqrt fuel 2 g [] 0 1 2 dev nmax) [0; 1] /\
    g_value g 0 0 = Ok p /\ g_value g (1 / 4) 0 = Ok m /\ g_value g 1 0 = Ok q /\
    forall t, D ^ 2 <= sqlen 2 (fun i => m i - (p i + t * (q i - p i))).
Proof.
  intros Hv HD Hm. set (k := 64 / 3 * D). exists (plot (wave k)), (point2 0 (wave k 0)), (point2 (1 / 4) (wave k (1 / 4))), (point2 1 (wave k 1)).
  assert (W0 : wave k 0 = 0) by (unfold wave; ring). assert (W1 : wave k 1 = 0) by (unfold wave; ring).
  assert (W2 : wave k ((0 + 1) / 2) = 0) by (unfold wave; field). assert (W4 : wave k (1 / 4) = D) by (unfold wave, k; field).
  split.
  { apply (two_points 2 (plot (wave k)) 0 1 dev nmax (point2 0 (wave k 0)) (point2 ((0 + 1) / 2) (wave k ((0 + 1) / 2))) (point2 1 (wave k 1)) Hm ltac:(lra) eq_refl eq_refl eq_refl).
    apply (bends_line eps 2 dev (point2 0 0) (point2 1 0) _ _ _ 0 (1 / 2) 1); auto; rewrite ?W0, ?W1, ?W2;
      intros [|[|i]] Hi; cbn; try lia; lra. }
  repeat (split; [reflexivity|]). intros t. rewrite W0, W1, W4. cbn [sqlen point2].
  pose proof (pow2_ge_0 (1 / 4 - (0 + t * (1 - 0)))). nra.
Qed.

Lemma closed_refuted dim (g : gcurve R) u1 u2 dev nmax p q : (dim = 2 \/ dim = 3)%nat -> u1 < u2 -> (2 < nmax)%nat ->
  (exists m, g_value g ((u1 + u2) / 2) 0 = Ok m) -> g_value g u1 0 = Ok p -> g_value g u2 0 = Ok q -> (forall i, (i < dim)%nat -> p i = q i) ->
  eventually (fun fuel => deviation_based_params sqrt fuel dim g [] u1 u2 2 dev nmax) [u1; u2].
Proof.
  intros Hd Hu Hm (m & Em) Ep Eq Epq. apply (two_points dim g u1 u2 dev nmax p m q); auto.
  unfold bends. assert (Z : norm sqrt dim (psub q p) = 0).
  { rewrite (norm_R eps). replace (sqlen dim (psub q p)) with 0; [apply sqrt_0|].
    symmetry. rewrite (sqlen_ext dim _ (fun i => 0 * p i)) by (intros i Hi; unfold psub; nsimp; rewrite Epq by exact Hi; ring).
    rewrite sqlen_scal. ring. }
  rewrite Z. nsimp. rewrite Rmult_0_r. replace (neqb 0 0) with true; [reflexivity|]. symmetry. apply (neqb_true eps). reflexivity.
Qed.

(** ** Surfaces: a crease *)

Lemma bends_true dim dev (p m q : pt R) : (dim = 2 \/ dim = 3)%nat -> 0 <= dev ->
  0 < sqlen dim (psub m p) -> 0 < sqlen dim (psub q p) ->
  dev ^ 2 * (sqlen dim (psub m p) * sqlen dim (psub q p)) < sqlen dim (psub m p) * sqlen dim (psub q p) - (dot dim (psub m p) (psub q p)) ^ 2 ->
  bends sqrt dim dev p m q = true.
Proof.
  intros Hd Hv HA HB HC. unfold bends. rewrite !(norm_R eps), (cross_norm_R eps dim _ _ Hd). nsimp.
  set (A := sqlen dim (psub m p)) in *. set (B := sqlen dim (psub q p)) in *. set (D := dot dim (psub m p) (psub q p)) in *.
  assert (SA : 0 < sqrt A) by (apply sqrt_lt_R0; lra). assert (SB : 0 < sqrt B) by (apply sqrt_lt_R0; lra).
  assert (SAB : 0 < sqrt A * sqrt B) by (apply Rmult_lt_0_compat; auto).
  destruct (neqb _ _) eqn:E1; [apply (neqb_true eps) in E1; lra|]. unfold Rltb. destruct (Rlt_dec _ _) as [|Hn]; [reflexivity|]. exfalso. apply Hn.
  apply Rmult_lt_reg_r with (sqrt A * sqrt B); [exact SAB|]. unfold Rdiv. rewrite (Rmult_assoc (sqrt _)), Rinv_l, Rmult_1_r by lra.
  rewrite <- sqrt_mult by lra. replace dev with (sqrt (dev ^ 2)) by (apply sqrt_pow2; exact Hv).
  pose proof (pow2_ge_0 dev). assert (0 < A * B) by (apply Rmult_lt_0_compat; auto). rewrite <- sqrt_mult by lra.
  assert (0 <= dev ^ 2 * (A * B)) by (apply Rmult_le_pos; lra). apply sqrt_lt_1; lra.
Qed.

Lemma folded_never v fuel : forall a w, 0 < w -> a + w / 3 = 1 / 3 \/ a + 2 * w / 3 = 1 / 3 ->
  refine_params sqrt fuel false 3 (fun u => folded u v 0%nat 0%nat) (1 / 10) a (a + w) = Fuel.
Proof.
  induction fuel as [|fuel IH]; intros a w Hw Hk; [reflexivity|]. cbn [refine_params andb]. rewrite (middle_R eps).
  replace ((a + (a + w)) / 2) with (a + w / 2) by field. unfold folded at 1 2 3. cbn [bind].
  assert (B : bends sqrt 3 (1 / 10) (point3 a (crease a) v) (point3 (a + w / 2) (crease (a + w / 2)) v) (point3 (a + w) (crease (a + w)) v) = true).
  { assert (W2 : 0 < w ^ 2) by (apply pow_lt; lra). assert (W4 : 0 < w ^ 4) by (apply pow_lt; lra).
    assert (Ca : crease a = 0) by (unfold crease; destruct (Rle_dec _ _); [reflexivity|destruct Hk; lra]).
    destruct Hk as [Hk|Hk].
    - assert (Cm : crease (a + w / 2) = w / 2) by (unfold crease; destruct (Rle_dec _ _); lra).
      assert (Cb : crease (a + w) = 2 * w) by (unfold crease; destruct (Rle_dec _ _); lra).
      rewrite Ca, Cm, Cb. apply bends_true; [right; reflexivity|lra| | |].
      + match goal with |- 0 < ?x => replace x with (w ^ 2 / 2) by (unfold psub; cbn [sqlen point3]; nsimp; field) end. lra.
      + match goal with |- 0 < ?x => replace x with (5 * w ^ 2) by (unfold psub; cbn [sqlen point3]; nsimp; field) end. lra.
      + match goal with |- _ * (?x * ?y) < _ - ?z ^ 2 => replace x with (w ^ 2 / 2) by (unfold psub; cbn [sqlen point3]; nsimp; field);
          replace y with (5 * w ^ 2) by (unfold psub; cbn [sqlen point3]; nsimp; field);
          replace z with (3 / 2 * w ^ 2) by (unfold psub; cbn [dot point3]; nsimp; field) end. nra.
    - assert (Cm : crease (a + w / 2) = 0) by (unfold crease; destruct (Rle_dec _ _); lra).
      assert (Cb : crease (a + w) = w) by (unfold crease; destruct (Rle_dec _ _); lra).
      rewrite Ca, Cm, Cb. apply bends_true; [right; reflexivity|lra| | |].
      + match goal with |- 0 < ?x => replace x with (w ^ 2 / 4) by (unfold psub; cbn [sqlen point3]; nsimp; field) end. lra.
      + match goal with |- 0 < ?x => replace x with (2 * w ^ 2) by (unfold psub; cbn [sqlen point3]; nsimp; field) end. lra.
      + match goal with |- _ * (?x * ?y) < _ - ?z ^ 2 => replace x with (w ^ 2 / 4) by (unfold psub; cbn [sqlen point3]; nsimp; field);
          replace y with (2 * w ^ 2) by (unfold psub; cbn [sqlen point3]; nsimp; field);
          replace z with (w ^ 2 / 2) by (unfold psub; cbn [dot point3]; nsimp; field) end. nra. }
  rewrite B. destruct Hk as [Hk|Hk].
  - rewrite (IH a (w / 2)); [reflexivity|lra|right; lra].
  - assert (S1 : refine_params sqrt fuel false 3 (fun u => folded u v 0%nat 0%nat) (1 / 10) (a + w / 2) (a + w) = Fuel).
    { replace (a + w) with (a + w / 2 + w / 2) by field. apply IH; [lra|left; lra]. }
    rewrite S1. destruct fuel as [|fuel]; [reflexivity|]. cbn [refine_params andb]. rewrite (middle_R eps). unfold folded at 1 2 3. cbn [bind].
    rewrite (bends_line eps 3 (1 / 10) (point3 0 0 v) (point3 1 0 0) _ _ _ a ((a + (a + w / 2)) / 2) (a + w / 2)); [reflexivity|right; reflexivity|lra| | |];
      intros [|[|[|i]]] Hi; cbn [point3]; try lia; try ring; unfold crease; destruct (Rle_dec _ _); lra.
Qed.
Lemma surface_refuted v fuel nmax : (2 < nmax)%nat -> deviation_based_u_params sqrt fuel 3 folded 0 1 v 2 (1 / 10) nmax = Fuel.
Proof.
  intros Hm. unfold deviation_based_u_params. rewrite spread_ok by lia. cbn [bind seq map].
  rewrite spread_first. replace (spread 0 1 2 1) with (0 + 1) by (unfold spread; simpl; field). unfold refined. cbn [length].
  apply Nat.ltb_lt in Hm. rewrite Hm. cbn [refine_all]. rewrite folded_never; [reflexivity|lra|left; lra].
Qed.

(** ** Grids *)
Lemma surf_grid_ok (srf : gsurf R) u1 u2 v1 v2 nu nv l : discretize_surf srf u1 u2 v1 v2 nu nv = Ok l ->
  (2 <= nu)%nat /\ (2 <= nv)%nat /\ length l = (nu * nv)%nat /\
  forall i j, (i < nu)%nat -> (j < nv)%nat ->
    exists p, nth_error l (j * nu + i) = Some p /\ srf (spread u1 u2 nu i) (spread v1 v2 nv j) 0%nat 0%nat = Ok p.
Proof.
  unfold discretize_surf. destruct (range_spec eps u1 u2 nu) as (Tu & Hu). destruct (range_spec eps v1 v2 nv) as (Tv & Hv).
  intros H. destruct (le_lt_dec 2 nu) as [Nu|Nu]; [|rewrite Tu in H by lia; discriminate].
  destruct (Hu Nu) as (u & Eu & Lu & _ & _ & Ku & _). rewrite Eu in H. cbn [bind] in H.
  destruct (le_lt_dec 2 nv) as [Nv|Nv]; [|rewrite Tv in H by lia; discriminate].
  destruct (Hv Nv) as (v & Ev & Lv & _ & _ & Kv & _). rewrite Ev in H. cbn [bind] in H.
  split; [exact Nu|]. split; [exact Nv|].
  destruct (grid_loop (fun j i => (kn u i, kn v j)) (0, 0) nu
    (fun j uv => for_ 0 nu (fun i uv => set uv (i + nu * j) (kn u i, kn v j)) uv)
    (fun j i uv => set uv (i + nu * j) (kn u i, kn v j)) (fun i j w _ => eq_refl) (fun i w => eq_refl) nv (filled (nu * nv) (0, 0)))
    as (uv & E & L & V); [rewrite filled_length; lia|].
  assert (E2 : for_ 0 nv (fun j uv => for_ 0 nu (fun i uv => let* a := get u i in let* b := get v j in set uv (j * nu + i) (a, b)) uv)
    (filled (nu * nv) (n0, n0)) = Ok uv).
  { rewrite <- E. apply for_ext. intros j w Hj. apply for_ext. intros i w' Hi.
    rewrite (get_nth u i 0), (get_nth v j 0) by lia. cbn [bind]. f_equal. lia. }
  rewrite E2 in H. cbn [bind] in H. apply mapM_get in H as (Ll & Hn). split; [lia|].
  intros i j Hi Hj. destruct (Hn (j * nu + i)%nat (kn u i, kn v j)) as (p & Ep & Es).
  { rewrite <- (V j i Hj Hi). replace (i + nu * j)%nat with (j * nu + i)%nat by lia. apply nth_error_nth'. rewrite L. nia. }
  exists p. split; [exact Ep|]. cbn [fst snd] in Es. rewrite Ku, Kv in Es by auto. rewrite <- Es.
  f_equal; unfold spread; rewrite minus_INR by lia; change (INR 1) with 1; field; apply Rgt_not_eq, Rlt_gt, Rlt_Rminus; apply (lt_INR 1); lia.
Qed.
Lemma surf_grid_returns (srf : gsurf R) u1 u2 v1 v2 nu nv : (2 <= nu)%nat -> (2 <= nv)%nat -> u1 < u2 -> v1 < v2 ->
  (forall u v, u1 <= u <= u2 -> v1 <= v <= v2 -> exists p, srf u v 0%nat 0%nat = Ok p) ->
  exists l, discretize_surf srf u1 u2 v1 v2 nu nv = Ok l.
Proof.
  intros Nu Nv Hu Hv Hs. unfold discretize_surf. destruct (range_spec eps u1 u2 nu) as (_ & Ru). destruct (range_spec eps v1 v2 nv) as (_ & Rv).
  destruct (Ru Nu) as (u & Eu & Lu & _ & _ & Ku & _). destruct (Rv Nv) as (v & Ev & Lv & _ & _ & Kv & _). rewrite Eu, Ev. cbn [bind].
  destruct (grid_loop (fun j i => (kn u i, kn v j)) (0, 0) nu
    (fun j uv => for_ 0 nu (fun i uv => set uv (i + nu * j) (kn u i, kn v j)) uv)
    (fun j i uv => set uv (i + nu * j) (kn u i, kn v j)) (fun i j w _ => eq_refl) (fun i w => eq_refl) nv (filled (nu * nv) (0, 0)))
    as (uv & E & L & V); [rewrite filled_length; lia|].
  assert (E2 : for_ 0 nv (fun j uv => for_ 0 nu (fun i uv => let* a := get u i in let* b := get v j in set uv (j * nu + i) (a, b)) uv)
    (filled (nu * nv) (n0, n0)) = Ok uv).
  { rewrite <- E. apply for_ext. intros j w Hj. apply for_ext. intros i w' Hi.
    rewrite (get_nth u i 0), (get_nth v j 0) by lia. cbn [bind]. f_equal. lia. }
  rewrite E2. cbn [bind].
  assert (Hall : forall ab, In ab uv -> exists p, srf (fst ab) (snd ab) 0%nat 0%nat = Ok p).
  { intros ab Hab. apply (In_nth _ _ (0, 0)) in Hab as (k & Hk & <-). rewrite L in Hk.
    assert (Ek : k = (k mod nu + nu * (k / nu))%nat) by (pose proof (Nat.div_mod k nu ltac:(lia)); lia).
    assert (Hi : (k mod nu < nu)%nat) by (apply Nat.mod_upper_bound; lia).
    assert (Hj : (k / nu < nv)%nat) by (apply Nat.div_lt_upper_bound; lia).
    rewrite Ek, (V _ _ Hj Hi). cbn [fst snd]. rewrite Ku, Kv by auto. apply Hs.
    - pose proof (spread_in u1 u2 nu _ Nu Hu Hi) as S1. unfold spread in S1. replace (INR (k mod nu) * ((u2 - u1) / INR (nu - 1))) with ((u2 - u1) * INR (k mod nu) / (INR nu - 1)); [exact S1|].
      rewrite minus_INR by lia. change (INR 1) with 1. field. apply Rgt_not_eq, Rlt_gt, Rlt_Rminus. apply (lt_INR 1); lia.
    - pose proof (spread_in v1 v2 nv _ Nv Hv Hj) as S1. unfold spread in S1. replace (INR (k / nu) * ((v2 - v1) / INR (nv - 1))) with ((v2 - v1) * INR (k / nu) / (INR nv - 1)); [exact S1|].
      rewrite minus_INR by lia. change (INR 1) with 1. field. apply Rgt_not_eq, Rlt_gt, Rlt_Rminus. apply (lt_INR 1); lia. }
  clear - Hall. induction uv as [|ab t IH]; [exists []; reflexivity|]. cbn [mapM]. destruct (Hall ab (or_introl eq_refl)) as (p & ->).
  destruct IH as (l & E); [intros x Hx; apply Hall; right; exact Hx|]. rewrite E. eexists; reflexivity.
Qed.
End AtR.
