(** Lemmas on the sampling of curves, part 2: the whole lists (C84). *)
From Coq Require Import List Arith ZArith Reals Lia Lra Bool Permutation.
From Verif Require Import Model_Base Model_Knots Model_Curve Model_Vec Model_Math Model_Wrap Model_Analysis
  Spec_Base Spec_Build Spec_Knots Spec_Elevate Spec_Unify Spec_Analysis
  Proof_Base Proof_Build Proof_Builders Proof_Builders2 Proof_Elevate4 Proof_Connect5 Proof_Skin9 Proof_Analysis.
Import ListNotations.
Local Open Scope R_scope.

Lemma linked_runs a t b : linked Rle a t -> last (a :: t) a = b -> t <> [] -> runs a b (a :: t).
Proof.
  intros H Hl Ht. split; [|intros x y Hxy; exact (linked_adjacent Rle a t x y H Hxy)].
  destruct (exists_last Ht) as (m & z & ->). exists m. f_equal.
  change (a :: m ++ [z]) with ((a :: m) ++ [z]) in Hl. rewrite last_last in Hl. congruence.
Qed.

Section AtR.
Variable eps : R.
Local Hint Extern 0 (Num R) => exact (NumR eps) : typeclass_instances.

Lemma spread_ok u1 u2 n : (2 <= n)%nat -> spread_params u1 u2 n = Ok (map (spread u1 u2 n) (seq 0 n)).
Proof.
  intros Hn. unfold spread_params. apply mapM_ok. intros i _. rewrite !(nofnat_R eps). nsimp.
  assert (2 <= INR n) by (apply (le_INR 2) in Hn; simpl in Hn; lra).
  rewrite (divc_ok eps) by lra. reflexivity.
Qed.
Lemma spread_first u1 u2 n : spread u1 u2 n 0 = u1.
Proof. unfold spread. simpl. unfold Rdiv. ring. Qed.
Lemma spread_last u1 u2 n : (2 <= n)%nat -> spread u1 u2 n (n - 1) = u2.
Proof.
  intros Hn. unfold spread. rewrite minus_INR by lia. simpl.
  assert (2 <= INR n) by (apply (le_INR 2) in Hn; simpl in Hn; lra). field. lra.
Qed.
Lemma spread_in u1 u2 n i : (2 <= n)%nat -> u1 < u2 -> (i < n)%nat -> u1 <= spread u1 u2 n i <= u2.
Proof.
  intros Hn Hu Hi. assert (2 <= INR n) by (apply (le_INR 2) in Hn; simpl in Hn; lra).
  assert (INR i <= INR n - 1).
  { assert (H1 : (S i <= n)%nat) by lia. apply le_INR in H1. rewrite S_INR in H1. lra. }
  pose proof (pos_INR i). unfold spread. unfold Rdiv. rewrite Rmult_assoc.
  assert (0 <= INR i * / (INR n - 1) <= 1).
  { split; [apply Rmult_le_pos; [lra|left; apply Rinv_0_lt_compat; lra]|].
    apply Rmult_le_reg_r with (INR n - 1); [lra|]. rewrite Rmult_assoc, Rinv_l by lra. lra. }
  split; [|].
  - assert (0 <= (u2 - u1) * (INR i * / (INR n - 1))) by (apply Rmult_le_pos; lra). lra.
  - assert ((u2 - u1) * (INR i * / (INR n - 1)) <= (u2 - u1) * 1) by (apply Rmult_le_compat_l; lra). lra.
Qed.

(** ** Sorting *)
Lemma insert_perm (x : R) l : Permutation (x :: l) (insert_sorted x l).
Proof.
  induction l as [|y t IH]; cbn [insert_sorted]; [reflexivity|]. destruct (nltb y x); [|reflexivity].
  transitivity (y :: x :: t); [apply perm_swap|]. constructor. exact IH.
Qed.
Lemma sort_perm (l : list R) : Permutation l (list_sort l).
Proof. induction l as [|x t IH]; cbn; [reflexivity|]. transitivity (x :: list_sort t); [constructor; exact IH|apply insert_perm]. Qed.
Definition ordered (l : list R) : Prop := match l with [] => True | a :: t => linked Rle a t end.
Lemma ordered_cons a l : (forall x, In x l -> a <= x) -> ordered l -> ordered (a :: l).
Proof. destruct l as [|b t]; cbn [ordered linked]; [trivial|]. intros H Ht. split; [apply H; left; reflexivity|exact Ht]. Qed.
Lemma ordered_inv a l : ordered (a :: l) -> ordered l /\ forall x, In x l -> a <= x.
Proof.
  intros H. split; [destruct l as [|b t]; cbn in *; tauto|]. intros x Hx. exact (linked_le_bound a l x H Hx).
Qed.
Lemma insert_ordered (x : R) l : ordered l -> ordered (insert_sorted x l).
Proof.
  induction l as [|y t IH]; cbn [insert_sorted]; intros H; [exact I|]. nsimp.
  destruct (Rltb_spec y x) as [Hlt|Hge].
  - apply ordered_inv in H as (Ht & Hy). apply ordered_cons; [|apply IH; exact Ht].
    intros z Hz. apply (Permutation_in _ (Permutation_sym (insert_perm x t))) in Hz. destruct Hz as [<-|Hz]; [lra|apply Hy; exact Hz].
  - apply ordered_cons; [|exact H]. intros z [<-|Hz]; [lra|]. apply ordered_inv in H as (_ & Hy). specialize (Hy z Hz). lra.
Qed.
Lemma sort_ordered (l : list R) : ordered (list_sort l).
Proof. induction l as [|x t IH]; cbn; [exact I|]. apply insert_ordered. exact IH. Qed.

(** A sorted list with least element u1 and greatest element u2. *)
Lemma ordered_ends u1 u2 l : u1 < u2 -> ordered l -> In u1 l -> In u2 l -> (forall x, In x l -> u1 <= x <= u2) ->
  exists us, l = u1 :: us /\ us <> [] /\ linked Rle u1 us /\ last l u1 = u2.
Proof.
  intros Hu Ho H1 H2 Hb. destruct l as [|a us]; [destruct H1|]. pose proof (ordered_inv _ _ Ho) as (_ & Hm).
  assert (Ea : a = u1). { destruct H1 as [E|H1]; [exact E|]. specialize (Hm _ H1). specialize (Hb a (or_introl eq_refl)). lra. }
  subst a. exists us. split; [reflexivity|]. assert (Hne : us <> []). { intros ->. destruct H2 as [E|[]]. lra. }
  split; [exact Hne|]. split; [exact Ho|]. destruct (exists_last Hne) as (m & z & ->).
  change (u1 :: m ++ [z]) with ((u1 :: m) ++ [z]) in *. rewrite last_last.
  pose proof (linked_le_last u1 m z Ho) as HL. apply in_app_iff in H2 as [H2|[H2|[]]]; [|exact H2].
  specialize (HL _ H2). specialize (Hb z ltac:(apply in_app_iff; right; left; reflexivity)). lra.
Qed.

(** ** The whole list *)
Lemma start_list u1 u2 n knots : (2 <= n)%nat -> u1 < u2 ->
  let L := list_sort (map (spread u1 u2 n) (seq 0 n) ++ filter (fun u => nltb u1 u && nltb u u2) knots) in
  length L = (n + length (filter (inside u1 u2) knots))%nat /\
  (forall i, (i < n)%nat -> In (spread u1 u2 n i) L) /\ (forall k, In k knots -> u1 < k < u2 -> In k L) /\
  (forall x, In x L -> u1 <= x <= u2) /\
  exists us, L = u1 :: us /\ us <> [] /\ linked Rle u1 us /\ last L u1 = u2.
Proof.
  intros Hn Hu L. set (H0 := map (spread u1 u2 n) (seq 0 n) ++ filter (fun u => nltb u1 u && nltb u u2) knots) in *.
  pose proof (sort_perm H0) as Hp. fold L in Hp.
  assert (F : forall u, nltb u1 u && nltb u u2 = inside u1 u2 u).
  { intros u. unfold inside. nsimp. unfold Rltb. destruct (Rlt_dec u1 u), (Rlt_dec u u2); reflexivity. }
  assert (Hin : forall x, In x L <-> In x H0) by (intros x; split; apply Permutation_in; [apply Permutation_sym|]; exact Hp).
  assert (A : forall i, (i < n)%nat -> In (spread u1 u2 n i) L).
  { intros i Hi. apply Hin. apply in_app_iff. left. apply in_map. apply in_seq. lia. }
  assert (B : forall x, In x L -> u1 <= x <= u2).
  { intros x Hx. apply Hin, in_app_iff in Hx as [Hx|Hx].
    - apply in_map_iff in Hx as (i & <- & Hi). apply in_seq in Hi. apply spread_in; auto; lia.
    - apply filter_In in Hx as (_ & Hx). rewrite F in Hx. unfold inside in Hx. destruct (Rlt_dec u1 x), (Rlt_dec x u2); try discriminate. lra. }
  split.
  { rewrite <- (Permutation_length Hp). unfold H0. rewrite app_length, map_length, seq_length. f_equal. f_equal. apply filter_ext. exact F. }
  split; [exact A|]. split.
  { intros k Hk Hi. apply Hin, in_app_iff. right. apply filter_In. split; [exact Hk|]. rewrite F. unfold inside.
    destruct (Rlt_dec u1 k); [|lra]. destruct (Rlt_dec k u2); [reflexivity|lra]. }
  split; [exact B|]. apply ordered_ends; auto; [apply sort_ordered| |].
  - rewrite <- (spread_first u1 u2 n). apply A. lia.
  - rewrite <- (spread_last u1 u2 n Hn). apply A. lia.
Qed.

Lemma sampling_ok dim (g : gcurve R) knots u1 u2 n dev nmax : 0 < eps -> (dim = 2 \/ dim = 3)%nat -> 0 <= dev -> (2 <= n)%nat -> u1 < u2 ->
  (forall u, u1 <= u <= u2 -> exists p, g_value g u 0 = Ok p) ->
  let hard := length (filter (inside u1 u2) knots) in
  exists l, eventually (fun fuel => deviation_based_params sqrt fuel dim g knots u1 u2 n dev nmax) l /\
    runs u1 u2 l /\ (forall i, (i < n)%nat -> In (spread u1 u2 n i) l) /\
    (forall k, In k knots -> u1 < k < u2 -> In k l) /\
    ((n + hard < nmax)%nat -> forall a b, adjacent l a b -> b - a <= eps \/ near_chord dim dev (fun u => g_value g u 0) a b) /\
    ((nmax <= n + hard)%nat \/ straight dim (fun u => g_value g u 0) -> length l = (n + hard)%nat).
Proof.
  intros He Hd Hv Hn Hu Hf hard.
  destruct (start_list u1 u2 n knots Hn Hu) as (HL & HA & HK & HB & us & Eus & Hne & Hl & Hlast).
  set (L := list_sort _) in *. set (f := fun u => g_value g u 0).
  assert (E : forall fuel, deviation_based_params sqrt fuel dim g knots u1 u2 n dev nmax = refined sqrt fuel true dim f dev nmax L).
  { intros fuel. unfold deviation_based_params. rewrite spread_ok by exact Hn. reflexivity. }
  destruct (Nat.ltb_spec (length L) nmax) as [Hlt|Hge].
  - destruct (refine_all_returns eps dim Hd f dev u1 u2 us Hf He u1) as (l & f0 & El); [lra| |exact Hl|].
    { intros x Hx. apply HB. rewrite Eus. right. exact Hx. }
    pose proof (El f0 (le_n _)) as El0. cbn beta in El0.
    destruct (refine_all_inv eps dim Hd f dev Hv true f0 us u1 l Hl El0) as (t & Et & Ht & Hin & Hla & Hlen).
    assert (Htl : linked Rle u1 t) by (apply (linked_weaken _ _ _ _ (fun x y (H : close eps dim f dev true x y) => proj1 H) Ht)).
    exists l. split.
    { exists f0. intros fuel Hfuel. rewrite E. unfold refined. apply Nat.ltb_lt in Hlt. rewrite Hlt, Eus. apply El. exact Hfuel. }
    split.
    { rewrite Et. apply linked_runs; [exact Htl| |].
      - rewrite <- Et, Hla, <- Eus. exact Hlast.
      - intros ->. rewrite Et in Hlen. cbn [length] in Hlen. destruct us; [tauto|cbn [length] in Hlen; lia]. }
    split; [intros i Hi; apply Hin; rewrite <- Eus; apply HA; exact Hi|].
    split; [intros k Hk Hi; apply Hin; rewrite <- Eus; apply HK; auto|]. split.
    { intros _ a b Hab. rewrite Et in Hab. destruct (linked_adjacent _ _ _ _ _ Ht Hab) as (_ & [(_ & H)|H]); [left|right]; exact H. }
    intros [Hc|Hs]; [unfold hard in Hc; lia|]. rewrite (refine_all_straight eps dim Hd f dev Hv true f0 us Hs u1 l El0), <- Eus. exact HL.
  - exists L. split.
    { exists 0%nat. intros fuel _. rewrite E. unfold refined. apply Nat.ltb_ge in Hge. rewrite Hge. reflexivity. }
    split; [rewrite Eus; apply linked_runs; auto; rewrite <- Eus; exact Hlast|].
    split; [exact HA|]. split; [exact HK|]. split; [unfold hard; intros Hc; lia|]. intros _. exact HL.
Qed.

(** ** Points *)
Lemma points_ok fuel dim (g : gcurve R) knots n dev nmax ps us :
  discretize_with_params sqrt fuel dim g knots n dev nmax = Ok (ps, us) ->
  deviation_based_params sqrt fuel dim g knots (g_lo g) (g_hi g) n dev nmax = Ok us /\ length ps = length us /\
  forall i u, nth_error us i = Some u -> exists p, nth_error ps i = Some p /\ g_value g u 0 = Ok p.
Proof.
  unfold discretize_with_params. intros H. apply bind_inv in H as (us' & E & H). apply bind_inv in H as (ps' & E2 & H).
  injection H as <- <-. split; [exact E|]. unfold make_points in E2. apply mapM_get in E2. exact E2.
Qed.

Lemma bspline_ok (c : curve R) U M dim n dev nmax : 0 < eps -> (dim = 2 \/ dim = 3)%nat -> 0 <= dev -> (2 <= n)%nat ->
  clamped_object eps c -> (c_deg c <= 24)%nat -> clamped_knots eps (c_deg c) U M -> c_knots c = repeat_each U M ->
  exists ps us, eventually (fun fuel => discretize_bs sqrt fuel dim c n dev nmax) (ps, us) /\
    length ps = length us /\ runs (c_lo c) (c_hi c) us /\ (forall k, In k U -> c_lo c < k < c_hi c -> In k us) /\
    (forall i, (i < n)%nat -> In (spread (c_lo c) (c_hi c) n i) us) /\
    (forall i u, nth_error us i = Some u -> exists p, nth_error ps i = Some p /\ value c u 0 = Ok p) /\
    ((n + length U < nmax)%nat -> forall a b, adjacent us a b -> b - a <= eps \/ near_chord dim dev (fun u => value c u 0) a b).
Proof.
  intros He Hd Hv Hn Hc Hdeg HU HM.
  assert (Hlt : c_lo c < c_hi c).
  { destruct Hc as (Hi & -> & ->). exact (clamped_span eps (c_deg c) (c_poles c) (c_knots c) He Hi). }
  destruct (sampling_ok dim (of_curve c) U (c_lo c) (c_hi c) n dev nmax He Hd Hv Hn Hlt) as (us & (f0 & E) & Hr & Hs & Hk & Hch & _).
  { intros u Hu. apply (object_value eps); auto. }
  assert (Hps : exists ps, make_points (of_curve c) us 0 = Ok ps).
  { assert (Hall : forall u, In u us -> exists p, g_value (of_curve c) u 0 = Ok p).
    { intros u Hu. apply (object_value eps); auto. destruct Hr as ((m & Em) & Hadj).
      assert (HL : linked Rle (c_lo c) (m ++ [c_hi c])).
      { rewrite Em in Hadj. clear - Hadj. generalize dependent (c_lo c). generalize (m ++ [c_hi c]). intros l.
        induction l as [|b t IH]; intros a Ha; cbn [linked]; [trivial|]. split; [apply Ha; exists [], t; reflexivity|].
        apply IH. intros x y (l1 & l2 & El). apply Ha. exists (a :: l1), l2. cbn [app]. rewrite El. reflexivity. }
      rewrite Em in Hu. split.
      - destruct Hu as [<-|Hu]; [lra|]. exact (linked_le_bound _ _ _ HL Hu).
      - change (c_lo c :: m ++ [c_hi c]) with ((c_lo c :: m) ++ [c_hi c]) in Hu. apply in_app_iff in Hu as [Hu|[<-|[]]]; [|lra].
        exact (linked_le_last _ _ _ HL _ Hu). }
    unfold make_points. clear - Hall. induction us as [|u t IH]; [exists []; reflexivity|].
    cbn [mapM]. destruct (Hall u (or_introl eq_refl)) as (p & ->). destruct IH as (ps & E); [intros x Hx; apply Hall; right; exact Hx|].
    rewrite E. eexists; reflexivity. }
  destruct Hps as (ps & Eps). exists ps, us.
  assert (Ev : forall fuel, (f0 <= fuel)%nat -> discretize_bs sqrt fuel dim c n dev nmax = Ok (ps, us)).
  { intros fuel Hfuel. unfold discretize_bs. rewrite HM, (km_ok eps _ U M He HU). cbn [bind].
    unfold discretize_with_params. change (g_lo (of_curve c)) with (c_lo c). change (g_hi (of_curve c)) with (c_hi c).
    rewrite (E fuel Hfuel). cbn [bind]. rewrite Eps. reflexivity. }
  split; [exists f0; exact Ev|]. apply mapM_get in Eps as (Hl & Hnth). split; [exact Hl|]. split; [exact Hr|]. split; [exact Hk|].
  split; [exact Hs|]. split; [exact Hnth|]. intros Hc2. apply Hch.
  apply Nat.le_lt_trans with (2 := Hc2). apply Nat.add_le_mono_l. clear. induction U as [|x t IH]; cbn [filter length]; [lia|].
  destruct (inside _ _ _); cbn [length]; lia.
Qed.

(** ** Surfaces *)
Lemma spread_linked u1 u2 n : (2 <= n)%nat -> u1 < u2 -> exists us, map (spread u1 u2 n) (seq 0 n) = u1 :: us /\ us <> [] /\ linked Rle u1 us /\
  last (u1 :: us) u1 = u2.
Proof.
  intros Hn Hu. destruct n as [|n]; [lia|]. cbn [seq map]. rewrite spread_first. eexists. split; [reflexivity|].
  split; [destruct n; [lia|discriminate]|]. assert (2 <= INR (S n)) by (replace 2 with (INR 2) by (simpl; ring); apply le_INR; exact Hn). split.
  - assert (G : forall k s, linked Rle (spread u1 u2 (S n) s) (map (spread u1 u2 (S n)) (seq (S s) k))).
    { induction k as [|k IH]; intros s; cbn [seq map linked]; [trivial|]. split; [|apply IH].
      unfold spread. rewrite (S_INR s). apply Rplus_le_compat_l. unfold Rdiv. apply Rmult_le_compat_r; [left; apply Rinv_0_lt_compat; lra|].
      apply Rmult_le_compat_l; lra. }
    specialize (G n 0%nat). rewrite spread_first in G. exact G.
  - rewrite <- (spread_first u1 u2 (S n)) at 1. change (spread u1 u2 (S n) 0 :: map (spread u1 u2 (S n)) (seq 1 n)) with (map (spread u1 u2 (S n)) (seq 0 (S n))).
    rewrite seq_S, map_app. cbn [map]. rewrite last_last. transitivity (spread u1 u2 (S n) (S n - 1)); [f_equal; lia|apply spread_last; exact Hn].
Qed.

Lemma iso_ok dim (f : R -> result (pt R)) fuel u1 u2 n dev nmax l : (dim = 2 \/ dim = 3)%nat -> 0 <= dev -> (2 <= n)%nat -> u1 < u2 ->
  (let* l := spread_params u1 u2 n in refined sqrt fuel false dim f dev nmax l) = Ok l ->
  runs u1 u2 l /\ (forall i, (i < n)%nat -> In (spread u1 u2 n i) l) /\
  ((n < nmax)%nat -> forall a b, adjacent l a b -> near_chord dim dev f a b).
Proof.
  intros Hd Hv Hn Hu. rewrite spread_ok by exact Hn. cbn [bind]. unfold refined. rewrite map_length, seq_length.
  destruct (spread_linked u1 u2 n Hn Hu) as (us & Eus & Hne & Hl & Hlast).
  assert (HA : forall i, (i < n)%nat -> In (spread u1 u2 n i) (u1 :: us)).
  { intros i Hi. rewrite <- Eus. apply in_map. apply in_seq. lia. }
  rewrite Eus. destruct (Nat.ltb_spec n nmax) as [Hlt|Hge].
  - intros El. destruct (refine_all_inv eps dim Hd f dev Hv false fuel us u1 l Hl El) as (t & Et & Ht & Hin & Hla & Hlen).
    split.
    { rewrite Et. apply linked_runs.
      - apply (linked_weaken _ _ _ _ (fun x y (H : close eps dim f dev false x y) => proj1 H) Ht).
      - rewrite <- Et, Hla. exact Hlast.
      - intros ->. rewrite Et in Hlen. cbn [length] in Hlen. destruct us; [tauto|cbn [length] in Hlen; lia]. }
    split; [intros i Hi; apply Hin, HA; exact Hi|].
    intros _ a b Hab. rewrite Et in Hab. destruct (linked_adjacent _ _ _ _ _ Ht Hab) as (_ & [(Hf & _)|H]); [discriminate|exact H].
  - intros [= <-]. split; [apply linked_runs; auto|]. split; [exact HA|]. lia.
Qed.
End AtR.
