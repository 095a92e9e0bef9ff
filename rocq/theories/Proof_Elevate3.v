(** Degree elevation: the elevated curve can be written on the elevated knots. *)
From Coq Require Import List Arith Reals Lia Lra Bool Permutation.
From Verif Require Import Model_Base Spec_Base Spec_Basis Spec_Knots Spec_Eval Spec_Rational Spec_Elevate
  Proof_Base Proof_Blossom Proof_Basis Proof_Ders Proof_Eval Proof_Refine Proof_Unique Proof_Continuity Proof_Curve
  Proof_PropBasis Proof_Trim Proof_Wrap Proof_Elevate Proof_Elevate2.
Import ListNotations.
Local Open Scope R_scope.

(** ** Equal pieces have equal derivatives *)
Lemma zero_right f a b l : a < b -> derivable_pt_lim f a l -> (forall x, a < x < b -> f x = 0) -> f a = 0.
Proof.
  intros Hab Hd Hz. destruct (Req_dec (f a) 0) as [|N]; [auto|exfalso].
  assert (Hc : continuity_pt f a) by (apply derivable_continuous_pt; exists l; exact Hd).
  destruct (Hc (Rabs (f a)) (Rabs_pos_lt _ N)) as (d & Hd0 & H).
  set (h := Rmin (d / 2) ((b - a) / 2)).
  assert (Hh : 0 < h) by (apply Rmin_pos; lra).
  assert (h <= d / 2) by apply Rmin_l. assert (h <= (b - a) / 2) by apply Rmin_r.
  specialize (H (a + h)). cbn in H. unfold R_dist in H.
  assert (H' : Rabs (f (a + h) - f a) < Rabs (f a)).
  { apply H. split; [split; [exact I|lra]|]. replace (a + h - a) with h by ring. rewrite Rabs_right; lra. }
  rewrite Hz in H' by lra. replace (0 - f a) with (- f a) in H' by ring. rewrite Rabs_Ropp in H'. lra.
Qed.
Lemma zero_left f a b l : a < b -> derivable_pt_lim f b l -> (forall x, a < x < b -> f x = 0) -> f b = 0.
Proof.
  intros Hab Hd Hz. destruct (Req_dec (f b) 0) as [|N]; [auto|exfalso].
  assert (Hc : continuity_pt f b) by (apply derivable_continuous_pt; exists l; exact Hd).
  destruct (Hc (Rabs (f b)) (Rabs_pos_lt _ N)) as (d & Hd0 & H).
  set (h := Rmin (d / 2) ((b - a) / 2)).
  assert (Hh : 0 < h) by (apply Rmin_pos; lra).
  assert (h <= d / 2) by apply Rmin_l. assert (h <= (b - a) / 2) by apply Rmin_r.
  specialize (H (b - h)). cbn in H. unfold R_dist in H.
  assert (H' : Rabs (f (b - h) - f b) < Rabs (f b)).
  { apply H. split; [split; [exact I|lra]|]. replace (b - h - b) with (- h) by ring. rewrite Rabs_Ropp, Rabs_right; lra. }
  rewrite Hz in H' by lra. replace (0 - f b) with (- f b) in H' by ring. rewrite Rabs_Ropp in H'. lra.
Qed.

Definition DP (k : list R) (p l d : nat) (P : nat -> R) (x : R) : R := if (d <=? p)%nat then PS k p l d P x else 0.

Lemma pieces_equal k n p l P k' n' q l' Q a b : knots_ok k n p -> (p <= l < n)%nat -> kn k l < kn k (S l) ->
  knots_ok k' n' q -> (q <= l' < n')%nat -> kn k' l' < kn k' (S l') -> a < b ->
  (forall x, a < x < b -> PS k p l 0 P x = PS k' q l' 0 Q x) ->
  forall d x, a <= x <= b -> DP k p l d P x = DP k' q l' d Q x.
Proof.
  intros (Lk & _ & Hnd & _) Hl Hs (Lk' & _ & Hnd' & _) Hl' Hs' Hab E0.
  assert (D1 : forall d x, derivable_pt_lim (DP k p l d P) x (DP k p l (S d) P x)).
  { intros d x. apply PS_deriv_all; auto; lia. }
  assert (D2 : forall d x, derivable_pt_lim (DP k' q l' d Q) x (DP k' q l' (S d) Q x)).
  { intros d x. apply PS_deriv_all; auto; lia. }
  assert (E : forall d x, a < x < b -> DP k p l d P x = DP k' q l' d Q x).
  { induction d as [|d IH]; intros x Hx; [apply E0, Hx|].
    apply (uniqueness_limite (DP k' q l' d Q) x); [|apply D2].
    apply (derivable_local (DP k p l d P) _ x _ (Rmin (x - a) (b - x))); [apply Rmin_pos; lra| |apply D1].
    intros y Hy. apply IH. pose proof (Rmin_l (x - a) (b - x)). pose proof (Rmin_r (x - a) (b - x)).
    apply Rabs_def2 in Hy. lra. }
  intros d x Hx. destruct (Req_dec x a) as [->|Na]; [|destruct (Req_dec x b) as [->|Nb]].
  - pose proof (zero_right (fun y => DP k p l d P y - DP k' q l' d Q y) a b _ Hab (derivable_pt_lim_minus _ _ _ _ _ (D1 d a) (D2 d a))) as H.
    cbn beta in H. rewrite <- (Rplus_0_r (DP k' q l' d Q a)). rewrite <- H; [ring|]. intros y Hy. rewrite E by exact Hy. ring.
  - pose proof (zero_left (fun y => DP k p l d P y - DP k' q l' d Q y) a b _ Hab (derivable_pt_lim_minus _ _ _ _ _ (D1 d b) (D2 d b))) as H.
    cbn beta in H. rewrite <- (Rplus_0_r (DP k' q l' d Q b)). rewrite <- H; [ring|]. intros y Hy. rewrite E by exact Hy. ring.
  - apply E. lra.
Qed.

(** ** Forms that agree at the knots come from poles *)
Section Realize.
Variables (q : nat) (U : list R) (M : list nat).
Hypothesis HC : ckn q U M.
Let k := repeat_each U M.
Let m := (length U - 1)%nat.
Variable G : nat -> list (R * R) -> R.
Hypothesis HG : forall s, (s < m)%nat -> symml q (G s).
Hypothesis HA : forall s rest, (S s < m)%nat -> (nth (S s) M 0 + length rest = q)%nat ->
  G s (repeat (kn U (S s), 1) (nth (S s) M 0%nat) ++ rest) = G (S s) (repeat (kn U (S s), 1) (nth (S s) M 0%nat) ++ rest).

Lemma step_agree s j : (S s < m)%nat -> (j <= lst M s)%nat -> (lst M (S s) <= j + q)%nat ->
  G s (kargs (kn k) j q) = G (S s) (kargs (kn k) j q).
Proof.
  intros Hs H1 H2. destruct (ck_between q U M HC s Hs) as (E1 & E2 & E3). fold k in E3.
  set (mu := nth (S s) M 0%nat) in *.
  set (A := kargs (kn k) j (lst M s - j)). set (B := kargs (kn k) (lst M (S s)) (q - mu - (lst M s - j))).
  assert (E : kargs (kn k) j q = A ++ repeat (kn U (S s), 1) mu ++ B).
  { replace q with ((lst M s - j) + (mu + (q - mu - (lst M s - j))))%nat at 1 by lia.
    rewrite !kargs_split. unfold A, B. replace (j + (lst M s - j))%nat with (lst M s) by lia.
    replace (lst M s + mu)%nat with (lst M (S s)) by lia. do 2 f_equal.
    apply kargs_consts. intros x Hx. apply E3. lia. }
  assert (Pm : Permutation (A ++ repeat (kn U (S s), 1) mu ++ B) (repeat (kn U (S s), 1) mu ++ (A ++ B))).
  { rewrite !app_assoc. apply Permutation_app_tail, Permutation_app_comm. }
  assert (LA : length A = (lst M s - j)%nat) by apply kargs_length. assert (LB : length B = (q - mu - (lst M s - j))%nat) by apply kargs_length.
  rewrite E. destruct (HG s ltac:(lia)) as (S1 & _). destruct (HG (S s) ltac:(lia)) as (S2 & _).
  assert (LL : length (A ++ repeat (kn U (S s), 1) mu ++ B) = q) by (rewrite !app_length, repeat_length; lia).
  rewrite (S1 _ _ LL Pm), (S2 _ _ LL Pm).
  apply HA; [exact Hs|]. fold mu. rewrite app_length. lia.
Qed.

Fixpoint first_from (j s fuel : nat) : nat :=
  match fuel with
  | O => s
  | S f => if (j <=? lst M s)%nat then s else first_from j (S s) f
  end.
Lemma first_from_spec j : forall fuel s r, (s <= r)%nat -> (r < s + fuel)%nat -> (j <= lst M r)%nat ->
  (s <= first_from j s fuel <= r)%nat /\ (j <= lst M (first_from j s fuel))%nat.
Proof.
  induction fuel as [|f IH]; intros s r H1 H2 H3; [lia|]. cbn [first_from].
  destruct (Nat.leb_spec j (lst M s)); [lia|]. destruct (Nat.eq_dec s r) as [->|]; [lia|].
  specialize (IH (S s) r). lia.
Qed.
Definition real_pole (j : nat) : R := G (first_from j 0 m) (kargs (kn k) j q).

Lemma realize s j : (s < m)%nat -> (lst M s - q <= j <= lst M s)%nat -> real_pole j = G s (kargs (kn k) j q).
Proof.
  intros Hs Hj. unfold real_pole. destruct (first_from_spec j m 0%nat s) as (H1 & H2); [lia|lia|lia|].
  set (f := first_from j 0 m) in *. clearbody f.
  assert (X : forall r, (f + r <= s)%nat -> G f (kargs (kn k) j q) = G (f + r)%nat (kargs (kn k) j q)).
  { induction r as [|r IH]; intros Hr; [rewrite Nat.add_0_r; reflexivity|]. rewrite IH by lia.
    rewrite Nat.add_succ_r. apply step_agree; [lia| |].
    - unfold lst in *. pose proof (pre_mono M (S f) (S (f + r)) ltac:(lia)). lia.
    - unfold lst in *. pose proof (pre_mono M (S (S (f + r))) (S s) ltac:(lia)). lia. }
  rewrite (X (s - f)%nat ltac:(lia)). f_equal. lia.
Qed.
End Realize.

Definition rep_pole (q : nat) (U : list R) (M2 : list nat) (Q : nat -> R) (M3 : list nat) : nat -> R :=
  real_pole q U M3 (fun s => blo (kn (repeat_each U M2)) (lst M2 s) Q).

Section Same.
Variables (p : nat) (U : list R) (M : list nat) (P : nat -> R) (q : nat) (M2 : list nat) (Q : nat -> R).
Hypothesis H1 : ckn p U M.
Hypothesis H2 : ckn q U M2.
Hypothesis HE : forall x, kn U 0 <= x <= kn U (length U - 1) ->
     CV (repeat_each U M2) (poles_for q M2) q 0 Q x = CV (repeat_each U M) (poles_for p M) p 0 P x.

Lemma same_pieces s : (s < length U - 1)%nat -> forall d x, kn U s <= x <= kn U (S s) ->
    DP (repeat_each U M2) q (lst M2 s) d Q x = DP (repeat_each U M) p (lst M s) d P x.
Proof.
  intros Hs. destruct (ck_lst p U M H1 s Hs) as (A1 & A2 & A3 & A4). destruct (ck_lst q U M2 H2 s Hs) as (B1 & B2 & B3 & B4).
  pose proof (ck_knots_ok p U M H1) as OK. pose proof (ck_knots_ok q U M2 H2) as OK2.
  eapply pieces_equal; [exact OK2|exact B1|exact B4|exact OK|exact A1|exact A4| |]. { rewrite <- A2, <- A3. exact A4. }
  intros x Hx.
  assert (Hin : kn U 0 <= x <= kn U (length U - 1)).
  { pose proof (ck_kn_mono p U M H1 0 s ltac:(lia) ltac:(lia)).
    pose proof (ck_kn_mono p U M H1 (S s) (length U - 1) ltac:(lia) ltac:(lia)). lra. }
  specialize (HE x Hin).
  rewrite (CV_at _ _ q 0 Q x (lst M2 s)) in HE by (auto; apply ck_span_at; auto; lra).
  rewrite (CV_at _ _ p 0 P x (lst M s)) in HE by (auto; apply ck_span_at; auto; lra). exact HE.
Qed.

Lemma same_ders d x : kn U 0 <= x <= kn U (length U - 1) -> (d <= q)%nat ->
  CV (repeat_each U M2) (poles_for q M2) q d Q x = if (d <=? p)%nat then CV (repeat_each U M) (poles_for p M) p d P x else 0.
Proof.
  intros Hx Hd. destruct (ck_in p U M H1 x Hx) as (s & Hs & Hxs & Hend & Sx).
  destruct (ck_in q U M2 H2 x Hx) as (s' & Hs' & Hxs' & Hend' & Sx2).
  assert (E : s' = s).
  { destruct (Nat.lt_total s s') as [L|[L|L]]; [|auto|].
    - destruct Hend as [He|He]; [|lia]. pose proof (ck_kn_mono q U M2 H2 (S s) s' ltac:(lia) ltac:(lia)). lra.
    - destruct Hend' as [He|He]; [|lia]. pose proof (ck_kn_mono q U M2 H2 (S s') s ltac:(lia) ltac:(lia)). lra. }
  subst s'.
  destruct (ck_lst p U M H1 s Hs) as (A1 & _). destruct (ck_lst q U M2 H2 s Hs) as (B1 & _).
  pose proof (ck_knots_ok p U M H1) as OK. pose proof (ck_knots_ok q U M2 H2) as OK2.
  rewrite (CV_at _ _ q d Q x (lst M2 s)), (CV_at _ _ p d P x (lst M s)) by auto.
  pose proof (same_pieces s Hs d x Hxs) as E. unfold DP in E. destruct (Nat.leb_spec d q); [exact E|lia].
Qed.

Lemma represent M3 : ckn q U M3 -> (p <= q)%nat ->
  (forall i, (0 < i < length U - 1)%nat -> (nth i M 0 + (q - p) <= nth i M3 0)%nat) ->
  forall d x, kn U 0 <= x <= kn U (length U - 1) -> (d <= q)%nat ->
     CV (repeat_each U M3) (poles_for q M3) q d (rep_pole q U M2 Q M3) x = CV (repeat_each U M2) (poles_for q M2) q d Q x.
Proof.
  intros H3 Hpq HM.
  set (k := repeat_each U M) in *. set (n := poles_for p M) in *.
  set (k2 := repeat_each U M2) in *. set (n2 := poles_for q M2) in *.
  set (k3 := repeat_each U M3) in *. set (n3 := poles_for q M3) in *.
  set (m := (length U - 1)%nat) in *.
  pose proof (ck_knots_ok p U M H1) as OK. fold k n in OK. pose proof (ck_knots_ok q U M2 H2) as OK2. fold k2 n2 in OK2.
  pose proof (ck_knots_ok q U M3 H3) as OK3. fold k3 n3 in OK3.
  pose proof same_pieces as HD. fold k k2 m in HD.
  set (G := fun s => blo (kn k2) (lst M2 s) Q).
  assert (HG : forall s, (s < m)%nat -> symml q (G s)).
  { intros s Hs. destruct (ck_lst q U M2 H2 s Hs) as (B1 & _ & _ & B4). apply (blo_symml k2 n2); auto. }
  assert (HA : forall s rest, (S s < m)%nat -> (nth (S s) M3 0 + length rest = q)%nat ->
    G s (repeat (kn U (S s), 1) (nth (S s) M3 0%nat) ++ rest) = G (S s) (repeat (kn U (S s), 1) (nth (S s) M3 0%nat) ++ rest)).
  { intros s rest Hs HL. set (mu := nth (S s) M3 0%nat) in *. set (u := kn U (S s)).
    apply (symml_taylor (q - mu) (fun r => G s (repeat (u, 1) mu ++ r)) (fun r => G (S s) (repeat (u, 1) mu ++ r)) u).
    - apply (symml_fix q); [apply HG; lia|rewrite repeat_length; lia].
    - apply (symml_fix q); [apply HG; lia|rewrite repeat_length; lia].
    - intros d Hd.
      assert (Pm : Permutation (repeat (u, 1) mu ++ repeat (1, 0) d ++ repeat (u, 1) (q - mu - d)) (repeat (1, 0) d ++ repeat (u, 1) (q - d))).
      { replace (q - d)%nat with (mu + (q - mu - d))%nat by lia. rewrite repeat_app, !app_assoc.
        apply Permutation_app_tail, Permutation_app_comm. }
      destruct (HG s ltac:(lia)) as (S1 & _). destruct (HG (S s) ltac:(lia)) as (S2 & _).
      assert (LL : length (repeat (u, 1) mu ++ repeat (1, 0) d ++ repeat (u, 1) (q - mu - d)) = q) by (rewrite !app_length, !repeat_length; lia).
      rewrite (S1 _ _ LL Pm), (S2 _ _ LL Pm).
      apply (Rmult_eq_reg_l (ffall q d)); [|apply Rgt_not_eq, ffall_pos; lia].
      unfold G. rewrite <- !PS_blo.
      pose proof (HD s ltac:(lia) d u) as E1. pose proof (HD (S s) ltac:(lia) d u) as E2.
      pose proof (ck_kn_mono p U M H1 s (S s) ltac:(lia) ltac:(unfold m in *; lia)).
      pose proof (ck_kn_mono p U M H1 (S s) (S (S s)) ltac:(lia) ltac:(unfold m in *; lia)).
      specialize (HM (S s) ltac:(lia)). fold mu in HM.
      pose proof (ck_mult p U M H1 (S s) ltac:(unfold m in *; lia)).
      unfold DP in E1, E2. destruct (Nat.leb_spec d q); [|lia]. destruct (Nat.leb_spec d p); [|lia].
      rewrite E1, E2 by (unfold u; lra).
      destruct (ck_between p U M H1 s Hs) as (C1 & C2 & C3).
      destruct (ck_lst p U M H1 s ltac:(lia)) as (A1 & _ & _ & A4). destruct (ck_lst p U M H1 (S s) ltac:(lia)) as (B1 & _ & _ & B4).
      symmetry. apply (PS_continuous_d k n p (lst M s) (lst M (S s)) P u d); auto; lia.
    - lia. }
  intros d x Hx Hd.
  destruct (ck_in q U M2 H2 x Hx) as (s & Hs & Hxs & Hend & Sx2).
  destruct (ck_lst q U M2 H2 s Hs) as (B1 & B2 & B3 & B4). destruct (ck_lst q U M3 H3 s Hs) as (C1 & C2 & C3 & C4).
  assert (Sx3 : span_at k3 n3 x (lst M3 s)).
  { destruct (ck_in q U M3 H3 x Hx) as (s' & Hs' & Hxs' & Hend' & Sx3).
    replace s with s'; [exact Sx3|].
    destruct (Nat.lt_total s s') as [L|[L|L]]; [|auto|].
    - destruct Hend as [He|He]; [|lia]. pose proof (ck_kn_mono q U M2 H2 (S s) s' ltac:(lia) ltac:(unfold m in *; lia)). lra.
    - destruct Hend' as [He|He]; [|lia]. pose proof (ck_kn_mono q U M2 H2 (S s') s ltac:(lia) ltac:(unfold m in *; lia)). lra. }
  apply (CV_transfer k2 n2 k3 n3 q (lst M2 s) (lst M3 s)); auto.
  intros j Hj. apply (realize q U M3 H3 G HG HA s j Hs Hj).
Qed.
End Same.
