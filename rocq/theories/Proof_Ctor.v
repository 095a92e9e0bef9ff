(** The constructor of the curve class. *)
From Coq Require Import List Arith ZArith Reals Lia Lra Bool.
From Verif Require Import Model_Base Model_Basis Model_Knots Model_Rational Model_Curve
  Spec_Base Spec_Basis Proof_Base Proof_Blossom Proof_Basis Proof_Ders Proof_Eval.
Import ListNotations.
Local Open Scope R_scope.

Lemma back_app {A} (l : list A) a : back (l ++ [a]) = Ok a.
Proof. unfold back. rewrite rev_app_distr. reflexivity. Qed.

Lemma Rabs_le_b a b : Rabs a <= b -> - b <= a <= b.
Proof. unfold Rabs. destruct (Rcase_abs a); lra. Qed.

Section AtR.
Variable eps : R.
Local Hint Extern 0 (Num R) => exact (NumR eps) : typeclass_instances.

Inductive ordp (P : R -> R -> Prop) : list R -> Prop :=
| ordp_nil : ordp P []
| ordp_cons a l : (forall x, In x l -> P a x) -> ordp P l -> ordp P (a :: l).

Lemma unflat_fold delta rest : forall ks b ms m,
  (forall x y, In x (b :: rest) -> In y (b :: rest) -> Rabs (x - y) <= eps -> Rabs (x - y) <= delta) ->
  0 <= delta ->
  exists ks' ms', foldM unflat_step (ks ++ [b], ms ++ [m]) rest = Ok (ks ++ b :: ks', ms ++ ms') /\
    (is_sorted (b :: ks') = true ->
       (forall x, In x rest -> b - delta <= x) /\ ordp (fun x y => x <= y + 2 * delta) rest) /\
    (ordp Rle (b :: rest) -> is_sorted (b :: ks') = true).
Proof.
  induction rest as [|x t IH]; intros ks b ms m Hd Hd0.
  - exists [], [m]. split; [reflexivity|]. split; [|reflexivity].
    intros _. split; [intros x []|constructor].
  - cbn [foldM]. unfold unflat_step at 1. rewrite !back_app. cbn [bind]. nsimp.
    rewrite (nabs_R eps). rewrite removelast_last.
    destruct (Rleb_spec (Rabs (x - b)) eps) as [H|H]; cbn [bind].
    + assert (Hx : Rabs (x - b) <= delta) by (apply Hd; simpl; auto).
      destruct (IH ks b ms (S m)) as (ks' & ms' & E & S1 & S2); auto.
      { intros u v Hu Hv. apply Hd; simpl in *; tauto. }
      exists ks', ms'. split; [exact E|]. split.
      * intros Hs. destruct (S1 Hs) as (A & B). apply Rabs_le_b in Hx.
        split; [intros y [->|Hy]; [lra|apply A; auto]|].
        constructor; auto. intros y Hy. specialize (A y Hy). lra.
      * intros Ho. apply S2. inversion Ho as [|? ? A B]; subst. inversion B as [|? ? A2 B2]; subst.
        constructor; auto. intros y Hy. apply A; simpl; auto.
    + destruct (IH (ks ++ [b]) x (ms ++ [m]) 1%nat) as (ks' & ms' & E & S1 & S2); auto.
      { intros u v Hu Hv. apply Hd; simpl in *; tauto. }
      exists (x :: ks'), (m :: ms'). split.
      { rewrite E. rewrite <- !app_assoc. reflexivity. }
      split.
      * cbn [is_sorted]. intros Hs. apply andb_true_iff in Hs. destruct Hs as (H1 & H2).
        nsimp. apply negb_true_iff, Rltb_false in H1.
        destruct (S1 H2) as (A & B).
        split; [intros y [->|Hy]; [lra|specialize (A y Hy); lra]|].
        constructor; auto. intros y Hy. specialize (A y Hy). lra.
      * intros Ho. inversion Ho as [|? ? A B]; subst. cbn [is_sorted]. nsimp.
        apply andb_true_iff. split.
        -- apply negb_true_iff, Rltb_false. apply A; simpl; auto.
        -- apply S2; auto.
Qed.

Lemma ordp_nth P l : ordp P l <-> forall i j, (i < j < length l)%nat -> P (nth i l 0) (nth j l 0).
Proof.
  split.
  - induction 1 as [|a l H1 H2 IH]; simpl; intros i j H; [lia|].
    destruct j as [|j]; [lia|]. destruct i as [|i]; [apply H1, nth_In; lia|apply IH; lia].
  - induction l as [|a l IH]; intros H; constructor.
    + intros x Hx. destruct (In_nth l x 0 Hx) as (i & Hi & <-). apply (H 0%nat (S i)). simpl; lia.
    + apply IH. intros i j Hij. apply (H (S i) (S j)). simpl; lia.
Qed.

Lemma check_spec delta (k : list R) np p : k <> [] -> 0 <= delta ->
  (forall x y, In x k -> In y k -> Rabs (x - y) <= eps -> Rabs (x - y) <= delta) ->
  exists b, check_curve np k p = Ok b /\
    (b = true -> (p + 1 + np = length k /\ p + 1 <= np)%nat /\ ordp (fun x y => x <= y + 2 * delta) k) /\
    ((p + 1 + np = length k)%nat -> (p + 1 <= np)%nat -> nondecreasing k -> b = true).
Proof.
  intros Hne Hd0 Hd. unfold check_curve, knots_and_mults. destruct k as [|k0 t]; [congruence|].
  cbn [front bind tl].
  destruct (unflat_fold delta t [] k0 [] 1%nat Hd Hd0) as (ks & ms & E & S1 & S2).
  simpl app in E. rewrite E. cbn [bind]. eexists; split; [reflexivity|]. split.
  - intros H. apply andb_true_iff in H. destruct H as (H & H3). apply andb_true_iff in H. destruct H as (H1 & H2).
    apply Nat.eqb_eq in H2. apply Nat.leb_le in H3. split; [lia|].
    destruct (S1 H1) as (A & B). constructor; auto. intros y Hy. specialize (A y Hy). lra.
  - intros H1 H2 H3. rewrite S2.
    + apply Nat.eqb_eq in H1. rewrite H1. apply Nat.leb_le in H2. rewrite H2. reflexivity.
    + apply ordp_nth. intros i j Hij. apply (H3 i j); lia.
Qed.

Lemma mk_curve_spec delta (k : list R) (P : list (pt R)) p : 0 <= delta ->
  (forall x y, In x k -> In y k -> Rabs (x - y) <= eps -> Rabs (x - y) <= delta) ->
  (k = [] /\ mk_curve P k p = Undef EmptyFront) \/
  (mk_curve P k p = Throw InvalidArgument) \/
  (mk_curve P k p = Ok (mk p P k (kn k 0) (kn k (length k - 1))) /\
    (p + 1 + length P = length k /\ p + 1 <= length P)%nat /\
    forall i j, (i < j < length k)%nat -> kn k i <= kn k j + 2 * delta).
Proof.
  intros Hd0 Hd. destruct (list_eq_dec Req_EM_T k []) as [->|Hne].
  - left. split; reflexivity.
  - right. destruct (check_spec delta k (length P) p Hne Hd0 Hd) as (b & E & S1 & _).
    unfold mk_curve. rewrite (back_kn k) by (destruct k; [congruence|simpl; lia]).
    assert (Hf : front k = Ok (kn k 0)) by (destruct k; [congruence|reflexivity]).
    rewrite Hf, E. cbn [bind]. destruct b; [right|left; reflexivity].
    destruct (S1 eq_refl) as (A & B). split; [reflexivity|]. split; [exact A|].
    exact (proj1 (ordp_nth _ k) B).
Qed.

Lemma mk_curve_accepts (k : list R) (P : list (pt R)) p :
  (p + 1 + length P = length k)%nat -> (p + 1 <= length P)%nat -> nondecreasing k ->
  mk_curve P k p = Ok (mk p P k (kn k 0) (kn k (length k - 1))).
Proof.
  intros H1 H2 H3. assert (Hne : k <> []) by (intros ->; simpl in H1; lia).
  destruct (Rle_lt_dec 0 eps) as [He|He].
  - destruct (check_spec eps k (length P) p Hne He ltac:(auto)) as (b & E & _ & S2).
    unfold mk_curve. rewrite (back_kn k) by (destruct k; [congruence|simpl; lia]).
    assert (Hf : front k = Ok (kn k 0)) by (destruct k; [congruence|reflexivity]).
    rewrite Hf, E. cbn [bind]. rewrite S2 by auto. reflexivity.
  - destruct (check_spec 0 k (length P) p Hne ltac:(lra)) as (b & E & _ & S2).
    { intros x y _ _ H. pose proof (Rabs_pos (x - y)). lra. }
    unfold mk_curve. rewrite (back_kn k) by (destruct k; [congruence|simpl; lia]).
    assert (Hf : front k = Ok (kn k 0)) by (destruct k; [congruence|reflexivity]).
    rewrite Hf, E. cbn [bind]. rewrite S2 by auto. reflexivity.
Qed.
End AtR.
