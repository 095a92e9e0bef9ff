(** Statements of the basis/evaluation properties, assembled from the lemmas. *)
From Coq Require Import List Arith ZArith Reals Lia Lra Bool Permutation.
From Verif Require Import Model_Base Model_Basis Spec_Base Spec_Basis Spec_Eval Proof_Base Proof_Blossom
  Proof_Basis Proof_Ders Proof_Eval.
Import ListNotations.
Local Open Scope R_scope.

Section AtR.
Variable eps : R.
Notation NR := (NumR eps).
Local Hint Extern 0 (Num R) => exact (NumR eps) : typeclass_instances.

Lemma find_span_total k n p u :
  length k = (n + p + 1)%nat -> (p < n)%nat -> nondecreasing k ->
  exists i, find_span n p u k = Ok i /\ (p <= i < n)%nat /\
    (kn k p <= u < kn k n -> kn k i <= u < kn k (S i)) /\
    (u < kn k p -> i = p) /\ (kn k n <= u -> i = (n - 1)%nat).
Proof.
  intros Hl Hp Hnd. destruct (Rle_lt_dec (kn k n) u) as [H|H].
  - exists (n - 1)%nat. rewrite (find_span_above eps) by (lia || lra). split; [reflexivity|].
    assert (kn k p <= kn k n) by (apply Hnd; lia).
    split; [lia|]. split; [lra|]. split; [lra|reflexivity].
  - destruct (Rlt_le_dec u (kn k p)) as [H2|H2].
    + exists p. rewrite (find_span_below eps) by auto. split; [reflexivity|].
      split; [lia|]. split; [lra|]. split; [reflexivity|lra].
    + destruct (find_span_in eps n p u k Hl Hp H2 H) as (i & E & Hi & Hk).
      exists i. split; [exact E|]. split; [exact Hi|]. split; [auto|]. split; lra.
Qed.

(** uniform access to the span at u *)
Lemma span_pack k n p u : knots_ok k n p -> kn k p <= u <= kn k n ->
  exists l, find_span n p u k = Ok l /\ (p <= l < n)%nat /\ span_at k n u l /\ kn k l < kn k (S l).
Proof.
  intros Hk Hu. destruct (span_at_ex eps n p u k Hk Hu) as (l & Hl & Hs & Hst).
  exists l. split; [|auto]. destruct Hk as (Hlen & Hp & Hnd & _). apply (span_at_find eps); auto.
Qed.

Lemma basis_funcs_correct k n p u i :
  knots_ok k n p -> (p <= 24)%nat -> kn k p <= u <= kn k n ->
  find_span n p u k = Ok i ->
  exists B, basis_funcs i p u k = Ok B /\ length B = (p + 1)%nat /\
    forall r, (r <= p)%nat -> get B r = Ok (Nbas (kn k) n p (i - p + r) u).
Proof.
  intros Hk Hp Hu Hf. destruct (span_pack k n p u Hk Hu) as (l & Ef & Hl & Hs & Hst).
  rewrite Ef in Hf. inversion Hf; subst i. pose proof Hk as (Hlen & Hpn & Hnd & Hlast).
  rewrite (basis_funcs_ok eps k l p u Hnd) by (auto; lia).
  eexists; split; [reflexivity|]. rewrite map_length, seq_length. split; [reflexivity|].
  intros r Hr. rewrite get_map_seq by lia. f_equal.
  rewrite (span_at_bas n p u k l) by (auto; lia). reflexivity.
Qed.

Lemma basis_support k n p u i :
  knots_ok k n p -> kn k p <= u <= kn k n -> find_span n p u k = Ok i ->
  forall j, (j < n)%nat -> (j + p < i \/ i < j)%nat -> Nbas (kn k) n p j u = 0.
Proof.
  intros Hk Hu Hf j Hj Hout. destruct (span_pack k n p u Hk Hu) as (l & Ef & Hl & Hs & Hst).
  rewrite Ef in Hf. inversion Hf; subst i.
  rewrite (span_at_bas n p u k l) by auto. apply NH_out. rewrite repeat_length. lia.
Qed.

Lemma Nbas_nonneg k n p u j :
  knots_ok k n p -> kn k p <= u <= kn k n -> (j < n)%nat -> 0 <= Nbas (kn k) n p j u.
Proof.
  intros Hk Hu Hj. destruct (span_pack k n p u Hk Hu) as (l & Ef & Hl & Hs & Hst).
  rewrite (span_at_bas n p u k l) by auto. pose proof Hk as (Hlen & Hpn & Hnd & Hlast).
  apply (NH_nonneg (kn k) l (n + p)).
  - intros a b H1 H2. apply Hnd; lia.
  - exact Hst.
  - destruct Hs as [[? ?]|[-> ->]]; [lra|]. replace (S (n - 1)) with n in Hst by lia. lra.
  - destruct Hs as [[? ?]|[-> ->]]; [lra|]. replace (S (n - 1)) with n by lia. lra.
  - lia.
Qed.

Lemma Nbas_sum k n p u :
  knots_ok k n p -> kn k p <= u <= kn k n -> sumn n (fun j => Nbas (kn k) n p j u) = 1.
Proof.
  intros Hk Hu. destruct (span_pack k n p u Hk Hu) as (l & Ef & Hl & Hs & Hst).
  pose proof Hk as (Hlen & Hpn & Hnd & Hlast).
  rewrite (sumn_ext n _ (fun i => NH (kn k) l (repeat (u, 1) p) i))
    by (intros; apply (span_at_bas n p u k l); auto).
  rewrite (sumn_window n 0 (S l)); [|lia|].
  - simpl (0 + _)%nat.
    rewrite (NH_sum (kn k) l (n + p)); [|intros a b H1 H2; apply Hnd; lia|exact Hst| |];
      rewrite ?repeat_length; try lia.
    clear. induction p; simpl; [reflexivity|]. rewrite IHp; ring.
  - intros i Hi [H|H]; [lia|]. apply NH_out. lia.
Qed.

Lemma sumn_get (B : list R) f : (forall r, (r < length B)%nat -> get B r = Ok (f r)) ->
  fold_right Rplus 0 B = sumn (length B) f.
Proof.
  revert f; induction B as [|b B IH]; intros f H; [reflexivity|].
  cbn [fold_right length]. rewrite sumn_shift. rewrite (IH (fun i => f (S i))).
  - specialize (H 0%nat ltac:(simpl; lia)). unfold get in H; simpl in H. inversion H; reflexivity.
  - intros r Hr. apply (H (S r)). simpl; lia.
Qed.

Lemma basis_funcs_sum k n p u i B :
  knots_ok k n p -> (p <= 24)%nat -> kn k p <= u <= kn k n ->
  find_span n p u k = Ok i -> basis_funcs i p u k = Ok B ->
  fold_right Rplus 0 B = 1.
Proof.
  intros Hk Hp Hu Hf HB. destruct (basis_funcs_correct k n p u i Hk Hp Hu Hf) as (B' & E & L & V).
  rewrite E in HB; inversion HB; subst B'.
  rewrite (sumn_get B (fun r => Nbas (kn k) n p (i - p + r) u)) by (intros r Hr; apply V; lia).
  rewrite L, <- (Nbas_sum k n p u Hk Hu).
  destruct (span_pack k n p u Hk Hu) as (l & Ef & Hl & Hs & Hst). rewrite Ef in Hf; inversion Hf; subst i.
  rewrite (sumn_window n (l - p) (p + 1)); [reflexivity|lia|].
  intros j Hj Hout. apply (basis_support k n p u l Hk Hu Ef); lia.
Qed.

Lemma basis_function_correct k n p u i :
  knots_ok k n p -> end_clamped k n p -> separated eps k -> 0 < eps ->
  kn k p <= u <= kn k n -> (i < n)%nat ->
  basis_function u i p 0 k = Ok (Nbas (kn k) n p i u).
Proof.
  intros Hk Hcl Hsep He Hu Hi. destruct (span_pack k n p u Hk Hu) as (l & Ef & Hl & Hs & Hst).
  unfold basis_function. rewrite (basis_der_ok eps k n p l u Hk Hcl Hsep He Hl Hs) by lia.
  rewrite (span_at_bas n p u k l) by auto. cbn [ffall repeat app]. rewrite Nat.sub_0_r. f_equal; ring.
Qed.

Lemma evaluable_dom k n p : evaluable eps k n p -> eval_dom eps k n p.
Proof. exact (fun H => H). Qed.

Lemma eval_value_correct k n p poles u :
  knots_ok k n p -> length poles = n -> evaluable eps k n p -> kn k p <= u <= kn k n ->
  exists q, eval_value u k poles p 0 = Ok q /\
    forall c, q c = spline (kn k) n p (polec poles c) u.
Proof.
  intros Hk Hpo Hev Hu. destruct (span_pack k n p u Hk Hu) as (l & Ef & Hl & Hs & Hst).
  destruct (eval_value_span eps k n p poles u 0 l Hk Hpo Hl Hs ltac:(lia) Hev) as (q & E & V).
  exists q. split; [exact E|]. intros c. rewrite V. apply PS_spline; auto.
Qed.

Lemma eval_value_hull k n p poles u :
  knots_ok k n p -> length poles = n -> evaluable eps k n p -> kn k p <= u <= kn k n ->
  exists i q w, find_span n p u k = Ok i /\ eval_value u k poles p 0 = Ok q /\
    (forall r, (r <= p)%nat -> 0 <= w r) /\ sumn (p + 1) w = 1 /\
    forall c, q c = sumn (p + 1) (fun r => w r * polec poles c (i - p + r)).
Proof.
  intros Hk Hpo Hev Hu. destruct (span_pack k n p u Hk Hu) as (l & Ef & Hl & Hs & Hst).
  destruct (eval_value_correct k n p poles u Hk Hpo Hev Hu) as (q & E & V).
  exists l, q, (fun r => Nbas (kn k) n p (l - p + r) u). split; [exact Ef|]. split; [exact E|].
  split; [intros; apply Nbas_nonneg; auto; lia|]. split.
  - rewrite <- (Nbas_sum k n p u Hk Hu). symmetry. apply (sumn_window n (l - p) (p + 1) (fun j => Nbas (kn k) n p j u)); [lia|].
    intros j Hj Hout. apply (basis_support k n p u l Hk Hu Ef); lia.
  - intros c. rewrite V. unfold spline.
    apply (sumn_window n (l - p) (p + 1) (fun j => Nbas (kn k) n p j u * polec poles c j)); [lia|].
    intros j Hj Hout. rewrite (basis_support k n p u l Hk Hu Ef) by lia. ring.
Qed.

(** x |-> A x + t on [dim] coordinates *)
Definition aff (dim : nat) (A : nat -> nat -> R) (t : nat -> R) (x : pt R) : pt R :=
  fun c => sumn dim (fun e => A c e * x e) + t c.

Lemma eval_value_affine k n p poles u dim A t :
  knots_ok k n p -> length poles = n -> evaluable eps k n p -> kn k p <= u <= kn k n ->
  exists q q', eval_value u k poles p 0 = Ok q /\
    eval_value u k (map (aff dim A t) poles) p 0 = Ok q' /\
    forall c, q' c = aff dim A t q c.
Proof.
  intros Hk Hpo Hev Hu.
  destruct (eval_value_correct k n p poles u Hk Hpo Hev Hu) as (q & E & V).
  destruct (eval_value_correct k n p (map (aff dim A t) poles) u Hk ltac:(rewrite map_length; exact Hpo) Hev Hu)
    as (q' & E' & V').
  exists q, q'. split; [exact E|]. split; [exact E'|]. intros c. rewrite V'. unfold aff, spline.
  transitivity (sumn n (fun i => sumn dim (fun e => A c e * (Nbas (kn k) n p i u * polec poles e i))
      + Nbas (kn k) n p i u * t c)).
  - apply sumn_ext; intros i Hi. unfold polec.
    rewrite (nth_indep _ _ (aff dim A t (fun _ => 0))) by (rewrite map_length, Hpo; exact Hi).
    rewrite (map_nth (aff dim A t)). unfold aff. rewrite Rmult_plus_distr_l. f_equal.
    rewrite <- sumn_scal. apply sumn_ext; intros; ring.
  - rewrite sumn_plus. f_equal.
    + rewrite sumn_swap. apply sumn_ext; intros e He. rewrite V; unfold spline; rewrite <- sumn_scal. reflexivity.
    + rewrite (sumn_ext n _ (fun i => t c * Nbas (kn k) n p i u)) by (intros; ring).
      rewrite sumn_scal, Nbas_sum by auto. ring.
Qed.

(** ** Ends *)
Lemma repeat_kargs k j q u : (forall x, (j < x <= j + q)%nat -> k x = u) ->
  repeat (u, 1) q = kargs k j q.
Proof.
  revert j; induction q as [|q IH]; intros j H; [reflexivity|].
  rewrite kargs_S. cbn [repeat]. rewrite H by lia. f_equal. apply IH. intros; apply H; lia.
Qed.

Lemma eval_value_start k n p poles :
  knots_ok k n p -> length poles = n -> evaluable eps k n p ->
  (forall i, (i <= p)%nat -> kn k i = kn k 0) -> kn k p < kn k (p + 1) ->
  exists q, eval_value (kn k 0) k poles p 0 = Ok q /\ forall c, q c = polec poles c 0.
Proof.
  intros Hk Hpo Hev Hcl Hst. pose proof Hk as (Hlen & Hpn & Hnd & Hlast).
  assert (Hs : span_at k n (kn k 0) p).
  { left. rewrite (Hcl p) in * by lia. replace (S p) with (p + 1)%nat by lia. lra. }
  destruct (eval_value_span eps k n p poles (kn k 0) 0 p Hk Hpo ltac:(lia) Hs ltac:(lia) Hev) as (q & E & V).
  exists q. split; [exact E|]. intros c. rewrite V. unfold PS. cbn [ffall repeat app].
  rewrite Nat.sub_0_r, (repeat_kargs (kn k) 0) by (intros; apply Hcl; lia).
  rewrite (sumn_ext _ _ (fun i => NH (kn k) p (kargs (kn k) 0 p) i * pole poles c i)) by (intros; ring).
  rewrite (NH_dual_sum (kn k) p (p + p)); try lia; [reflexivity| |].
  - intros a b H1 H2. apply Hnd; lia.
  - rewrite Nat.add_1_r in Hst; exact Hst.
Qed.

Lemma eval_value_end k n p poles :
  knots_ok k n p -> length poles = n -> evaluable eps k n p -> end_clamped k n p ->
  exists q, eval_value (kn k n) k poles p 0 = Ok q /\ forall c, q c = polec poles c (n - 1).
Proof.
  intros Hk Hpo Hev Hcl. pose proof Hk as (Hlen & Hpn & Hnd & Hlast).
  assert (Hs : span_at k n (kn k n) (n - 1)) by (right; auto).
  destruct (eval_value_span eps k n p poles (kn k n) 0 (n - 1) Hk Hpo ltac:(lia) Hs ltac:(lia) Hev) as (q & E & V).
  exists q. split; [exact E|]. intros c. rewrite V. unfold PS. cbn [ffall repeat app].
  rewrite Nat.sub_0_r, (repeat_kargs (kn k) (n - 1)) by (intros; apply Hcl; lia).
  rewrite (sumn_ext _ _ (fun i => NH (kn k) (n - 1) (kargs (kn k) (n - 1) p) i * pole poles c i)) by (intros; ring).
  rewrite (NH_dual_sum (kn k) (n - 1) (n + p)); try lia; [reflexivity| |].
  - intros a b H1 H2. apply Hnd; lia.
  - replace (S (n - 1)) with n by lia. exact Hlast.
Qed.

Lemma eval_tangent_start k n p poles :
  knots_ok k n p -> length poles = n -> evaluable eps k n p -> (1 <= p)%nat ->
  (forall i, (i <= p)%nat -> kn k i = kn k 0) -> kn k p < kn k (p + 1) ->
  exists q, eval_value (kn k 0) k poles p 1 = Ok q /\
    forall c, q c = INR p / (kn k (p + 1) - kn k 0) * (polec poles c 1 - polec poles c 0).
Proof.
  intros Hk Hpo Hev Hp1 Hcl Hst. pose proof Hk as (Hlen & Hpn & Hnd & Hlast).
  assert (Hs : span_at k n (kn k 0) p).
  { left. rewrite (Hcl p) in * by lia. replace (S p) with (p + 1)%nat by lia. lra. }
  destruct (eval_value_span eps k n p poles (kn k 0) 1 p Hk Hpo ltac:(lia) Hs ltac:(lia) Hev) as (q & E & V).
  exists q. split; [exact E|]. intros c. rewrite V. unfold PS. cbn [ffall repeat app].
  rewrite Nat.sub_0_r.
  set (P := pole poles c). change (polec poles c) with P.
  set (a := kn k (p + 1)) in *. set (b := kn k 0) in *.
  assert (Hab : b < a) by (rewrite (Hcl p) in Hst by lia; exact Hst).
  set (rest := repeat (b, 1) (p - 1)).
  assert (mono : forall x y, (x <= y)%nat -> (y <= p + p)%nat -> kn k x <= kn k y) by (intros; apply Hnd; lia).
  assert (Hsp : kn k p < kn k (S p)) by (rewrite Nat.add_1_r in *; rewrite (Hcl p) by lia; unfold a, b in Hab; rewrite Nat.add_1_r in Hab; exact Hab).
  destruct (NH_symml (kn k) p (p + p) mono Hsp p P (S p) ltac:(lia)) as [Hsym Hlin].
  assert (E1 : (1, 0) = lc (/ (a - b)) (a, 1) (- / (a - b)) (b, 1)).
  { unfold lc; cbn [fst snd]. f_equal; field; lra. }
  transitivity (INR p * sumn (S p) (fun i => NH (kn k) p ((1, 0) :: rest) i * P i)).
  { rewrite <- sumn_scal. apply sumn_ext; intros; ring. }
  rewrite E1, Hlin by (unfold rest; rewrite repeat_length; lia).
  assert (X1 : sumn (S p) (fun i => NH (kn k) p ((a, 1) :: rest) i * P i) = P 1%nat).
  { rewrite (Hsym _ (kargs (kn k) 1 p)).
    - apply (NH_dual_sum (kn k) p (p + p)); auto; lia.
    - unfold rest; simpl; rewrite repeat_length; lia.
    - destruct p as [|m]; [lia|]. rewrite kargs_snoc.
      replace (1 + S m)%nat with (S m + 1)%nat by lia. fold a.
      replace (kargs (kn k) 1 m) with rest.
      + apply Permutation_cons_append.
      + unfold rest. rewrite (repeat_kargs (kn k) 1) by (intros; apply Hcl; lia). f_equal; lia. }
  assert (X0 : sumn (S p) (fun i => NH (kn k) p ((b, 1) :: rest) i * P i) = P 0%nat).
  { change ((b, 1) :: rest) with (repeat (b, 1) (S (p - 1))). replace (S (p - 1)) with p by lia.
    rewrite (repeat_kargs (kn k) 0) by (intros; apply Hcl; lia).
    apply (NH_dual_sum (kn k) p (p + p)); auto; lia. }
  rewrite X1, X0. field. lra.
Qed.

Lemma eval_tangent_end k n p poles :
  knots_ok k n p -> length poles = n -> evaluable eps k n p -> (1 <= p)%nat -> end_clamped k n p ->
  exists q, eval_value (kn k n) k poles p 1 = Ok q /\
    forall c, q c = INR p / (kn k n - kn k (n - 1)) * (polec poles c (n - 1) - polec poles c (n - 2)).
Proof.
  intros Hk Hpo Hev Hp1 Hcl. pose proof Hk as (Hlen & Hpn & Hnd & Hlast).
  assert (Hs : span_at k n (kn k n) (n - 1)) by (right; auto).
  destruct (eval_value_span eps k n p poles (kn k n) 1 (n - 1) Hk Hpo ltac:(lia) Hs ltac:(lia) Hev) as (q & E & V).
  exists q. split; [exact E|]. intros c. rewrite V. unfold PS. cbn [ffall repeat app].
  rewrite Nat.sub_0_r.
  set (P := pole poles c). change (polec poles c) with P.
  set (a := kn k n) in *. set (b := kn k (n - 1)) in *.
  set (rest := repeat (a, 1) (p - 1)).
  assert (mono : forall x y, (x <= y)%nat -> (y <= n + p)%nat -> kn k x <= kn k y) by (intros; apply Hnd; lia).
  assert (Hsp : kn k (n - 1) < kn k (S (n - 1))) by (replace (S (n - 1)) with n by lia; exact Hlast).
  destruct (NH_symml (kn k) (n - 1) (n + p) mono Hsp p P (S (n - 1)) ltac:(lia)) as [Hsym Hlin].
  assert (E1 : (1, 0) = lc (/ (a - b)) (a, 1) (- / (a - b)) (b, 1)).
  { unfold lc; cbn [fst snd]. f_equal; field; lra. }
  transitivity (INR p * sumn (S (n - 1)) (fun i => NH (kn k) (n - 1) ((1, 0) :: rest) i * P i)).
  { rewrite <- sumn_scal. apply sumn_ext; intros; ring. }
  rewrite E1, Hlin by (unfold rest; rewrite repeat_length; lia).
  assert (X1 : sumn (S (n - 1)) (fun i => NH (kn k) (n - 1) ((a, 1) :: rest) i * P i) = P (n - 1)%nat).
  { change ((a, 1) :: rest) with (repeat (a, 1) (S (p - 1))). replace (S (p - 1)) with p by lia.
    rewrite (repeat_kargs (kn k) (n - 1)) by (intros; apply Hcl; lia).
    apply (NH_dual_sum (kn k) (n - 1) (n + p)); auto; lia. }
  assert (X0 : sumn (S (n - 1)) (fun i => NH (kn k) (n - 1) ((b, 1) :: rest) i * P i) = P (n - 2)%nat).
  { replace ((b, 1) :: rest) with (kargs (kn k) (n - 2) p).
    - apply (NH_dual_sum (kn k) (n - 1) (n + p)); auto; lia.
    - destruct p as [|m]; [lia|]. rewrite kargs_S. replace (S (n - 2)) with (n - 1)%nat by lia.
      fold b. f_equal. unfold rest. replace (S m - 1)%nat with m by lia.
      symmetry; apply repeat_kargs. intros; apply Hcl; lia. }
  rewrite X1, X0. field. lra.
Qed.

(** ** Derivatives *)
Lemma PS_deriv_all k p l d P u :
  nondecreasing k -> (l + p < length k)%nat -> kn k l < kn k (S l) ->
  derivable_pt_lim (fun x => if (d <=? p)%nat then PS k p l d P x else 0) u
     (if (S d <=? p)%nat then PS k p l (S d) P u else 0).
Proof.
  intros Hnd Hlen Hs. destruct (Nat.leb_spec d p) as [H1|H1]; destruct (Nat.leb_spec (S d) p) as [H2|H2].
  - apply PS_deriv; auto.
  - replace d with p by lia. unfold PS. rewrite Nat.sub_diag. cbn [repeat].
    apply derivable_pt_lim_const.
  - lia.
  - apply derivable_pt_lim_const.
Qed.

Lemma eval_val_span k n p poles u d l c :
  knots_ok k n p -> length poles = n -> evaluable eps k n p -> (p <= l < n)%nat -> span_at k n u l ->
  val (eval_value u k poles p d) c = if (d <=? p)%nat then PS k p l d (pole poles c) u else 0.
Proof.
  intros Hk Hpo Hev Hl Hs. destruct (Nat.leb_spec d p) as [H|H].
  - destruct (eval_value_span eps k n p poles u d l Hk Hpo Hl Hs H Hev) as (q & E & V).
    rewrite E. simpl. apply V.
  - rewrite eval_value_high by exact H. reflexivity.
Qed.

Lemma eval_value_total k n p poles u d :
  knots_ok k n p -> length poles = n -> evaluable eps k n p -> kn k p <= u <= kn k n ->
  exists q, eval_value u k poles p d = Ok q.
Proof.
  intros Hk Hpo Hev Hu. destruct (Nat.le_gt_cases d p) as [H|H].
  - destruct (span_pack k n p u Hk Hu) as (l & Ef & Hl & Hs & Hst).
    destruct (eval_value_span eps k n p poles u d l Hk Hpo Hl Hs H Hev) as (q & E & V). eauto.
  - rewrite eval_value_high by exact H. eauto.
Qed.

Lemma eval_deriv_inside k n p poles d c l u :
  knots_ok k n p -> length poles = n -> evaluable eps k n p ->
  (p <= l < n)%nat -> kn k l < u < kn k (S l) ->
  derivable_pt_lim (fun x => val (eval_value x k poles p d) c) u (val (eval_value u k poles p (S d)) c).
Proof.
  intros Hk Hpo Hev Hl Hu. pose proof Hk as (Hlen & Hpn & Hnd & Hlast).
  rewrite (eval_val_span k n p poles u (S d) l c) by (auto; left; lra).
  pose proof (PS_deriv_all k p l d (pole poles c) u Hnd ltac:(lia) ltac:(lra)) as D.
  intros e He. destruct (D e He) as [dl Hd].
  set (dd := Rmin dl (Rmin (u - kn k l) (kn k (S l) - u))).
  assert (Hdd : 0 < dd).
  { unfold dd. apply Rmin_pos; [apply cond_pos|apply Rmin_pos; lra]. }
  exists (mkposreal dd Hdd). intros h Hh Hhd. simpl in Hhd.
  assert (B1 : dd <= dl) by apply Rmin_l.
  assert (B2 : dd <= Rmin (u - kn k l) (kn k (S l) - u)) by apply Rmin_r.
  assert (B3 : dd <= u - kn k l) by (eapply Rle_trans; [exact B2|apply Rmin_l]).
  assert (B4 : dd <= kn k (S l) - u) by (eapply Rle_trans; [exact B2|apply Rmin_r]).
  assert (Hab : - dd < h < dd) by (apply Rabs_def2 in Hhd; lra).
  rewrite (eval_val_span k n p poles (u + h) d l c) by (auto; left; lra).
  rewrite (eval_val_span k n p poles u d l c) by (auto; left; lra).
  apply Hd; [exact Hh|lra].
Qed.

Lemma eval_deriv_right k n p poles d c u :
  knots_ok k n p -> length poles = n -> evaluable eps k n p -> kn k p <= u < kn k n ->
  right_deriv (fun x => val (eval_value x k poles p d) c) u (val (eval_value u k poles p (S d)) c).
Proof.
  intros Hk Hpo Hev Hu. pose proof Hk as (Hlen & Hpn & Hnd & Hlast).
  destruct (find_span_in eps n p u k Hlen Hpn ltac:(lra) ltac:(lra)) as (l & _ & Hl & Hkl).
  rewrite (eval_val_span k n p poles u (S d) l c) by (auto; left; lra).
  pose proof (PS_deriv_all k p l d (pole poles c) u Hnd ltac:(lia) ltac:(lra)) as D.
  intros e He. destruct (D e He) as [dl Hd].
  exists (Rmin dl (kn k (S l) - u)). split; [apply Rmin_pos; [apply cond_pos|lra]|].
  intros h Hh. pose proof (Rmin_l dl (kn k (S l) - u)). pose proof (Rmin_r dl (kn k (S l) - u)).
  rewrite (eval_val_span k n p poles (u + h) d l c) by (auto; left; lra).
  rewrite (eval_val_span k n p poles u d l c) by (auto; left; lra).
  apply Hd; [lra|]. rewrite Rabs_right; lra.
Qed.

Lemma eval_deriv_left_end k n p poles d c :
  knots_ok k n p -> length poles = n -> evaluable eps k n p ->
  left_deriv (fun x => val (eval_value x k poles p d) c) (kn k n) (val (eval_value (kn k n) k poles p (S d)) c).
Proof.
  intros Hk Hpo Hev. pose proof Hk as (Hlen & Hpn & Hnd & Hlast).
  assert (Hs : span_at k n (kn k n) (n - 1)) by (right; auto).
  assert (Hst : kn k (n - 1) < kn k (S (n - 1))) by (replace (S (n - 1)) with n by lia; exact Hlast).
  rewrite (eval_val_span k n p poles (kn k n) (S d) (n - 1) c) by (auto; lia).
  pose proof (PS_deriv_all k p (n - 1) d (pole poles c) (kn k n) Hnd ltac:(lia) Hst) as D.
  intros e He. destruct (D e He) as [dl Hd].
  exists (Rmin dl (kn k n - kn k (n - 1))). split; [apply Rmin_pos; [apply cond_pos|lra]|].
  intros h Hh. pose proof (Rmin_l dl (kn k n - kn k (n - 1))). pose proof (Rmin_r dl (kn k n - kn k (n - 1))).
  rewrite (eval_val_span k n p poles (kn k n - h) d (n - 1) c); auto; [|lia|].
  2:{ left. replace (S (n - 1)) with n by lia. lra. }
  rewrite (eval_val_span k n p poles (kn k n) d (n - 1) c) by (auto; lia).
  replace (kn k n - h) with (kn k n + - h) by ring.
  apply Hd; [lra|]. rewrite Rabs_left; lra.
Qed.

Lemma eval_ders_agree k n p poles u m :
  knots_ok k n p -> length poles = n -> evaluable eps k n p -> kn k p <= u <= kn k n ->
  exists CK, eval_ders u k poles p m = Ok CK /\ length CK = (m + 1)%nat /\
    forall d, (d <= m)%nat -> exists q q', get CK d = Ok q /\
      eval_value u k poles p d = Ok q' /\ forall c, q c = q' c.
Proof.
  intros Hk Hpo Hev Hu. destruct (span_pack k n p u Hk Hu) as (l & Ef & Hl & Hs & Hst).
  destruct (eval_ders_span eps k n p poles u m l Hk Hpo Hl Hs Hev) as (CK & E & L & V).
  exists CK. split; [exact E|]. split; [exact L|]. intros d Hd.
  destruct (V d Hd) as (q & G & Vq).
  destruct (eval_value_total k n p poles u d Hk Hpo Hev Hu) as (q' & E').
  exists q, q'. split; [exact G|]. split; [exact E'|]. intros c. rewrite Vq.
  pose proof (eval_val_span k n p poles u d l c Hk Hpo Hev Hl Hs) as X. rewrite E' in X. simpl in X.
  rewrite X. reflexivity.
Qed.
End AtR.
