(** Evaluation of curves; recursive basis functions. *)
From Coq Require Import List Arith ZArith Reals Lia Lra Bool Permutation.
From Verif Require Import Model_Base Model_Basis Spec_Base Spec_Basis Proof_Base Proof_Blossom
  Proof_Basis Proof_Ders.
Import ListNotations.
Local Open Scope R_scope.

Lemma ffall_shift p d : ffall (S p) (S d) = INR (S p) * ffall p d.
Proof.
  induction d as [|d IH].
  - cbn [ffall]. rewrite Nat.sub_0_r. ring.
  - rewrite ffall_S, IH, (ffall_S p d). replace (S p - S d)%nat with (p - d)%nat by lia. ring.
Qed.

Lemma back_kn k : (0 < length k)%nat -> back k = Ok (kn k (length k - 1)).
Proof.
  intros H. unfold back. destruct (rev k) as [|a t] eqn:E.
  - apply (f_equal (@length R)) in E. rewrite rev_length in E. simpl in E; lia.
  - f_equal. assert (k = rev t ++ [a]) by (rewrite <- (rev_involutive k), E; reflexivity).
    subst k. unfold kn. rewrite app_length; simpl.
    replace (length (rev t) + 1 - 1)%nat with (length (rev t)) by lia.
    rewrite app_nth2 by lia. rewrite Nat.sub_diag. reflexivity.
Qed.

Section AtR.
Variable eps : R.
Notation NR := (NumR eps).
Local Hint Extern 0 (Num R) => exact (NumR eps) : typeclass_instances.

Lemma find_span_eq n p u k l : nondecreasing k -> length k = (n + p + 1)%nat -> (p < n)%nat ->
  (p <= l < n)%nat -> kn k l <= u < kn k (S l) -> find_span n p u k = Ok l.
Proof.
  intros Hnd Hl Hp Hll Hu.
  assert (kn k p <= kn k l) by (apply Hnd; lia).
  assert (kn k (S l) <= kn k n) by (apply Hnd; lia).
  destruct (find_span_in eps n p u k Hl Hp ltac:(lra) ltac:(lra)) as (i & E & Hi & Hki).
  rewrite E. f_equal. destruct (Nat.lt_trichotomy i l) as [H1|[H1|H1]]; auto.
  - assert (kn k (S i) <= kn k l) by (apply Hnd; lia). lra.
  - assert (kn k (S l) <= kn k i) by (apply Hnd; lia). lra.
Qed.

(** [l] is the span used at [u]: half-open spans, the last one closed. *)
Definition span_at (k : list R) (n : nat) (u : R) (l : nat) : Prop :=
  (kn k l <= u < kn k (S l)) \/ (u = kn k n /\ l = (n - 1)%nat).

Lemma span_at_find n p u k l : nondecreasing k -> length k = (n + p + 1)%nat -> (p < n)%nat ->
  (p <= l < n)%nat -> span_at k n u l -> find_span n p u k = Ok l.
Proof.
  intros Hnd Hl Hp Hll [Hu|[-> ->]].
  - apply find_span_eq; auto.
  - apply find_span_above; try lia. lra.
Qed.

Lemma span_at_ex n p u k : knots_ok k n p -> kn k p <= u <= kn k n ->
  exists l, (p <= l < n)%nat /\ span_at k n u l /\ kn k l < kn k (S l).
Proof.
  intros (Hl & Hp & Hnd & Hlast) [H1 H2].
  destruct (Rle_lt_dec (kn k n) u) as [H3|H3].
  - exists (n - 1)%nat. split; [lia|]. split; [right; split; [lra|lia]|].
    replace (S (n - 1)) with n by lia. exact Hlast.
  - destruct (find_span_in eps n p u k Hl Hp H1 H3) as (i & _ & Hi & Hk).
    exists i. split; [lia|]. split; [left; exact Hk|lra].
Qed.

Lemma span_at_bas n p u k l i : knots_ok k n p -> (p <= l < n)%nat -> span_at k n u l -> (i < n)%nat ->
  Nbas (kn k) n p i u = NH (kn k) l (repeat (u, 1) p) i.
Proof.
  intros (Hlen & Hp & Hnd & Hlast) Hl Hs Hi. unfold Nbas.
  assert (mono : forall a b, (a <= b)%nat -> (b <= n + p)%nat -> kn k a <= kn k b)
    by (intros; apply Hnd; lia).
  destruct Hs as [[H1 H2]|[-> ->]].
  - assert (kn k (S l) <= kn k n) by (apply mono; lia).
    destruct (Rlt_dec u (kn k n)); [|lra].
    apply (N_NH (kn k) l (n + p)); auto; lia.
  - destruct (Rlt_dec (kn k n) (kn k n)); [lra|].
    apply (NL_NH (kn k) (n - 1) (n + p)); auto; try lia.
    replace (S (n - 1)) with n by lia. lra.
Qed.

(** ** Recursive basis functions *)
Section Rec.
Variables (k : list R) (n p l : nat) (u : R).
Hypothesis Hk : knots_ok k n p.
Hypothesis Hcl : end_clamped k n p.
Hypothesis Hsep : separated eps k.
Hypothesis Heps : 0 < eps.
Hypothesis Hl : (p <= l < n)%nat.
Hypothesis Hu : span_at k n u l.

Lemma back_last : back k = Ok (kn k n).
Proof.
  destruct Hk as (Hlen & Hp & _). rewrite back_kn by lia. f_equal. apply Hcl; lia.
Qed.

Lemma base_case it : (it < n)%nat ->
  ((Rleb (kn k it) u && Rltb u (kn k (it + 1)))
    || (Rltb (Rabs (kn k (it + 1) - kn k n)) eps && Rltb (Rabs (u - kn k n)) eps))
  = (it =? l)%nat.
Proof.
  intros Hit. destruct Hk as (Hlen & Hp & Hnd & Hlast).
  assert (Hcl1 : kn k (it + 1) <= kn k n) by (apply Hnd; lia).
  assert (Hll : kn k l <= kn k (n - 1)) by (apply Hnd; lia).
  assert (Hgap : eps < kn k n - kn k (n - 1)).
  { destruct (Hsep (n - 1)%nat n ltac:(lia) ltac:(lia)); lra. }
  destruct (Nat.eqb_spec it l) as [->|Hne].
  - destruct Hu as [[H1 H2]|[E1 E2]].
    + apply orb_true_iff; left. rewrite andb_true_iff, Rleb_true, Rltb_true.
      rewrite Nat.add_1_r; lra.
    + apply orb_true_iff; right. rewrite andb_true_iff, !Rltb_true.
      replace (l + 1)%nat with n by lia. rewrite E1. replace (kn k n - kn k n) with 0 by ring.
      rewrite Rabs_R0; lra.
  - apply orb_false_iff. split.
    + apply andb_false_iff. destruct Hu as [[H1 H2]|[E1 E2]].
      * destruct (Nat.lt_trichotomy it l) as [H|[H|H]]; [right|lia|left].
        -- apply Rltb_false. assert (kn k (it + 1) <= kn k l) by (apply Hnd; lia). lra.
        -- apply Rleb_false. assert (kn k (S l) <= kn k it) by (apply Hnd; lia). lra.
      * right. apply Rltb_false. rewrite E1. apply Hnd; lia.
    + apply andb_false_iff.
      destruct (Nat.eq_dec it (n - 1)) as [->|Hn1].
      * right. apply Rltb_false. destruct Hu as [[H1 H2]|[E1 E2]]; [|lia].
        assert (kn k (S l) <= kn k (n - 1)) by (apply Hnd; lia).
        rewrite Rabs_left by lra. lra.
      * left. apply Rltb_false.
        assert (kn k (it + 1) <= kn k (n - 1)) by (apply Hnd; lia).
        rewrite Rabs_left by lra. lra.
Qed.

Lemma diff_cases a b : (a <= b)%nat -> (b < length k)%nat ->
  (kn k b - kn k a = 0 /\ Rltb eps (kn k b - kn k a) = false) \/
  (eps < kn k b - kn k a /\ Rltb eps (kn k b - kn k a) = true).
Proof.
  intros H1 H2. destruct (Hsep a b H1 H2) as [E|E].
  - left. rewrite E. split; [ring|]. apply Rltb_false. lra.
  - right. split; [lra|]. apply Rltb_true; lra.
Qed.

Lemma NH_zero_den q m a : (length a = q)%nat -> (m + S q <= n + p)%nat -> kn k (m + S q) - kn k m = 0 ->
  NH (kn k) l a m = 0.
Proof.
  intros Ha Hm E. destruct Hk as (Hlen & Hp & Hnd & Hlast).
  destruct (Nat.le_gt_cases m l); [|apply NH_out; lia].
  destruct (Nat.le_gt_cases l (m + q)); [|apply NH_out; lia].
  exfalso. assert (kn k m <= kn k l) by (apply Hnd; lia).
  assert (kn k (S l) <= kn k (m + S q)) by (apply Hnd; lia).
  destruct Hu as [[? ?]|[? E2]]; [lra|]. subst l. replace (S (n - 1)) with n in * by lia. lra.
Qed.

Lemma basis_rec_ok q it : (it + q + 1 <= n + p)%nat -> (it < n \/ 1 <= q)%nat ->
  basis_function_rec u it q k = Ok (NH (kn k) l (repeat (u, 1) q) it).
Proof.
  destruct Hk as (Hlen & Hp & Hnd & Hlast).
  revert it; induction q as [|q IH]; intros it H1 H2.
  - cbn [basis_function_rec]. rewrite back_last. cbn [bind].
    rewrite !get_kn by lia. cbn [bind]. rewrite !nabs_R. nsimp.
    rewrite base_case by lia. cbn [repeat NH]. destruct (it =? l)%nat; reflexivity.
  - cbn [basis_function_rec]. rewrite back_last. cbn [bind].
    rewrite !get_kn by lia. cbn [bind]. nsimp.
    cbn [repeat NH]. rewrite repeat_length, !Rmult_1_l.
    replace (it + (S q + 1))%nat with (it + S (S q))%nat by lia.
    replace (it + 1)%nat with (S it) by lia.
    assert (C1 : (if Rltb eps (kn k (it + S q) - kn k it)
        then let* f := divc (u - kn k it) (kn k (it + S q) - kn k it) in
             let* b := basis_function_rec u it q k in Ok (f * b)
        else Ok (kn k (it + S q) - kn k it))
      = Ok ((u - kn k it) / (kn k (it + S q) - kn k it) * NH (kn k) l (repeat (u, 1) q) it)).
    { destruct (diff_cases it (it + S q) ltac:(lia) ltac:(lia)) as [[E1 E2]|[E1 E2]]; rewrite E2.
      - rewrite (NH_zero_den q it) by (rewrite ?repeat_length; auto; lia). rewrite E1. f_equal; ring.
      - rewrite divc_ok by lra. cbn [bind]. rewrite IH; [reflexivity|lia|].
        destruct (Nat.lt_ge_cases it n); [auto|].
        exfalso. rewrite (Hcl it), (Hcl (it + S q)%nat) in E1 by lia. lra. }
    assert (C2 : (if Rltb eps (kn k (it + S (S q)) - kn k (S it))
        then let* f := divc (kn k (it + S (S q)) - u) (kn k (it + S (S q)) - kn k (S it)) in
             let* b := basis_function_rec u (S it) q k in Ok (f * b)
        else Ok (kn k (it + S (S q)) - kn k (S it)))
      = Ok ((kn k (it + S (S q)) - u) / (kn k (it + S (S q)) - kn k (S it)) * NH (kn k) l (repeat (u, 1) q) (S it))).
    { destruct (diff_cases (S it) (it + S (S q)) ltac:(lia) ltac:(lia)) as [[E1 E2]|[E1 E2]]; rewrite E2.
      - rewrite (NH_zero_den q (S it)); [rewrite E1; f_equal; ring|apply repeat_length|lia|].
        replace (S it + S q)%nat with (it + S (S q))%nat by lia. exact E1.
      - rewrite divc_ok by lra. cbn [bind]. rewrite IH; [reflexivity|lia|].
        destruct (Nat.lt_ge_cases (S it) n); [auto|].
        exfalso. rewrite (Hcl (S it)), (Hcl (it + S (S q))%nat) in E1 by lia. lra. }
    rewrite C1. cbn [bind]. rewrite C2. cbn [bind]. reflexivity.
Qed.

Lemma basis_der_ok q d it : (d <= q)%nat -> (it + q + 1 <= n + p)%nat -> (it < n \/ 1 <= q)%nat ->
  basis_function_der u it q d k
  = Ok (ffall q d * NH (kn k) l (repeat (1, 0) d ++ repeat (u, 1) (q - d)) it).
Proof.
  destruct Hk as (Hlen & Hp & Hnd & Hlast).
  revert q it; induction d as [|d IH]; intros q it Hd H1 H2.
  - cbn [ffall repeat app]. rewrite Nat.sub_0_r, Rmult_1_l.
    rewrite <- basis_rec_ok by auto. destruct q; reflexivity.
  - destruct q as [|q]; [lia|]. cbn [basis_function_der].
    destruct (Nat.ltb_spec (S q) (S d)); [lia|].
    rewrite !get_kn by lia. cbn [bind]. nsimp.
    rewrite nofnat_R.
    change (repeat (1, 0) (S d)) with ((1, 0) :: repeat (1, 0) d). cbn [app NH].
    set (args := repeat (1, 0) d ++ repeat (u, 1) (S q - S d)).
    assert (La : length args = q) by (unfold args; rewrite app_length, !repeat_length; lia).
    rewrite La, ffall_shift.
    replace (it + (S q + 1))%nat with (it + S (S q))%nat by lia.
    replace (it + 1)%nat with (S it) by lia.
    assert (C1 : (if Rltb eps (kn k (it + S q) - kn k it)
        then let* b := basis_function_der u it q d k in divc b (kn k (it + S q) - kn k it)
        else Ok (kn k (it + S q) - kn k it))
      = Ok (ffall q d * (NH (kn k) l args it / (kn k (it + S q) - kn k it)))).
    { destruct (diff_cases it (it + S q) ltac:(lia) ltac:(lia)) as [[E1 E2]|[E1 E2]]; rewrite E2.
      - rewrite (NH_zero_den q it) by (auto; lia). rewrite E1. f_equal. unfold Rdiv; ring.
      - rewrite IH; [|lia|lia|].
        + cbn [bind]. rewrite divc_ok by lra. f_equal.
          replace (repeat (1, 0) d ++ repeat (u, 1) (q - d)) with args
            by (unfold args; do 2 f_equal; lia). unfold Rdiv; ring.
        + destruct (Nat.lt_ge_cases it n); [auto|].
          exfalso. rewrite (Hcl it), (Hcl (it + S q)%nat) in E1 by lia. lra. }
    assert (C2 : (if Rltb eps (kn k (it + S (S q)) - kn k (S it))
        then let* b := basis_function_der u (S it) q d k in divc b (kn k (it + S (S q)) - kn k (S it))
        else Ok (kn k (it + S (S q)) - kn k (S it)))
      = Ok (ffall q d * (NH (kn k) l args (S it) / (kn k (it + S (S q)) - kn k (S it))))).
    { destruct (diff_cases (S it) (it + S (S q)) ltac:(lia) ltac:(lia)) as [[E1 E2]|[E1 E2]]; rewrite E2.
      - rewrite (NH_zero_den q (S it)); [rewrite E1; f_equal; unfold Rdiv; ring|auto|lia|].
        replace (S it + S q)%nat with (it + S (S q))%nat by lia. exact E1.
      - rewrite IH; [|lia|lia|].
        + cbn [bind]. rewrite divc_ok by lra. f_equal.
          replace (repeat (1, 0) d ++ repeat (u, 1) (q - d)) with args
            by (unfold args; do 2 f_equal; lia). unfold Rdiv; ring.
        + destruct (Nat.lt_ge_cases (S it) n); [auto|].
          exfalso. rewrite (Hcl (S it)), (Hcl (it + S (S q))%nat) in E1 by lia. lra. }
    rewrite C1. cbn [bind]. rewrite C2. cbn [bind]. f_equal. unfold Rdiv. ring.
Qed.
End Rec.

(** ** Evaluation *)
(** Polynomial piece of the d-th derivative on span l. *)
Definition PS (k : list R) (p l d : nat) (P : nat -> R) (u : R) : R :=
  sumn (S l) (fun i => ffall p d * NH (kn k) l (repeat (1, 0) d ++ repeat (u, 1) (p - d)) i * P i).

(** Either the stack evaluator applies, or the recursive one is exact. *)
Definition eval_dom (k : list R) (n p : nat) : Prop :=
  (p <= stack_max)%nat \/ (end_clamped k n p /\ separated eps k /\ 0 < eps).

Definition pole (poles : list (pt R)) (c i : nat) : R := nth i poles (fun _ => 0) c.

Lemma get_pole (poles : list (pt R)) i : (i < length poles)%nat ->
  get poles i = Ok (@nth (pt R) i poles (fun _ : nat => 0)).
Proof. apply get_nth. Qed.

Lemma span_strict n p u k l : knots_ok k n p -> (p <= l < n)%nat -> span_at k n u l -> kn k l < kn k (S l).
Proof.
  intros (Hlen & Hp & Hnd & Hlast) Hl [H|[E1 E2]]; [lra|].
  subst l. replace (S (n - 1)) with n by lia. exact Hlast.
Qed.

Lemma window_sum l p (f : nat -> R) : (p <= l)%nat -> (forall i, (i + p < l)%nat -> f i = 0) ->
  sumn (S l) f = sumn (p + 1) (fun r => f (l - p + r)%nat).
Proof.
  intros Hp H. apply sumn_window; [lia|]. intros i Hi [H1|H1]; [apply H; lia|lia].
Qed.

Lemma eval_value_span k n p poles u d l :
  knots_ok k n p -> length poles = n -> (p <= l < n)%nat -> span_at k n u l -> (d <= p)%nat ->
  eval_dom k n p ->
  exists q, eval_value u k poles p d = Ok q /\ forall c, q c = PS k p l d (pole poles c) u.
Proof.
  intros Hk Hpo Hl Hs Hd Hdom. pose proof Hk as (Hlen & Hp & Hnd & Hlast).
  pose proof (span_strict n p u k l Hk Hl Hs) as Hstrict.
  unfold eval_value. destruct (Nat.ltb_spec p d); [lia|].
  rewrite Hpo, (span_at_find n p u k l Hnd Hlen Hp Hl Hs). cbn [bind].
  destruct (Nat.leb_spec p l); [|lia].
  set (b := fun i => ffall p d * NH (kn k) l (repeat (1, 0) d ++ repeat (u, 1) (p - d)) i).
  assert (Hw : forall c, PS k p l d (pole poles c) u =
     sumn (p + 1) (fun r => b (l - p + r)%nat * pole poles c (l - p + r))).
  { intros c. unfold PS. apply (window_sum l p (fun i => b i * pole poles c i)); [lia|].
    intros i Hi. unfold b. rewrite NH_out; [ring|]. rewrite app_length, !repeat_length. lia. }
  destruct (Nat.leb_spec p stack_max) as [Hst|Hst].
  - rewrite (basis_ders_ok eps k l p u Hnd ltac:(lia) ltac:(lia) Hstrict Hst d Hd). cbn [bind].
    destruct (for_inv (fun r (acc : pt R) => forall c, acc c = sumn r (fun r => b (l - p + r)%nat * pole poles c (l - p + r)))
      (fun r acc => let* N := get (map (NSd k l p u d) (seq 0 (p + 1))) r in
                    let* po := get poles (l - p + r) in Ok (padd acc (pscal N po))) 0 (p + 1) pzero)
      as (q & E & V).
    + intros c; reflexivity.
    + intros r acc Hr HA. rewrite get_map_seq by lia. cbn [bind].
      rewrite get_pole by lia. cbn [bind]. eexists; split; [reflexivity|].
      intros c. unfold padd, pscal. nsimp. rewrite HA. cbn [sumn]. reflexivity.
    + exists q. split; [exact E|]. intros c. rewrite V, Hw. reflexivity.
  - destruct Hdom as [Hdom|(Hcl & Hsep & Heps)]; [lia|].
    replace (l + 1 - (l - p))%nat with (p + 1)%nat by lia.
    destruct (for_inv (fun i (acc : pt R) => forall c, acc c = sumn (i - (l - p)) (fun r => b (l - p + r)%nat * pole poles c (l - p + r)))
      (fun ip acc => let* N := basis_function u ip p d k in
                     let* po := get poles ip in Ok (padd acc (pscal N po))) (l - p) (p + 1) pzero)
      as (q & E & V).
    + intros c. rewrite Nat.sub_diag. reflexivity.
    + intros i acc Hi HA. unfold basis_function.
      rewrite (basis_der_ok k n p l u Hk Hcl Hsep Heps Hl Hs p d i) by lia. cbn [bind].
      rewrite get_pole by lia. cbn [bind]. eexists; split; [reflexivity|].
      intros c. unfold padd, pscal. nsimp. rewrite HA.
      replace (S i - (l - p))%nat with (S (i - (l - p))) by lia. cbn [sumn].
      replace (l - p + (i - (l - p)))%nat with i by lia. reflexivity.
    + exists q. split; [exact E|]. intros c. rewrite V, Hw. f_equal. lia.
Qed.

Lemma PS_spline k n p P u l : knots_ok k n p -> (p <= l < n)%nat -> span_at k n u l ->
  PS k p l 0 P u = spline (kn k) n p P u.
Proof.
  intros Hk Hl Hs. unfold PS, spline.
  rewrite (sumn_window n 0 (S l)); [|lia|].
  - apply sumn_ext; intros i Hi. simpl (0 + i)%nat. rewrite (span_at_bas n p u k l) by (auto; lia).
    cbn [ffall repeat app]. rewrite Nat.sub_0_r. ring.
  - intros i Hi [H|H]; [lia|]. rewrite (span_at_bas n p u k l) by auto.
    rewrite NH_out; [ring|]. lia.
Qed.

Lemma derivable_pt_lim_sumn n (f : nat -> R -> R) f' x :
  (forall i, (i < n)%nat -> derivable_pt_lim (f i) x (f' i)) ->
  derivable_pt_lim (fun y => sumn n (fun i => f i y)) x (sumn n f').
Proof.
  induction n as [|n IH]; intros H; cbn [sumn].
  - apply derivable_pt_lim_const.
  - apply (derivable_pt_lim_plus (fun y => sumn n (fun i => f i y)) (f n)); auto.
Qed.

Lemma PS_deriv k p l d P u :
  nondecreasing k -> (l + p < length k)%nat -> kn k l < kn k (S l) -> (d < p)%nat ->
  derivable_pt_lim (PS k p l d P) u (PS k p l (S d) P u).
Proof.
  intros Hnd Hlen Hs Hd. unfold PS.
  apply (derivable_pt_lim_sumn (S l)
    (fun i y => ffall p d * NH (kn k) l (repeat (1, 0) d ++ repeat (y, 1) (p - d)) i * P i)).
  intros i Hi. replace (p - d)%nat with (S (p - S d)) by lia.
  set (q := (p - S d)%nat).
  assert (D := NH_deriv (kn k) l (l + p) ltac:(intros; apply Hnd; lia) Hs (repeat (1, 0) d) q i u ltac:(unfold q; lia)).
  apply (derivable_pt_lim_scal _ (ffall p d * P i)) in D.
  intros e He. destruct (D e He) as [dl Hdl]. exists dl. intros h Hh Hhd. specialize (Hdl h Hh Hhd).
  unfold mult_real_fct in Hdl.
  match goal with |- Rabs ?X < _ => match type of Hdl with Rabs ?Y < _ =>
        replace X with Y; [exact Hdl|] end end.
  change (repeat (1, 0) (S d)) with ((1, 0) :: repeat (1, 0) d).
  rewrite (repeat_cons d (1,0)). rewrite <- app_assoc. cbn [app].
  rewrite ffall_S. replace (p - d)%nat with (S q) by (unfold q; lia). field. exact Hh.
Qed.

Lemma eval_value_high (k : list R) poles u p d : (p < d)%nat -> eval_value u k poles p d = Ok pzero.
Proof. intros H. unfold eval_value. destruct (Nat.ltb_spec p d); [reflexivity|lia]. Qed.

(** eval_ders *)
Lemma eval_ders_span k n p poles u m l :
  knots_ok k n p -> length poles = n -> (p <= l < n)%nat -> span_at k n u l ->
  eval_dom k n p ->
  exists CK, eval_ders u k poles p m = Ok CK /\ length CK = (m + 1)%nat /\
    forall d, (d <= m)%nat -> exists q, get CK d = Ok q /\
      forall c, q c = if (d <=? p)%nat then PS k p l d (pole poles c) u else 0.
Proof.
  intros Hk Hpo Hl Hs Hdom. pose proof Hk as (Hlen & Hp & Hnd & Hlast).
  pose proof (span_strict n p u k l Hk Hl Hs) as Hstrict.
  unfold eval_ders. rewrite Hpo, (span_at_find n p u k l Hnd Hlen Hp Hl Hs). cbn [bind].
  destruct (Nat.leb_spec p l); [|lia].
  set (b := fun d i => ffall p d * NH (kn k) l (repeat (1, 0) d ++ repeat (u, 1) (p - d)) i).
  assert (Hw : forall d c, (d <= p)%nat -> PS k p l d (pole poles c) u =
     sumn (p + 1) (fun r => b d (l - p + r)%nat * pole poles c (l - p + r))).
  { intros d c Hd. unfold PS. apply (window_sum l p (fun i => b d i * pole poles c i)); [lia|].
    intros i Hi. unfold b. rewrite NH_out; [ring|]. rewrite app_length, !repeat_length. lia. }
  (* the accumulation shared by both branches *)
  assert (Main : forall (lo : nat) (bd : nat -> nat -> list (pt R) -> result (list (pt R))),
    (forall kk r CK c0, (kk <= Nat.min m p)%nat -> (r <= p)%nat -> get CK kk = Ok c0 ->
       bd kk (lo + r)%nat CK = set CK kk (padd c0 (pscal (b kk (l - p + r)%nat) (nth (l - p + r) poles (fun _ => 0))))) ->
    exists CK, for_ 0 (Nat.min m p + 1) (fun kk CK => for_ lo (p + 1) (bd kk) CK) (filled (m + 1) pzero) = Ok CK
      /\ length CK = (m + 1)%nat /\
      forall d, (d <= m)%nat -> exists q, get CK d = Ok q /\
      forall c, q c = if (d <=? p)%nat then PS k p l d (pole poles c) u else 0).
  { intros lo bd Hbd.
    destruct (for_inv (fun kk CK => length CK = (m + 1)%nat /\
        (forall d, (d <= m)%nat -> (d < kk)%nat -> exists q, get CK d = Ok q /\ forall c, q c = PS k p l d (pole poles c) u) /\
        (forall d, (d <= m)%nat -> (kk <= d)%nat -> get CK d = Ok (pzero : pt R)))
      (fun kk CK => for_ lo (p + 1) (bd kk) CK) 0 (Nat.min m p + 1) (filled (m + 1) pzero)) as (CK & E & L & V1 & V2).
    - split; [apply filled_length|]. split; [intros; lia|]. intros d Hd _.
      rewrite (@get_nth (pt R) _ _ pzero) by (rewrite filled_length; lia). f_equal. unfold filled. apply nth_repeat.
    - intros kk CK Hkk (L & V1 & V2).
      destruct (for_inv (fun r CK' => length CK' = (m + 1)%nat /\
          (forall d, d <> kk -> get CK' d = get CK d) /\
          exists q, get CK' kk = Ok q /\ forall c, q c = sumn (r - lo) (fun r => b kk (l - p + r)%nat * pole poles c (l - p + r)))
        (bd kk) lo (p + 1) CK) as (CK2 & E2 & L2 & W1 & (q & W2 & W3)).
      + split; [exact L|]. split; [reflexivity|]. exists pzero. split; [apply V2; lia|].
        intros c. rewrite Nat.sub_diag. reflexivity.
      + intros r CK' Hr (L' & T1 & (q' & T2 & T3)).
        pose proof (Hbd kk (r - lo)%nat CK' q') as Hb. replace (lo + (r - lo))%nat with r in Hb by lia.
        rewrite Hb by (auto; lia).
        pose proof (get_lt _ _ _ T2) as Hlt. rewrite set_ok by exact Hlt. eexists; split; [reflexivity|].
        rewrite upd_length. split; [exact L'|]. split.
        * intros d Hd. rewrite get_upd_other by auto. apply T1; exact Hd.
        * eexists; split; [apply get_upd_same; exact Hlt|]. intros c. unfold padd, pscal. nsimp.
          rewrite T3. replace (S r - lo)%nat with (S (r - lo)) by lia. reflexivity.
      + exists CK2. split; [exact E2|]. split; [exact L2|]. split.
        * intros d Hd Hdk. destruct (Nat.eq_dec d kk) as [->|].
          -- exists q. split; [exact W2|]. intros c. rewrite W3, Hw by lia. f_equal. lia.
          -- rewrite W1 by auto. apply V1; lia.
        * intros d Hd Hdk. rewrite W1 by lia. apply V2; lia.
    - exists CK. split; [exact E|]. split; [exact L|]. intros d Hd.
      destruct (Nat.leb_spec d p).
      + apply V1; lia.
      + exists pzero. split; [apply V2; lia|]. reflexivity. }
  destruct (Nat.leb_spec p stack_max) as [Hst|Hst].
  - destruct (ders_basis_funs_st_ok eps k l p u Hnd ltac:(lia) ltac:(lia) Hstrict Hst (Nat.min m p) ltac:(lia))
      as (ders & E & _ & V). rewrite E. cbn [bind].
    apply (Main 0%nat (fun kk r CK => let* N := geti ders (kk * (p + 1) + r) in
        let* po := get poles (l - p + r) in let* c := get CK kk in set CK kk (padd c (pscal N po)))).
    intros kk r CK c0 Hkk Hr Hc. simpl (0 + r)%nat. rewrite V by lia. cbn [bind]. rewrite get_pole by lia.
    cbn [bind]. rewrite Hc. reflexivity.
  - destruct Hdom as [Hdom|(Hcl & Hsep & Heps)]; [lia|].
    replace (l + 1 - (l - p))%nat with (p + 1)%nat by lia.
    apply (Main (l - p)%nat (fun kk ip CK => let* N := basis_function u ip p kk k in
        let* po := get poles ip in let* c := get CK kk in set CK kk (padd c (pscal N po)))).
    intros kk r CK c0 Hkk Hr Hc. unfold basis_function.
    rewrite (basis_der_ok k n p l u Hk Hcl Hsep Heps Hl Hs p kk) by lia. cbn [bind].
    rewrite get_pole by lia. cbn [bind]. rewrite Hc. reflexivity.
Qed.

End AtR.
