(** Further lemmas and concrete instances for Prop_Basis. *)
From Coq Require Import List Arith ZArith Reals Lia Lra Bool.
From Verif Require Import Model_Base Model_Basis Spec_Base Spec_Basis Spec_Eval Proof_Base Proof_Blossom
  Proof_Basis Proof_Ders Proof_Eval Proof_PropBasis.
Import ListNotations.
Local Open Scope R_scope.

(** Reduce [kn] of a literal list at literal indices. *)
Ltac knred := unfold kn in *; cbn [nth] in *.

(** Case analysis on a bounded index. *)
Ltac idx i n := 
  match n with
  | O => lia
  | S ?m => destruct i as [|i]; [| idx i m]
  end.

Section AtR.
Variable eps : R.
Notation NR := (NumR eps).
Local Hint Extern 0 (Num R) => exact (NumR eps) : typeclass_instances.

Lemma basis_function_sum k n p u :
  knots_ok k n p -> end_clamped k n p -> separated eps k -> 0 < eps -> kn k p <= u <= kn k n ->
  exists b, (forall i, (i < n)%nat -> basis_function u i p 0 k = Ok (b i)) /\ sumn n b = 1.
Proof.
  intros Hk Hcl Hs He Hu. exists (fun i => Nbas (kn k) n p i u). split.
  - intros i Hi. apply basis_function_correct; auto.
  - apply (Nbas_sum eps); auto.
Qed.

Lemma basis_funcs_nonneg k n p u i B :
  knots_ok k n p -> (p <= 24)%nat -> kn k p <= u <= kn k n ->
  find_span n p u k = Ok i -> basis_funcs i p u k = Ok B ->
  forall r, (r < length B)%nat -> exists b, get B r = Ok b /\ 0 <= b.
Proof.
  intros Hk Hp Hu Hf HB r Hr.
  destruct (basis_funcs_correct eps k n p u i Hk Hp Hu Hf) as (B' & E & L & V).
  rewrite E in HB; inversion HB; subst B'. eexists; split; [apply V; lia|].
  apply (Nbas_nonneg eps); auto.
  destruct (find_span_total eps k n p u) as (i' & E' & Hi' & _); try apply Hk.
  rewrite E' in Hf; inversion Hf; subst. lia.
Qed.

Lemma basis_function_support k n p u i j :
  knots_ok k n p -> end_clamped k n p -> separated eps k -> 0 < eps -> kn k p <= u <= kn k n ->
  (j < n)%nat -> (u < kn k j \/ kn k (j + p + 1) < u) ->
  find_span n p u k = Ok i ->
  (j + p < i \/ i < j)%nat /\ basis_function u j p 0 k = Ok 0.
Proof.
  intros Hk Hcl Hs He Hu Hj Hout Hf.
  assert (Hij : (j + p < i \/ i < j)%nat).
  { destruct (span_pack eps k n p u Hk Hu) as (l & Ef & Hl & Hsp & Hst).
    rewrite Ef in Hf; inversion Hf; subst i. pose proof Hk as (Hlen & Hpn & Hnd & Hlast).
    destruct (Nat.le_gt_cases l (j + p)) as [H1|H1]; [|lia].
    destruct (Nat.le_gt_cases j l) as [H2|H2]; [|lia]. exfalso.
    assert (kn k j <= kn k l) by (apply Hnd; lia).
    assert (kn k (S l) <= kn k (j + p + 1)) by (apply Hnd; lia).
    destruct Hsp as [[? ?]|[-> ->]]; [lra|]. replace (S (n - 1)) with n in * by lia. lra. }
  split; [exact Hij|]. rewrite (basis_function_correct eps k n p) by auto. f_equal.
  apply (basis_support eps k n p u i Hk Hu Hf); auto.
Qed.

Lemma basis_function_close_knots : 0 < eps < 1 ->
  exists k n p u i v, knots_ok k n p /\ end_clamped k n p /\ kn k p <= u <= kn k n /\ (i < n)%nat /\
    basis_function u i p 0 k = Ok v /\ Nbas (kn k) n p i u = 0 /\ v <> 0.
Proof.
  intros He. set (k := [0; 0; eps; 2; 2]). exists k, 3%nat, 1%nat, 1, 0%nat, (0 + eps).
  split; [|split; [|split; [|split; [|split; [|split]]]]].
  - split; [reflexivity|]. split; [lia|]. split.
    + apply adjacent_nondecreasing. unfold k; simpl. lra.
    + unfold k; knred; simpl; lra.
  - intros i Hi. assert (i = 3 \/ i = 4)%nat as [->| ->] by lia; reflexivity.
  - unfold k; knred; simpl; lra.
  - lia.
  - unfold basis_function, k. simpl. nsimp.
    rewrite (proj2 (Rltb_false eps (0 - 0))) by lra. 
    rewrite (proj2 (Rltb_false eps (eps - 0))) by lra. simpl. f_equal; ring.
  - unfold Nbas, k, kn. cbn [nth N Nat.add]. destruct (Rlt_dec 1 2); [|lra].
    unfold gdiv. destruct (Req_EM_T (0 - 0) 0); [|lra]. destruct (Req_EM_T (eps - 0) 0); [lra|].
    destruct (Rle_dec 0 1); [|lra]. destruct (Rlt_dec 1 eps); [lra|]. ring.
  - lra.
Qed.

Lemma eval_value_above (k : list R) poles u p d : (p < d)%nat ->
  eval_value u k poles p d = Ok (fun _ => 0).
Proof. apply eval_value_high. Qed.
End AtR.

Lemma ex_hyps : let k := [0;0;0;1;1;2;3;3;3] in
  knots_ok k 6 2 /\ clamped k 6 2 /\ end_clamped k 6 2 /\ separated (1/1000) k /\
  evaluable (1/1000) k 6 2 /\ kn k 2 <= 1 <= kn k 6 /\ kn k 2 < kn k 3.
Proof.
  intros k. split; [|split; [|split; [|split; [|split; [|split]]]]].
  - split; [reflexivity|]. split; [lia|]. split.
    + apply adjacent_nondecreasing. unfold k; simpl; lra.
    + unfold k, kn; simpl; lra.
  - split; intros i Hi.
    + do 3 (destruct i as [|i]; [reflexivity|]). lia.
    + do 6 (destruct i as [|i]; [lia|]). do 3 (destruct i as [|i]; [reflexivity|]). lia.
  - intros i Hi. do 6 (destruct i as [|i]; [lia|]). do 3 (destruct i as [|i]; [reflexivity|]). lia.
  - intros i j Hij Hj. unfold k, kn in *. cbn [length] in Hj.
    do 9 (destruct j as [|j]; [do 9 (destruct i as [|i]; [simpl; (left; lra) || (right; lra) || lia|]); simpl; try lia|]).
    lia.
  - left; lia.
  - unfold k, kn; simpl; lra.
  - unfold k, kn; simpl; lra.
Qed.
