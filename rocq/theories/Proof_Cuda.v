(** Proofs about the derivatives of the recursive basis functions, on the host and on the device. *)
From Coq Require Import List Arith Lia Bool Reals Lra.
From Verif Require Import Model_Base Model_Basis Model_Cuda Spec_Base Spec_Basis Proof_Base Proof_Blossom Proof_Basis Proof_Ders Proof_Eval Proof_PropBasis Proof_Wrap.
Import ListNotations.
Local Open Scope R_scope.

Section AtR.
Variable eps : R.
Local Hint Extern 0 (Num R) => exact (NumR eps) : typeclass_instances.

(** ** Host *)
Lemma basis_above u it p d k : (p < d)%nat -> basis_function u it p d k = Ok 0.
Proof.
  intros H. unfold basis_function. destruct d as [|e]; [lia|]. destruct p as [|q]; cbn [basis_function_der]; [reflexivity|].
  destruct (Nat.ltb_spec (S q) (S e)); [reflexivity|lia].
Qed.
Definition bder (k : list R) (l p d i : nat) (x : R) : R :=
  if (d <=? p)%nat then ffall p d * NH (kn k) l (repeat (1, 0) d ++ repeat (x, 1) (p - d)) i else 0.
Lemma basis_bder k n p l u i d : knots_ok k n p -> end_clamped k n p -> separated eps k -> 0 < eps -> (p <= l < n)%nat -> span_at k n u l -> (i < n)%nat ->
  basis_function u i p d k = Ok (bder k l p d i u).
Proof.
  intros Hk Hc Hs He Hl Hsp Hi. unfold bder. destruct (Nat.leb_spec d p) as [H|H]; [|apply basis_above; lia].
  apply (basis_der_ok eps k n p l u Hk Hc Hs He Hl Hsp); lia.
Qed.
Lemma bder_deriv k n p l d i u : knots_ok k n p -> (p <= l < n)%nat -> kn k l < kn k (S l) ->
  derivable_pt_lim (bder k l p d i) u (bder k l p (S d) i u).
Proof.
  intros (Hlen & Hp & Hnd & _) Hl Hlt. unfold bder. destruct (Nat.leb_spec d p) as [H1|H1]; destruct (Nat.leb_spec (S d) p) as [H2|H2]; try lia.
  - cbn [ffall]. replace (p - d)%nat with (S (p - S d)) by lia.
    assert (D : derivable_pt_lim (fun x => NH (kn k) l (repeat (1, 0) d ++ repeat (x, 1) (S (p - S d))) i) u
        (INR (S (p - S d)) * NH (kn k) l (repeat (1, 0) d ++ (1, 0) :: repeat (u, 1) (p - S d)) i)).
    { apply (NH_deriv (kn k) l (n + p)); try lia; auto. intros a b Ha Hb. apply Hnd; lia. }
    pose proof (derivable_pt_lim_scal _ (ffall p d) u _ D) as D'.
    replace (repeat (1, 0) (S d) ++ repeat (u, 1) (p - S d)) with (repeat (1, 0) d ++ (1, 0) :: repeat (u, 1) (p - S d)).
    + rewrite Rmult_assoc. exact D'.
    + change (repeat (1, 0) (S d)) with ((1, 0) :: repeat (1, 0) d). rewrite repeat_cons, <- app_assoc. reflexivity.
  - replace (p - d)%nat with 0%nat by lia. cbn [repeat]. apply derivable_pt_lim_const.
  - apply derivable_pt_lim_const.
Qed.
Lemma basis_derivative k n p i d l u f : knots_ok k n p -> end_clamped k n p -> separated eps k -> 0 < eps ->
  (p <= l < n)%nat -> kn k l < u < kn k (S l) -> (i < n)%nat ->
  (forall x, kn k l < x < kn k (S l) -> basis_function x i p d k = Ok (f x)) ->
  exists v, basis_function u i p (S d) k = Ok v /\ derivable_pt_lim f u v.
Proof.
  intros Hk Hc Hs He Hl Hu Hi Hf. exists (bder k l p (S d) i u). split.
  - apply (basis_bder k n); auto. left. split; lra.
  - apply (derivable_local (bder k l p d i) f u _ (Rmin (u - kn k l) (kn k (S l) - u))).
    + apply Rmin_pos; lra.
    + intros x Hx. assert (Hx' : kn k l < x < kn k (S l)).
      { pose proof (Rmin_l (u - kn k l) (kn k (S l) - u)). pose proof (Rmin_r (u - kn k l) (kn k (S l) - u)). apply Rabs_def2 in Hx. lra. }
      specialize (Hf x Hx'). rewrite (basis_bder k n p l x i d) in Hf; auto; [injection Hf as Hf; exact Hf|left; split; lra].
    + apply (bder_deriv k n); auto. lra.
Qed.

(** ** Device *)
Lemma cuda_host p : forall (u : R) it k, cuda_basis p u it k = basis_function_rec u it p k.
Proof.
  induction p as [|q IH]; intros u it k; cbn [cuda_basis basis_function_rec]; [reflexivity|].
  destruct (back k); cbn [bind]; auto. destruct (get k it); cbn [bind]; auto. destruct (get k (it + 1)); cbn [bind]; auto.
  replace (it + S q + 1)%nat with (it + (S q + 1))%nat by lia. rewrite !IH. reflexivity.
Qed.
Lemma cuda_value k n p u i : knots_ok k n p -> end_clamped k n p -> separated eps k -> 0 < eps -> kn k p <= u <= kn k n -> (i < n)%nat ->
  cuda_basis p u i k = Ok (Nbas (kn k) n p i u) /\ cuda_basis_der 0 p u i k = Ok (Nbas (kn k) n p i u).
Proof.
  intros Hk Hc Hs He Hu Hi. cbn [cuda_basis_der]. rewrite cuda_host.
  pose proof (basis_function_correct eps k n p u i Hk Hc Hs He Hu Hi) as E. unfold basis_function in E. cbn [basis_function_der] in E.
  destruct p; cbn [basis_function_der] in E; auto.
Qed.
Lemma cuda_above d p u i k : (p < d)%nat -> cuda_basis_der d p u i k = Ok 0.
Proof. intros H. destruct d as [|e]; [lia|]. cbn [cuda_basis_der]. destruct (Nat.ltb_spec p (S e)); [reflexivity|lia]. Qed.

(** Last function, first order. *)
Lemma cuda_last k n p u : 0 <= eps -> knots_ok k n p -> end_clamped k n p -> (1 <= p)%nat ->
  cuda_basis_der 1 p u (n - 1) k = basis_function u (n - 1) p 1 k.
Proof.
  intros He (Hlen & Hp & _) Hc H1. destruct p as [|q]; [lia|]. unfold basis_function. cbn [cuda_basis_der basis_function_der].
  replace (n - 1 + S q + 1)%nat with (n - 1 + (S q + 1))%nat by lia.
  destruct (Nat.ltb_spec (S q) 1); [lia|].
  rewrite !get_kn by lia. cbn [bind]. replace (n - 1 + 1)%nat with n by lia.
  replace (n - 1 + (S q + 1))%nat with (n + S q)%nat by lia. rewrite (Hc (n + S q)%nat) by lia.
  replace (S q - 1)%nat with q by lia. rewrite cuda_host.
  assert (Z : nltb neps (nsub (kn k n) (kn k n)) = false) by (apply Rltb_false; cbn; lra). rewrite Z.
  assert (E : basis_function_der u (n - 1) q 0 k = basis_function_rec u (n - 1) q k) by (destruct q; reflexivity). rewrite E. reflexivity.
Qed.
Lemma cuda_last_derivative k n p l u : knots_ok k n p -> end_clamped k n p -> separated eps k -> 0 < eps ->
  (1 <= p <= l)%nat -> (l < n)%nat -> kn k l < u < kn k (S l) ->
  exists v, cuda_basis_der 1 p u (n - 1) k = Ok v /\ derivable_pt_lim (Nbas (kn k) n p (n - 1)) u v.
Proof.
  intros Hk Hc Hs He Hp Hl Hu. rewrite (cuda_last k n p u ltac:(lra) Hk Hc ltac:(lia)).
  apply (basis_derivative k n p (n - 1) 0 l u); auto; try lia.
  intros x Hx. apply basis_function_correct; auto; [|lia]. destruct Hk as (Hlen & Hpn & Hnd & _).
  assert (kn k p <= kn k l) by (apply Hnd; lia). assert (kn k (S l) <= kn k n) by (apply Hnd; lia). lra.
Qed.
Lemma ex_line : eps < 1 -> knots_ok [0;0;1;1] 2 1 /\ end_clamped [0;0;1;1] 2 1 /\ separated eps [0;0;1;1].
Proof.
  intros He. split; [|split].
  - split; [reflexivity|]. split; [lia|]. split; [|cbn; lra]. intros i j Hij Hj. cbn in Hj.
    destruct j as [|[|[|[|j]]]]; try lia; destruct i as [|[|[|[|i]]]]; try lia; cbn; lra.
  - intros i Hi. destruct i as [|[|[|[|i]]]]; try lia; reflexivity.
  - intros i j Hij Hj. cbn in Hj. destruct j as [|[|[|[|j]]]]; try lia; destruct i as [|[|[|[|i]]]]; try lia; cbn; (left; lra) || (right; lra).
Qed.
Ltac dec := rewrite ?(proj2 (Rltb_false eps (0 - 0))), ?(proj2 (Rltb_true eps (1 - 0))) by lra; cbn [bind];
  rewrite ?(proj2 (Rleb_true 0 (1/2))), ?(proj2 (Rltb_true (1/2) 1)) by lra; cbn [andb orb]; rewrite ?(divc_ok eps) by lra; cbn [bind];
  rewrite ?(divc_ok eps) by lra; cbn [bind].
Lemma cuda_wrong : 0 < eps < 1 -> exists k n p i u v w, knots_ok k n p /\ end_clamped k n p /\ separated eps k /\ kn k p < u < kn k n /\ (i < n)%nat /\
  (1 <= p)%nat /\ cuda_basis_der 1 p u i k = Ok v /\ derivable_pt_lim (Nbas (kn k) n p i) u w /\ v <> w.
Proof.
  intros He. destruct (ex_line ltac:(lra)) as (Hk & Hc & Hs).
  exists [0;0;1;1], 2%nat, 1%nat, 0%nat, (1/2), (-(1/2)), (-1). split; auto. split; auto. split; auto.
  split; [cbn; lra|]. split; [lia|]. split; [lia|]. split; [|split; [|lra]].
  - cbn [cuda_basis_der Nat.ltb Nat.leb Nat.add Nat.sub cuda_basis get nth_error bind back last rev app]. nsimp.
    dec. cbn [nofnat NumR]. f_equal. unfold nofnat. cbn. lra.
  - destruct (basis_derivative [0;0;1;1] 2 1 0 0 1 (1/2) (Nbas (kn [0;0;1;1]) 2 1 0)) as (v & E & D); auto; try lra; try lia; [cbn; lra| |].
    + intros x Hx. apply basis_function_correct; auto; cbn in Hx |- *; lra.
    + replace (-1) with v; [exact D|]. unfold basis_function in E.
      cbn [basis_function_der Nat.ltb Nat.leb Nat.add Nat.sub basis_function_rec get nth_error bind back last rev app] in E. nsimp.
      revert E. dec. intros E. injection E as <-. unfold nofnat. cbn. lra.
Qed.
End AtR.
