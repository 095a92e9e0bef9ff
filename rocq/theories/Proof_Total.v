(** Evaluation succeeds at every parameter, inside the domain or not. *)
From Coq Require Import List Arith ZArith Reals Lia Lra Bool.
From Verif Require Import Model_Base Model_Basis Spec_Base Spec_Basis Proof_Base Proof_Blossom
  Proof_Basis Proof_Ders Proof_Eval Proof_PropBasis.
Import ListNotations.
Local Open Scope R_scope.

(** Knots on which evaluation is total: both end spans of the domain are non-empty. *)
Definition ends_ok (k : list R) (n p : nat) : Prop :=
  length k = (n + p + 1)%nat /\ (p < n)%nat /\ nondecreasing k /\
  kn k p < kn k (S p) /\ kn k (n - 1) < kn k n.

Section AtR.
Variable eps : R.
Hypothesis Heps : 0 <= eps.
Local Hint Extern 0 (Num R) => exact (NumR eps) : typeclass_instances.

Lemma rec_total (u : R) q : forall it (k : list R), (it + q + 1 < length k)%nat ->
  exists v, basis_function_rec u it q k = Ok v.
Proof.
  induction q as [|q IH]; intros it k Hl; cbn [basis_function_rec];
    rewrite back_kn by lia; cbn [bind]; rewrite !get_kn by lia; cbn [bind].
  - eauto.
  - destruct (IH it k ltac:(lia)) as (v1 & E1). destruct (IH (it + 1)%nat k ltac:(lia)) as (v2 & E2).
    nsimp. rewrite E1, E2.
    destruct (Rltb_spec eps (kn k (it + S q) - kn k it)); destruct (Rltb_spec eps (kn k (it + (S q + 1)) - kn k (it + 1)));
      cbn [bind]; rewrite ?(divc_ok eps) by lra; cbn [bind]; eauto.
Qed.

Lemma der_total (u : R) d : forall q it (k : list R), (it + q + 1 < length k)%nat ->
  exists v, basis_function_der u it q d k = Ok v.
Proof.
  induction d as [|d IH]; intros q it k Hl.
  - destruct q; apply (rec_total u _ it k Hl).
  - destruct q as [|q]; cbn [basis_function_der]; [eauto|].
    destruct (Nat.ltb_spec (S q) (S d)); [eauto|].
    rewrite !get_kn by lia. cbn [bind].
    destruct (IH q it k ltac:(lia)) as (v1 & E1). destruct (IH q (it + 1)%nat k ltac:(lia)) as (v2 & E2).
    nsimp. rewrite E1, E2.
    destruct (Rltb_spec eps (kn k (it + S q) - kn k it)); destruct (Rltb_spec eps (kn k (it + (S q + 1)) - kn k (it + 1)));
      cbn [bind]; rewrite ?(divc_ok eps) by lra; cbn [bind]; eauto.
Qed.

Lemma find_any (k : list R) n p u : ends_ok k n p ->
  exists l, find_span n p u k = Ok l /\ (p <= l < n)%nat /\ kn k l < kn k (S l).
Proof.
  intros (Hl & Hp & Hnd & H1 & H2).
  destruct (find_span_total eps k n p u Hl Hp Hnd) as (l & E & Hr & A & B & C).
  exists l. split; [exact E|]. split; [exact Hr|].
  destruct (Rlt_le_dec u (kn k p)) as [H|H]; [rewrite (B H); exact H1|].
  destruct (Rlt_le_dec u (kn k n)) as [H'|H']; [specialize (A ltac:(lra)); lra|].
  rewrite (C H'). replace (S (n - 1)) with n by lia. exact H2.
Qed.

Lemma eval_value_total (k : list R) n p (P : list (pt R)) u d : ends_ok k n p -> length P = n ->
  exists q, eval_value u k P p d = Ok q.
Proof.
  intros Hk HP. unfold eval_value. destruct (Nat.ltb_spec p d); [eauto|].
  pose proof Hk as (Hl & Hp & Hnd & H1 & H2).
  destruct (find_any k n p u Hk) as (l & E & Hr & Hs). rewrite HP, E. cbn [bind].
  destruct (Nat.leb_spec p l); [|lia].
  destruct (Nat.leb_spec p stack_max) as [Hst|Hst].
  - rewrite (basis_ders_ok eps k l p u Hnd ltac:(lia) ltac:(lia) Hs Hst d ltac:(lia)). cbn [bind].
    destruct (for_inv (fun _ (_ : pt R) => True)
      (fun r acc => let* N := get (map (NSd k l p u d) (seq 0 (p + 1))) r in
                    let* po := get P (l - p + r) in Ok (padd acc (pscal N po))) 0 (p + 1) pzero)
      as (q & E' & _); auto.
    + intros r acc Hr' _. rewrite get_map_seq by lia. cbn [bind].
      rewrite get_pole by lia. cbn [bind]. eauto.
    + exists q. exact E'.
  - destruct (for_inv (fun _ (_ : pt R) => True)
      (fun ip acc => let* N := basis_function u ip p d k in
                     let* po := get P ip in Ok (padd acc (pscal N po))) (l - p) (l + 1 - (l - p)) pzero)
      as (q & E' & _); auto.
    + intros i acc Hi _. unfold basis_function. destruct (der_total u d p i k ltac:(lia)) as (v & ->).
      cbn [bind]. rewrite get_pole by lia. cbn [bind]. eauto.
    + exists q. exact E'.
Qed.

Lemma eval_ders_total (k : list R) n p (P : list (pt R)) u m : ends_ok k n p -> length P = n ->
  exists CK, eval_ders u k P p m = Ok CK /\ length CK = (m + 1)%nat.
Proof.
  intros Hk HP. unfold eval_ders. pose proof Hk as (Hl & Hp & Hnd & H1 & H2).
  destruct (find_any k n p u Hk) as (l & E & Hr & Hs). rewrite HP, E. cbn [bind].
  destruct (Nat.leb_spec p l); [|lia].
  assert (Main : forall (lo w : nat) (bd : nat -> nat -> list (pt R) -> result (list (pt R))),
    (forall kk r CK, (kk <= Nat.min m p)%nat -> (lo <= r < lo + w)%nat -> length CK = (m + 1)%nat ->
       exists CK', bd kk r CK = Ok CK' /\ length CK' = (m + 1)%nat) ->
    exists CK, for_ 0 (Nat.min m p + 1) (fun kk CK => for_ lo w (bd kk) CK) (filled (m + 1) pzero) = Ok CK
      /\ length CK = (m + 1)%nat).
  { intros lo w bd Hbd.
    destruct (for_inv (fun _ (CK : list (pt R)) => length CK = (m + 1)%nat)
      (fun kk CK => for_ lo w (bd kk) CK) 0 (Nat.min m p + 1) (filled (m + 1) pzero)) as (CK & E1 & L); eauto.
    - apply filled_length.
    - intros kk CK Hkk L.
      destruct (for_inv (fun _ (CK : list (pt R)) => length CK = (m + 1)%nat) (bd kk) lo w CK) as (CK' & E1 & L'); eauto.
      intros r CK' Hr' L'. apply Hbd; auto; lia. }
  destruct (Nat.leb_spec p stack_max) as [Hst|Hst].
  - destruct (ders_basis_funs_st_ok eps k l p u Hnd ltac:(lia) ltac:(lia) Hs Hst (Nat.min m p) ltac:(lia))
      as (ders & E1 & _ & V). rewrite E1. cbn [bind].
    apply (Main 0%nat (p + 1)%nat (fun kk r CK => let* N := geti ders (kk * (p + 1) + r) in
        let* po := get P (l - p + r) in let* c := get CK kk in set CK kk (padd c (pscal N po)))).
    intros kk r CK Hkk Hr' L. rewrite V by lia. cbn [bind]. rewrite get_pole by lia. cbn [bind].
    rewrite (get_nth CK kk pzero) by (unfold pt in *; lia). cbn [bind].
    rewrite set_ok by (unfold pt in *; lia). eexists; split; [reflexivity|]. rewrite upd_length. exact L.
  - apply (Main (l - p)%nat (l + 1 - (l - p))%nat (fun kk ip CK => let* N := basis_function u ip p kk k in
        let* po := get P ip in let* c := get CK kk in set CK kk (padd c (pscal N po)))).
    intros kk r CK Hkk Hr' L. unfold basis_function. destruct (der_total u kk p r k ltac:(lia)) as (v & ->).
    cbn [bind]. rewrite get_pole by lia. cbn [bind].
    rewrite (get_nth CK kk pzero) by (unfold pt in *; lia). cbn [bind].
    rewrite set_ok by (unfold pt in *; lia). eexists; split; [reflexivity|]. rewrite upd_length. exact L.
Qed.
End AtR.
