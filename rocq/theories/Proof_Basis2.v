(** More on the basis functions: any parameter, values in [0,1], half-open supports. *)
From Coq Require Import List Arith ZArith Reals Lia Lra Bool.
From Verif Require Import Model_Base Model_Basis Model_Curve Spec_Base Spec_Basis Spec_Eval Spec_Class
  Proof_Base Proof_Blossom Proof_Basis Proof_Ders Proof_Eval Proof_PropBasis Proof_Curve.
Import ListNotations.
Local Open Scope R_scope.

Section AtR.
Variable eps : R.
Local Hint Extern 0 (Num R) => exact (NumR eps) : typeclass_instances.

Lemma get_map_seq0 (f : nat -> R) n r : (r < n)%nat -> get (map f (seq 0 n)) r = Ok (f r).
Proof. intros H. apply get_map_seq. exact H. Qed.

Lemma partition_any k p i u : nondecreasing k -> (p <= 24)%nat -> (p <= i)%nat -> (i + p < length k)%nat -> kn k i < kn k (i + 1) ->
  exists B, basis_funcs i p u k = Ok B /\ length B = (p + 1)%nat /\ fold_right Rplus 0 B = 1.
Proof.
  intros Hnd Hp Hip Hlen Hs. replace (i + 1)%nat with (S i) in Hs by lia.
  rewrite (basis_funcs_ok eps k i p u Hnd Hip Hlen Hs Hp). eexists. split; [reflexivity|].
  rewrite map_length, seq_length. split; [reflexivity|].
  rewrite (sumn_get _ (fun r => NS k i u p (i - p + r))) by (intros r Hr; rewrite map_length, seq_length in Hr; apply (get_map_seq0 (fun r => NS k i u p (i - p + r))); exact Hr).
  rewrite map_length, seq_length. unfold NS.
  pose proof (NH_sum (kn k) i (i + p)) as X. specialize (X ltac:(intros a b H1 H2; apply Hnd; lia) Hs (repeat (u, 1) p)).
  rewrite repeat_length in X. specialize (X Hip ltac:(lia)).
  rewrite (sumn_window (S i) (i - p) (p + 1)) in X; [|lia|intros j Hj Hout; apply NH_out; rewrite repeat_length; lia].
  rewrite X. clear. induction p as [|p IH]; cbn; [reflexivity|]. rewrite IH. ring.
Qed.

Lemma Nbas_le1 k n p u j : knots_ok k n p -> kn k p <= u <= kn k n -> (j < n)%nat -> Nbas (kn k) n p j u <= 1.
Proof.
  intros Hk Hu Hj. rewrite <- (Nbas_sum eps k n p u Hk Hu).
  assert (H : forall m, (forall l, (l < m)%nat -> 0 <= Nbas (kn k) n p l u) -> forall l, (l < m)%nat -> Nbas (kn k) n p l u <= sumn m (fun l => Nbas (kn k) n p l u)).
  { induction m as [|m IH]; intros Hn l Hl; [lia|]. cbn [sumn].
    assert (0 <= sumn m (fun l => Nbas (kn k) n p l u)) by (apply sumn_nonneg; intros; apply Hn; lia).
    destruct (Nat.eq_dec l m) as [->|]; [lra|]. specialize (IH (fun x Hx => Hn x ltac:(lia)) l ltac:(lia)). specialize (Hn m ltac:(lia)). lra. }
  apply H; [|exact Hj]. intros l Hl. apply (Nbas_nonneg eps); assumption.
Qed.

Lemma range_computed k n p u i B : knots_ok k n p -> (p <= 24)%nat -> kn k p <= u <= kn k n ->
  find_span n p u k = Ok i -> basis_funcs i p u k = Ok B ->
  forall r, (r < length B)%nat -> exists b, get B r = Ok b /\ 0 <= b <= 1.
Proof.
  intros Hk Hp Hu Hf HB r Hr. destruct (basis_funcs_correct eps k n p u i Hk Hp Hu Hf) as (B' & E & L & V).
  rewrite E in HB. injection HB as ->. destruct (span_pack eps k n p u Hk Hu) as (l & Ef & Hl & _). rewrite Ef in Hf. injection Hf as ->.
  exists (Nbas (kn k) n p (i - p + r) u). split; [apply V; lia|].
  split; [apply (Nbas_nonneg eps)|apply Nbas_le1]; auto; lia.
Qed.

Lemma range_all k n p u j : knots_ok k n p -> end_clamped k n p -> separated eps k -> 0 < eps -> kn k p <= u <= kn k n -> (j < n)%nat ->
  exists b, basis_function u j p 0 k = Ok b /\ 0 <= b <= 1 /\ (u < kn k j \/ kn k (j + p + 1) <= u < kn k n -> b = 0).
Proof.
  intros Hk Hc Hs He Hu Hj. exists (Nbas (kn k) n p j u). split; [apply basis_function_correct; assumption|].
  split; [split; [apply (Nbas_nonneg eps)|apply Nbas_le1]; assumption|]. intros Ho.
  destruct (span_pack eps k n p u Hk Hu) as (l & Ef & Hl & Hsp & Hst). apply (basis_support eps k n p u l Hk Hu Ef j Hj).
  destruct Hk as (Hlen & Hpn & Hnd & Hlast).
  destruct Ho as [Ho|[Ho1 Ho2]].
  - right. destruct (Nat.lt_ge_cases l j); [assumption|]. exfalso. assert (kn k j <= kn k l) by (apply Hnd; lia).
    destruct Hsp as [[? ?]|[-> ->]]; [lra|]. assert (kn k (n - 1) <= kn k n) by (apply Hnd; lia). lra.
  - left. destruct (Nat.lt_ge_cases (j + p) l); [assumption|]. exfalso. destruct Hsp as [[? ?]|[-> ->]]; [|lra].
    assert (kn k (S l) <= kn k (j + p + 1)) by (apply Hnd; lia). lra.
Qed.

Lemma value_spline (c : curve R) u : 0 <= eps -> well_formed c -> natural_bounds c -> evaluable_curve eps c -> in_domain c u ->
  exists q, value c u 0 = Ok q /\ forall i, q i = spline (kn (c_knots c)) (c_n c) (c_deg c) (polec (c_poles c) i) u.
Proof.
  intros He Hw (N1 & N2) Hev Hu. pose proof (wf_knots c Hw) as Hk. unfold value.
  destruct (oob_spec eps c u) as [H|_].
  - exfalso. rewrite N1, N2 in H. unfold in_domain in Hu. destruct Hk as (Hlen & Hpn & Hnd & _).
    assert (kn (c_knots c) 0 <= kn (c_knots c) (c_deg c)) by (apply Hnd; unfold c_n in *; lia).
    assert (kn (c_knots c) (c_n c) <= kn (c_knots c) (c_n c + c_deg c)) by (apply Hnd; unfold c_n in *; lia). lra.
  - exact (eval_value_correct eps _ _ _ (c_poles c) u Hk eq_refl Hev Hu).
Qed.

Lemma derivatives_value (c : curve R) u m : 0 <= eps -> well_formed c -> evaluable_curve eps c -> natural_bounds c -> in_domain c u ->
  exists CK, derivatives c u m = Ok CK /\ length CK = (m + 1)%nat /\
    forall d, (d <= m)%nat -> exists q q', get CK d = Ok q /\ value c u d = Ok q' /\ forall i, q i = q' i.
Proof.
  intros He Hw Hev Hn Hu. destruct (value_spline c u He Hw Hn Hev Hu) as (q0 & E0 & _). unfold value, derivatives in *.
  destruct (out_of_bounds c u); [discriminate|]. exact (eval_ders_agree eps _ _ _ _ u m (wf_knots c Hw) eq_refl Hev Hu).
Qed.
End AtR.
