(** Lofts: the isoparametric curves at the section parameters are the sections. *)
From Coq Require Import List Arith ZArith Reals Lia Lra Bool.
From Verif Require Import Model_Base Model_Knots Model_Math Model_Basis Model_Curve Model_Interp Model_Surface Model_Unify Model_Skin
  Spec_Base Spec_Basis Spec_Eval Spec_Knots Spec_Interp Spec_Surface Spec_Unify Spec_Skin Proof_Base Proof_Eval
  Proof_Interp Proof_Interp3 Proof_Interp4 Proof_Surface Proof_Tfi Proof_Skin1 Proof_Skin2.
Import ListNotations.
Local Open Scope R_scope.

Section AtR.
Variable eps : R.
Local Hint Extern 0 (Num R) => exact (NumR eps) : typeclass_instances.

Lemma loft_poles_ok lu dim (cs : list (list (pt R))) (ku kv v : list R) nu p q P : exact_solver lu -> (0 < dim)%nat ->
  knots_ok ku nu p -> knots_ok kv (length v) q -> evaluable2 eps ku nu p kv (length v) q ->
  (forall x, In x v -> kn kv q <= x <= kn kv (length v)) -> (forall c, In c cs -> length c = nu) ->
  loft_poles lu dim cs kv v q = Ok P ->
  length cs = length v /\ length P = (nu * length v)%nat /\
  forall j c u du, nth_error cs j = Some c -> kn ku p <= u <= kn ku nu ->
    exists z z', surf_eval u (nth j v 0) ku kv P p q du 0 = Ok z /\ eval_value u ku c p du = Ok z' /\
      forall d, (d < dim)%nat -> z d = z' d.
Proof.
  intros Hex Hdim Hku Hkv Hev Hv Hc E. unfold loft_poles in E. apply bind_inv in E as (c0 & E0 & E).
  assert (H0 : nth_error cs 0 = Some c0) by (unfold get in E0; destruct (nth_error cs 0); [congruence|discriminate]).
  assert (L0 : length c0 = nu) by (apply Hc; eapply nth_error_In; eauto). rewrite L0 in E.
  apply bind_inv in E as (cols & Ecols & E). unfold loft_core in E. rewrite !Nat.mul_1_l in E.
  destruct (matrix_ok eps kv (length v) q Hkv 1 v (length v) (le_n 1) (ev2_2 _ _ _ _ _ _ _ Hev) Hv ltac:(lia)) as (N & EN & RN & CN & VN & _).
  rewrite EN in E. cbn [bind] in E. apply bind_inv in E as (X & EX & E). injection E as <-.
  destruct (mapM_seq _ _ _ Ecols) as (Lcols & Hcols).
  assert (Hnu : (0 < nu)%nat) by (destruct Hku as (_ & H & _); lia).
  (* the right-hand sides *)
  assert (HB : forall i d, (i < nu)%nat -> (d < dim)%nat -> length (nth (i * dim + d) cols []) = length cs /\
    forall j c, nth_error cs j = Some c -> nth j (nth (i * dim + d) cols []) 0 = pole c d i).
  { intros i d Hi Hd. destruct (Hcols (i * dim + d)%nat) as (b & Hb & Eb); [nia|]. rewrite (nth_error_nth _ _ [] Hb).
    destruct (mapM_nth _ _ _ Eb) as (Lb & HbV). split; [exact Lb|]. intros j c Hj.
    destruct (HbV j c Hj) as (x & Hx & Ex). rewrite (nth_error_nth _ _ 0 Hx). cbv beta in Ex.
    assert (Lc : length c = nu) by (apply Hc; eapply nth_error_In; eauto).
    replace ((i * dim + d) / dim)%nat with i in Ex by (rewrite Nat.add_comm, Nat.div_add, Nat.div_small by lia; lia).
    replace ((i * dim + d) mod dim)%nat with d in Ex by (rewrite Nat.add_comm, Nat.mod_add, Nat.mod_small by lia; lia).
    rewrite (get_nth c _ (fun _ => 0)) in Ex by lia. cbn [bind] in Ex. injection Ex as <-. reflexivity. }
  destruct (mapM_nth _ _ _ EX) as (LX & HXs).
  assert (HX : forall i d, (i < nu)%nat -> (d < dim)%nat -> length cs = length v /\
    solves (length v) (length v) (m_cell N) (nth (i * dim + d) X []) (nth (i * dim + d) cols [])).
  { intros i d Hi Hd. assert (Hix : (i * dim + d < length cols)%nat) by nia.
    destruct (HXs _ _ (nth_error_nth' cols [] Hix)) as (x & Hx & Ex). rewrite (nth_error_nth _ _ [] Hx). cbv beta in Ex.
    destruct (Nat.eqb_spec (length (nth (i * dim + d) cols [])) (length v)) as [Eq|]; [|discriminate].
    destruct (HB i d Hi Hd) as (Lb & _). split; [congruence|].
    pose proof (Hex _ _ _ Ex ltac:(congruence)) as S. rewrite RN, CN in S. exact S. }
  destruct (HX 0%nat 0%nat Hnu Hdim) as (Lcs & _).
  split; [exact Lcs|].
  assert (LP : forall (f : nat -> pt R), length (map f (seq 0 (length v * nu))) = (nu * length v)%nat).
  { intros f. rewrite map_length, seq_length. lia. }
  split; [apply LP|]. intros j c u du Hj Hu.
  assert (Hjl : (j < length v)%nat) by (rewrite <- Lcs; apply nth_error_Some; congruence).
  set (P := map _ _).
  destruct (surf_rv eps ku kv nu (length v) p q Hku Hkv Hev P u (nth j v 0) du 0) as (z & Ez & Vz).
  { apply LP. } { split; [exact Hu|]. apply Hv, nth_In. exact Hjl. }
  assert (Lc : length c = nu) by (apply Hc; eapply nth_error_In; eauto).
  destruct (rv_eval eps ku nu p Hku u du c Hu Lc (ev2_1 _ _ _ _ _ _ _ Hev)) as (z' & Ez' & Vz').
  exists z, z'. split; [exact Ez|]. split; [exact Ez'|]. intros d Hd. rewrite Vz, Vz'.
  rewrite (sumn_ext (length v) _ (fun j' => sumn nu (fun i => rv eps ku nu p u du i * (rv eps kv (length v) q (nth j v 0) 0 j' * pole P d (i + nu * j'))))).
  2:{ intros j' Hj'. rewrite <- sumn_scal. apply sumn_ext. intros i Hi. ring. }
  rewrite sumn_swap. apply sumn_ext. intros i Hi. rewrite sumn_scal. f_equal.
  destruct (HX i d Hi Hd) as (_ & Lx & _ & S). destruct (HB i d Hi Hd) as (_ & HBj). rewrite <- (HBj j c Hj). rewrite <- S by exact Hjl.
  apply sumn_ext. intros j' Hj'. pose proof (VN j 0%nat j' Hjl ltac:(lia)) as VN'. rewrite Nat.mul_1_l, Nat.add_0_r in VN'. rewrite VN'. f_equal.
  unfold P, pole. rewrite nth_map_seq by nia. destruct (Nat.ltb_spec d dim); [|lia].
  replace ((i + nu * j') mod nu)%nat with i by (rewrite Nat.mul_comm, Nat.mod_add, Nat.mod_small; lia).
  replace ((i + nu * j') / nu)%nat with j' by (rewrite Nat.mul_comm, Nat.div_add, Nat.div_small; lia).
  rewrite (nth_error_nth' X []) by nia. rewrite (nth_error_nth' _ 0) by lia. reflexivity.
Qed.
End AtR.
