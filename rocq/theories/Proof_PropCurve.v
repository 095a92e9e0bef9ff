(** Lemmas behind Prop_Curve.v. *)
From Coq Require Import List Arith ZArith QArith Reals Lia Lra.
From Verif Require Import Model_Base Model_Basis Model_Knots Model_Removal Model_Rational Model_Curve
  Spec_Base Spec_Basis Spec_Eval Spec_Class Proof_Base Proof_Blossom Proof_Basis Proof_Ders Proof_Eval
  Proof_Refine Proof_Insert Proof_Boehm Proof_PropInsert Proof_Continuity Proof_Trim Proof_Unique
  Proof_PropRemove Proof_PropRemove2 Proof_Total Proof_Ctor Proof_Affine Proof_Curve Proof_Invariant.
Import ListNotations.
Local Open Scope R_scope.

Lemma ctor_rejects eps (k : list R) (P : list (pt R)) p c : 0 <= eps ->
  @mk_curve R (NumR eps) P k p = Ok c ->
  c_deg c = p /\ c_poles c = P /\ c_knots c = k /\ natural_bounds c /\
  (p + 1 + length P = length k)%nat /\ (p < length P)%nat /\
  (forall i j, (i <= j < length k)%nat -> kn k i <= kn k j + 2 * eps) /\
  ((forall x y, In x k -> In y k -> x <> y -> eps < Rabs (x - y)) -> nondecreasing k).
Proof.
  intros He E.
  assert (G : c = mk p P k (kn k 0) (kn k (length k - 1)) /\ (p + 1 + length P = length k /\ p + 1 <= length P)%nat /\
    forall i j, (i < j < length k)%nat -> kn k i <= kn k j + 2 * eps).
  { destruct (mk_curve_spec eps eps k P p He ltac:(auto)) as [(-> & E')|[E'|(E' & A & B)]];
      rewrite E' in E; try discriminate. injection E as <-. auto. }
  destruct G as (-> & (A1 & A2) & B). cbn [c_deg c_poles c_knots].
  split; auto. split; auto. split; auto. split.
  { split; [reflexivity|]. unfold c_n. cbn [c_hi c_knots c_poles c_deg]. f_equal. lia. }
  split; auto. split; [lia|]. split.
  - intros i j Hij. destruct (Nat.eq_dec i j) as [->|]; [lra|]. apply B. lia.
  - intros Hs. destruct (mk_curve_spec eps 0 k P p ltac:(lra)) as [(-> & E')|[E'|(E' & _ & B')]];
      try (rewrite E' in E; discriminate).
    + intros x y Hx Hy Hxy. destruct (Req_dec x y) as [->|Hne].
      * replace (y - y) with 0 by ring. rewrite Rabs_R0. lra.
      * specialize (Hs x y Hx Hy Hne). lra.
    + intros i j Hij Hj. destruct (Nat.eq_dec i j) as [->|]; [lra|]. specialize (B' i j ltac:(lia)). lra.
Qed.

Lemma history_inv eps c ops c' : 0 < eps -> standard c -> history eps c ops c' ->
  standard c' /\ shape_ok c' /\ well_formed c'.
Proof.
  intros He Hc H. assert (standard c') by (eapply history_standard; eauto).
  split; auto. split; [apply H0|]. apply standard_wf; auto.
Qed.

Definition ex_c : curve R := mk 2 (map (fun i _ => INR i) (seq 0 5)) [0;0;0;1;2;3;3;3] 0 3.
Ltac cnt_lit := cbn [count_occ]; repeat (destruct (Req_EM_T _ _); try (exfalso; lra)); lia.
Lemma ex_c_shape : shape_ok ex_c.
Proof.
  split; [reflexivity|]. split; [unfold c_n; simpl; lia|]. apply succ_nondecreasing. intros i Hi.
  unfold ex_c, c_knots in *. repeat (destruct i as [|i]; [unfold kn; simpl; lra|]). simpl in Hi; lia.
Qed.
Lemma ex_c_wf : well_formed ex_c /\ natural_bounds ex_c /\ evaluable_curve (1/1000) ex_c.
Proof.
  split; [split; [exact ex_c_shape|unfold kn, c_n; simpl; lra]|]. split; [split; reflexivity|]. left. simpl; lia.
Qed.
Lemma ex_c_std : standard ex_c.
Proof.
  unfold standard. cbv zeta. split; [exact ex_c_shape|]. split; [simpl; lia|].
  replace (kn (c_knots ex_c) 0) with 0 by reflexivity.
  replace (kn (c_knots ex_c) (c_n ex_c + c_deg ex_c)) with 3 by reflexivity.
  split; [lra|]. unfold ex_c, c_knots, c_deg.
  split; [cnt_lit|]. split; [cnt_lit|]. intros x Hx. cnt_lit.
Qed.
Lemma ex_c_ctor : exists c, @mk_curve R (NumR (1/1000)) (c_poles ex_c) (c_knots ex_c) 2 = Ok c.
Proof.
  eexists. apply mk_curve_accepts; simpl; try lia. apply ex_c_shape.
Qed.
Lemma ex_c_history : exists c', history (1/1000) ex_c [Reverse; Change 0 6] c'.
Proof.
  destruct (reverse_prop (1/1000) ex_c ltac:(lra) (proj1 ex_c_wf) (proj1 (proj2 ex_c_wf)))
    as (c1 & E1 & _ & _ & _ & W1 & N1 & _).
  destruct (change_prop (1/1000) c1 0 6 ltac:(lra) W1 N1 ltac:(lra)) as (c2 & E2 & _).
  exists c2. apply (h_step _ _ [Reverse] c1); [|simpl; lra|exact E2].
  apply (h_step _ _ [] ex_c); [constructor|exact I|exact E1].
Qed.

(** ** Refutations, by running the model on exact rationals *)
Definition qpoles (n : nat) : list (pt Q) := map (fun i _ => inject_Z (Z.of_nat i)) (seq 0 n).
Definition at0 (r : result (pt Q)) : result Q := match r with
  | Ok a => Ok (a 0%nat) | Throw e => Throw e | Undef e => Undef e | Fuel => Fuel end.

Lemma value_div_zero : exists c, @mk_curve Q NumQ (qpoles 3) [0;0;1;1;1]%Q 1 = Ok c /\
  @bounds Q c = (0%Q, 1%Q) /\ @value Q NumQ c 1%Q 0 = Undef DivByZero.
Proof. eexists. split; [vm_compute; reflexivity|]. split; vm_compute; reflexivity. Qed.
Lemma ctor_unsorted : exists c, let e := (1 # 4503599627370496)%Q in
  @mk_curve Q NumQ (qpoles 2) [0;e;0;1]%Q 1 = Ok c /\ (0 < e)%Q.
Proof. eexists. split; [vm_compute; reflexivity|reflexivity]. Qed.
Lemma change_decreasing : exists c c', @mk_curve Q NumQ (qpoles 3) [0;0;1;2;2]%Q 1 = Ok c /\
  @changeBounds Q NumQ c 1%Q 0%Q = Ok c' /\ c_knots c' = [1;1;1#2;0;0]%Q.
Proof. do 2 eexists. split; [vm_compute; reflexivity|]. split; [vm_compute; reflexivity|reflexivity]. Qed.
Lemma trim_point : exists c c', @mk_curve Q NumQ (qpoles 3) [0;0;1;2;2]%Q 1 = Ok c /\
  @trim_curve Q NumQ c 1%Q 1%Q true = Ok c' /\ c_poles c' = [] /\ c_knots c' = [1;1]%Q /\ c_deg c' = 1%nat.
Proof. do 2 eexists. split; [vm_compute; reflexivity|]. split; [vm_compute; reflexivity|]. repeat split. Qed.
Lemma copy_unsorted : exists c c', @mk_curve Q NumQ (qpoles 3) [0;0;1;2;2]%Q 1 = Ok c /\
  @copyKnots Q c [5;4;3;2;1]%Q = Ok c' /\ c_knots c' = [5;4;3;2;1]%Q.
Proof. do 2 eexists. split; [vm_compute; reflexivity|]. split; [vm_compute; reflexivity|]. reflexivity. Qed.
Lemma trim_swapped : exists c c', @mk_curve Q NumQ (qpoles 3) [0;0;1;2;2]%Q 1 = Ok c /\
  @trim_curve Q NumQ c 2%Q 1%Q true = Ok c' /\ @bounds Q c' = (2%Q, 1%Q) /\
  @value Q NumQ c' 1%Q 0 = Throw OutOfBoundsEval /\ @value Q NumQ c' (3#2)%Q 0 = Throw OutOfBoundsEval /\
  @value Q NumQ c' 2%Q 0 = Throw OutOfBoundsEval.
Proof. do 2 eexists. split; [vm_compute; reflexivity|]. split; [vm_compute; reflexivity|]. repeat split; vm_compute; reflexivity. Qed.
Lemma reverse_soft : exists c c1 c2, @mk_curve Q NumQ (qpoles 3) [0;0;1;2;2]%Q 1 = Ok c /\
  @trim_curve Q NumQ c 1%Q 2%Q false = Ok c1 /\ @reverse Q NumQ c1 = Ok c2 /\
  @bounds Q c2 = (1%Q, 2%Q) /\
  at0 (@value Q NumQ c1 2%Q 0) = Ok 2%Q /\ at0 (@value Q NumQ c2 1%Q 0) = Ok 1%Q.
Proof. do 3 eexists. split; [vm_compute; reflexivity|]. split; [vm_compute; reflexivity|].
  split; [vm_compute; reflexivity|]. repeat split; vm_compute; reflexivity. Qed.
