(** Counterexamples and examples for Prop_Build.v. *)
From Coq Require Import List Arith ZArith QArith Reals Lia Lra.
From Verif Require Import Model_Base Model_Basis Model_Vec Model_Curve Model_Build
  Spec_Base Spec_Basis Spec_Eval Spec_Class Spec_Build
  Proof_Base Proof_PropBasis Proof_Ctor Proof_Curve Proof_Build Proof_Build2 Proof_PropCurve Proof_PropRemove2.
Import ListNotations.
Local Open Scope R_scope.

Lemma segment_point (sqrtf : Q -> Q) (p : pt Q) : p = (fun _ => 3%Q) -> sqrtf 0%Q = 0%Q ->
  exists c, @build_segment Q NumQ sqrtf 1 p p false = Ok c /\ @value Q NumQ c 0%Q 0 = Undef DivByZero.
Proof.
  intros -> H0. eexists. split.
  - unfold build_segment, norm. cbn [negb]. change (@sq_norm Q NumQ 1 (psub (fun _ => 3%Q) (fun _ => 3%Q))) with 0%Q.
    rewrite H0. vm_compute. reflexivity.
  - vm_compute. reflexivity.
Qed.

Lemma derivate_break : exists c, @mk_curve Q NumQ (map (fun x _ => x) [0;1;2;3]%Q) [0;0;1;1;2;2]%Q 1 = Ok c /\
  @build_derivate Q NumQ c = Undef DivByZero.
Proof. eexists. split; vm_compute; reflexivity. Qed.

Lemma derivate_degree0 : exists c, @mk_curve Q NumQ (map (fun x _ => x) [5]%Q) [0;1]%Q 0 = Ok c /\
  @value Q NumQ c (1#2)%Q 1 = Ok (@pzero Q NumQ) /\ (forall c', @build_derivate Q NumQ c <> Ok c').
Proof. eexists. split; [vm_compute; reflexivity|]. split; [vm_compute; reflexivity|]. vm_compute. discriminate. Qed.

Definition bx : curve R := mk 2 [(fun _ => 1); (fun i => INR i); (fun _ => 3); (fun _ => -1)] [0;0;0;1;2;2;2] 0 2.
Lemma bx_ok : well_formed bx /\ natural_bounds bx /\ evaluable_curve (1/1000) bx /\ (1 <= c_deg bx)%nat /\
  continuous_knots bx /\ no_empty_support bx /\ clamped_curve bx.
Proof.
  assert (Hk : knots_ok [0;0;0;1;2;2;2] 4 2) by knots_lit.
  split; [|split; [split; reflexivity|]; split; [left; cbn; lia|]; split; [cbn; lia|]; split; [|split; [|split]]].
  - destruct Hk as (A & B & C & D). split; [repeat split; auto|]. split; [unfold kn, bx; simpl; lra|exact D].
  - intros i Hi. cbn in Hi. unfold kn, bx. cbn [c_knots c_deg]. do 4 (destruct i as [|i]; [try lia; simpl; lra|]). lia.
  - intros i Hi. cbn in Hi. unfold kn, bx. cbn [c_knots c_deg]. do 4 (destruct i as [|i]; [try lia; simpl; lra|]). lia.
  - intros i Hi. cbn in Hi. do 3 (destruct i as [|i]; [reflexivity|]). lia.
  - intros i Hi. cbn in Hi. unfold c_n in Hi. cbn in Hi. do 7 (destruct i as [|i]; [try lia; reflexivity|]). lia.
Qed.
