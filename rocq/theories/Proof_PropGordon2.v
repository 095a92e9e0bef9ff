(** A network whose curves overhang, for Prop_Gordon.v. *)
From Coq Require Import List Arith ZArith QArith Qabs Bool.
From Verif Require Import Model_Base Model_Knots Model_Curve Model_Interp Model_Surface Model_Unify Model_Gordon.
Import ListNotations.
Local Open Scope Q_scope.

Definition ptq (x y : Q) : pt Q := fun c => match c with 0%nat => x | 1%nat => y | _ => 0 end.
(** A solver for the systems whose matrix is the identity. *)
Definition identity_solver : @solver Q := fun N b =>
  if Nat.eqb (m_rows N) (m_cols N) && forallb (fun i => forallb (fun j => Qeq_bool (m_cell N i j) (if Nat.eqb i j then 1 else 0)) (seq 0 (m_cols N))) (seq 0 (m_rows N))
  then Ok b else Throw RuntimeError.
(** Two segments, crossed by two curves at a third and two thirds of their length. *)
Definition over_u0 : curve Q := mk 1 [ptq 0 0; ptq 3 0] [0; 0; 1; 1] 0 1.
Definition over_u1 : curve Q := mk 1 [ptq 0 2; ptq 3 2] [0; 0; 1; 1] 0 1.
Definition over_v0 : curve Q := mk 2 [ptq 1 0; ptq 0 1; ptq 1 2] [0; 0; 0; 1; 1; 1] 0 1.
Definition over_v1 : curve Q := mk 2 [ptq 2 0; ptq 2 1; ptq 2 2] [0; 0; 0; 1; 1; 1] 0 1.
Definition over_extrema : @extrema_t Q := fun c c' =>
  match c_poles c' with
  | P :: _ => Ok (if Nat.eqb (c_deg c) 1 then P 0%nat / 3 else P 1%nat / 2, 0, 0)
  | [] => Throw InvalidArgument
  end.
Definition distq (a b : pt Q) : Q := Qabs (a 0%nat - b 0%nat) + Qabs (a 1%nat - b 1%nat).


Definition test1 (r : result (pt Q)) (f : pt Q -> bool) : bool := match r with Ok x => f x | _ => false end.

Lemma test1_true : forall r f, test1 r f = true -> exists x, r = Ok x /\ f x = true.
Proof. intros r f H. destruct r as [x| | |]; try discriminate. exists x. split; [reflexivity|exact H]. Qed.

Definition meetq (cu cv : curve Q) (u v : Q) : bool :=
  test1 (@value Q NumQ cu u 0) (fun x => test1 (@value Q NumQ cv v 0) (fun y => Qeq_bool (x 0%nat) (y 0%nat) && Qeq_bool (x 1%nat) (y 1%nat))).

Lemma meetq_true : forall cu cv u v, meetq cu cv u v = true ->
  exists x y, @value Q NumQ cu u 0 = Ok x /\ @value Q NumQ cv v 0 = Ok y /\ x 0%nat == y 0%nat /\ x 1%nat == y 1%nat.
Proof.
  intros cu cv u v H. apply test1_true in H. destruct H as [x [Hx H]]. apply test1_true in H. destruct H as [y [Hy H]].
  apply andb_true_iff in H. destruct H as [H1 H2]. exists x, y.
  split; [exact Hx|]. split; [exact Hy|]. split; apply Qeq_bool_iff; assumption.
Qed.

Definition leaves : bool :=
  match @gordon Q NumQ identity_solver over_extrema distq 2 0 [over_u0; over_u1] [over_v0; over_v1] with
  | Ok s => test1 (@value Q NumQ over_v0 (1 # 2) 0) (fun z => test1 (@surf_value Q NumQ s (1 # 3) (1 # 2) 0 0) (fun w =>
      negb (Qeq_bool (w 0%nat) (z 0%nat))))
  | _ => false
  end.

Lemma leaves_true : leaves = true. Proof. vm_compute. reflexivity. Qed.

Lemma overhang : exists s, @gordon Q NumQ identity_solver over_extrema distq 2 0 [over_u0; over_u1] [over_v0; over_v1] = Ok s /\
  (forall i j cu cv, nth_error [over_u0; over_u1] i = Some cu -> nth_error [over_v0; over_v1] j = Some cv ->
     exists x y, @value Q NumQ cu (nth j [1 # 3; 2 # 3] 0) 0 = Ok x /\ @value Q NumQ cv (nth i [0; 1] 0) 0 = Ok y /\
       x 0%nat == y 0%nat /\ x 1%nat == y 1%nat) /\
  exists z w, @value Q NumQ over_v0 (1 # 2) 0 = Ok z /\ @surf_value Q NumQ s (1 # 3) (1 # 2) 0 0 = Ok w /\ ~ w 0%nat == z 0%nat.
Proof.
  pose proof leaves_true as H. unfold leaves in H.
  destruct (@gordon Q NumQ identity_solver over_extrema distq 2 0 [over_u0; over_u1] [over_v0; over_v1]) as [s| | |]; try discriminate.
  exists s. split; [reflexivity|]. split.
  - intros [|[|i]] [|[|j]] cu cv Hi Hj; try (destruct i; discriminate); try (destruct j; discriminate);
      injection Hi as <-; injection Hj as <-; apply meetq_true; vm_compute; reflexivity.
  - apply test1_true in H. destruct H as [z [Hz H]]. apply test1_true in H. destruct H as [w [Hw H]].
    exists z, w. split; [exact Hz|]. split; [exact Hw|]. intro E. apply Qeq_bool_iff in E. rewrite E in H. discriminate.
Qed.
