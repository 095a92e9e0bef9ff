(** Three unevenly spaced sections, for Prop_Spine.v. *)
From Coq Require Import List Arith ZArith QArith Qabs Bool Lia.
From Verif Require Import Model_Base Model_Knots Model_Math Model_Curve Model_Interp Model_Surface Model_Unify Model_Skin Model_Spine Spec_Spine Proof_Base Proof_Interp Proof_Interp4.
Import ListNotations.
Local Open Scope Q_scope.
Local Hint Extern 0 (Num Q) => exact NumQ : typeclass_instances.

Definition ptq (x y : Q) : pt Q := fun c => match c with 0%nat => x | 1%nat => y | _ => 0 end.
Definition distq (a b : pt Q) : Q := Qabs (a 0%nat - b 0%nat) + Qabs (a 1%nat - b 1%nat).
(** The unit segment above the point of abscissa x, and a straight spine described at unit
    speed: the foot of a section on it is its abscissa. *)
Definition bar (x : Q) : curve Q := mk 1 [ptq x 0; ptq x 1] [0; 0; 1; 1] 0 1.
Definition rail : curve Q := mk 1 [ptq 0 0; ptq 10 0] [0; 0; 10; 10] 0 10.
Definition foot (_ c : curve Q) : result Q := match c_poles c with P :: _ => Ok (P 0%nat) | [] => Throw InvalidArgument end.
Definition chords (l : list (pt Q)) : result (list Q) := @curve_parametrization Q NumQ distq (fun x => x) l ChordLength true.

(** What happens before the solver is called. *)
Definition prep (cs : list (curve Q)) (spine : curve Q) (q_max : nat) : result (@mat Q * list (list Q) * nat) :=
  if length cs <? 2 then Throw LengthError else
  let* us := unify_curves cs in
  let* c0 := front us in
  let nu := length (c_poles c0) in
  let nv := length us in
  let* (rows, v) := v_aligned_poles chords nu us in
  let* tgs := tg_from_spine false 2 distq foot rows spine us in
  let q := max (min q_max (nv - 1)) 1 in
  let* a := front v in
  let* b := back v in
  let* kv := build_simple_mult_flat_knots_range a b (nv * 2) q in
  let* cols := mapM (fun ix =>
    mapM (fun j =>
      let* r := get (if Nat.eqb (j mod 2) 0 then rows else tgs) (ix / 2)%nat in
      let* x := get r (j / 2)%nat in Ok (x (ix mod 2)%nat)) (seq 0 (2 * nv))) (seq 0 (nu * 2)) in
  let* N := build_poles_matrix 2 kv v q (2 * length v) (2 * length v) in
  Ok (N, cols, (2 * length v)%nat).

Lemma prep_ok lu cs spine q_max s : @loft_spine Q NumQ lu chords distq foot false 2 cs spine q_max = Ok s ->
  exists N cols n X, prep cs spine q_max = Ok (N, cols, n) /\ mapM (fun b => if Nat.eqb (length b) n then lu N b else Undef BadIndex) cols = Ok X.
Proof.
  unfold loft_spine, prep. destruct (length cs <? 2); [discriminate|]. intros H.
  apply bind_inv in H as (us & -> & H). cbn [bind]. apply bind_inv in H as (c0 & -> & H). cbn [bind].
  apply bind_inv in H as ((rows & v) & -> & H). cbn [bind]. apply bind_inv in H as (tgs & -> & H). cbn [bind].
  apply bind_inv in H as (a & -> & H). cbn [bind]. apply bind_inv in H as (b & -> & H). cbn [bind].
  apply bind_inv in H as (kv & -> & H). cbn [bind]. apply bind_inv in H as (cols & -> & H). cbn [bind].
  apply bind_inv in H as (P & H & _). unfold loft_core in H. apply bind_inv in H as (N & EN & H). rewrite EN. cbn [bind].
  apply bind_inv in H as (X & H & _). exists N, cols, (2 * length v)%nat, X. split; [reflexivity|]. exact H.
Qed.

(** Twice the rise over the first interval is not its length times the sum of the slopes. *)
Definition bars : list (curve Q) := [bar 0; bar 1; bar 10].
Definition row_w (i : nat) : Q := match i with 0%nat => 20 | 1%nat => 1 | 2%nat => -20 | 3%nat => 1 | _ => 0 end.
Definition inconsistent : bool :=
  match prep bars rail 2 with
  | Ok (N, b :: _, n) =>
    Nat.eqb n 6 && Nat.eqb (length b) 6 && Nat.eqb (m_rows N) 6 && Nat.eqb (m_cols N) 6 &&
    forallb (fun j => Qeq_bool (sumq 6 (fun i => row_w i * m_cell N i j)) 0) (seq 0 6) &&
    negb (Qeq_bool (sumq 6 (fun i => row_w i * nth i b 0)) 0)
  | _ => false
  end.
Lemma inconsistent_true : inconsistent = true.
Proof. vm_compute. reflexivity. Qed.

Lemma sumq_ext n f g : (forall i, (i < n)%nat -> f i == g i) -> sumq n f == sumq n g.
Proof. induction n as [|n IH]; intros H; cbn [sumq]; [reflexivity|]. rewrite IH by (intros; apply H; lia). rewrite (H n) by lia. reflexivity. Qed.
Lemma sumq_scal n c f : sumq n (fun i => c * f i) == c * sumq n f.
Proof. induction n as [|n IH]; cbn [sumq]; [ring|]. rewrite IH. ring. Qed.
Lemma sumq_add n f g : sumq n (fun i => f i + g i) == sumq n f + sumq n g.
Proof. induction n as [|n IH]; cbn [sumq]; [ring|]. rewrite IH. ring. Qed.
Lemma sumq_zero n : sumq n (fun _ => 0) == 0.
Proof. induction n as [|n IH]; cbn [sumq]; [reflexivity|]. rewrite IH. reflexivity. Qed.
Lemma sumq_swap n m f : sumq n (fun i => sumq m (f i)) == sumq m (fun j => sumq n (fun i => f i j)).
Proof.
  induction n as [|n IH]; cbn [sumq]; [symmetry; apply sumq_zero|]. rewrite IH. rewrite <- sumq_add. reflexivity.
Qed.

Lemma uneven lu s : exact_solver_q lu -> @loft_spine Q NumQ lu chords distq foot false 2 bars rail 2 <> Ok s.
Proof.
  intros Hex E. apply prep_ok in E as (N & cols & n & X & EP & EM). pose proof inconsistent_true as H. unfold inconsistent in H. rewrite EP in H.
  destruct cols as [|b cols]; [discriminate|].
  rewrite !andb_true_iff in H. destruct H as (((((H1 & H2) & H3) & H4) & H5) & H6).
  apply Nat.eqb_eq in H1, H2, H3, H4. subst n. cbn [mapM] in EM. rewrite H2 in EM. cbn [Nat.eqb] in EM.
  apply bind_inv in EM as (x & Ex & _). pose proof (Hex N b x Ex ltac:(congruence)) as HS. rewrite H3, H4 in HS.
  apply negb_true_iff in H6. apply Qeq_bool_neq in H6. apply H6.
  rewrite (sumq_ext 6 (fun i => row_w i * nth i b 0) (fun i => sumq 6 (fun j => row_w i * (m_cell N i j * nth j x 0)))).
  2:{ intros i Hi. rewrite <- (HS i Hi), sumq_scal. reflexivity. }
  rewrite sumq_swap. rewrite (sumq_ext 6 _ (fun _ => 0)); [apply sumq_zero|]. intros j Hj.
  rewrite (sumq_ext 6 _ (fun i => nth j x 0 * (row_w i * m_cell N i j))) by (intros; ring). rewrite sumq_scal.
  rewrite forallb_forall in H5. specialize (H5 j). apply Qeq_bool_iff in H5; [|apply in_seq; lia]. rewrite H5. ring.
Qed.
