(** Moving the poles of a curve: the matrix, the displaced poles. *)
From Coq Require Import List Arith Reals Lia Lra Bool.
From Verif Require Import Model_Base Model_Knots Model_Basis Model_Curve Model_Interp Model_Shape
  Spec_Base Spec_Basis Spec_Interp Spec_Solve Proof_Base Proof_Blossom Proof_Basis Proof_Eval Proof_Interp Proof_Interp3 Proof_Shape1.
Import ListNotations.
Local Open Scope R_scope.

Section AtR.
Variable eps : R.
Local Hint Extern 0 (Num R) => exact (NumR eps) : typeclass_instances.

Section Rows.
Variables (k : list R) (n p : nat).
Hypothesis Hk : knots_ok k n p.
Hypothesis Hcl : end_clamped k n p.
Hypothesis Hsep : separated eps k.
Hypothesis He : 0 < eps.
Notation rv := (rv eps k n p).
Notation spn := (spn eps k n p).
Notation inside := (inside k n p).

Lemma bf_all u d j : inside u -> (j < n)%nat -> basis_function u j p d k = Ok (rv u d j).
Proof.
  intros Hu Hj. destruct (Nat.le_gt_cases d p) as [Hd|Hd].
  - destruct (spn_ok eps k n p Hk u Hu) as (Ef & Hl & Hs & _).
    unfold basis_function. rewrite (basis_der_ok eps k n p (spn u) u Hk Hcl Hsep He Hl Hs p d) by lia.
    unfold Proof_Interp.rv. destruct (Nat.leb_spec j (spn u)); [reflexivity|].
    rewrite NH_out by lia. f_equal. ring.
  - rewrite rv_big by exact Hd. unfold basis_function. clear -Hd. destruct d as [|e]; [lia|].
    destruct p as [|q]; [reflexivity|]. cbn [basis_function_der]. apply Nat.ltb_lt in Hd. rewrite Hd. reflexivity.
Qed.

Lemma shape_matrix_ok (cs : list (@cpoint R)) i1 w : (i1 + w <= n)%nat ->
  (forall c, In c cs -> inside (cp_u c)) ->
  exists B, shape_matrix cs k p i1 w = Ok B /\ m_rows B = length cs /\ m_cols B = w /\
    forall r c l, nth_error cs r = Some c -> (l < w)%nat -> m_cell B r l = rv (cp_u c) (cp_d c) (i1 + l).
Proof.
  intros Hw Hin. unfold shape_matrix.
  set (Inv := fun (i : nat) (B : @mat R) => m_rows B = length cs /\ m_cols B = w /\
    forall r c l, (r < i)%nat -> nth_error cs r = Some c -> (l < w)%nat -> m_cell B r l = rv (cp_u c) (cp_d c) (i1 + l)).
  destruct (for_inv Inv (fun i B => let* c := get cs i in
    for_ i1 w (fun j B => let* v := basis_function (cp_u c) j p (cp_d c) k in mset B i (j - i1) v) B)
    0 (length cs) (mzero (length cs) w)) as (B & E & HB).
  - split; [reflexivity|]. split; [reflexivity|]. intros; lia.
  - intros i B Hi (H1 & H2 & H3).
    destruct (nth_error cs i) as [c|] eqn:Ec; [|apply nth_error_None in Ec; lia].
    unfold get. rewrite Ec. cbn [bind].
    assert (Hc : inside (cp_u c)) by (apply Hin; eapply nth_error_In; eauto).
    set (J := fun (j : nat) (B : @mat R) => m_rows B = length cs /\ m_cols B = w /\
      (forall r c l, (r < i)%nat -> nth_error cs r = Some c -> (l < w)%nat -> m_cell B r l = rv (cp_u c) (cp_d c) (i1 + l)) /\
      (forall l, (i1 + l < j)%nat -> (l < w)%nat -> m_cell B i l = rv (cp_u c) (cp_d c) (i1 + l))).
    destruct (for_inv J (fun j B => let* v := basis_function (cp_u c) j p (cp_d c) k in mset B i (j - i1) v)
      i1 w B) as (B' & E' & J1 & J2 & J3 & J4).
    + repeat split; auto. intros; lia.
    + intros j B0 Hj (K1 & K2 & K3 & K4). rewrite bf_all by (auto; lia). cbn [bind].
      destruct (mset_ok B0 i (j - i1) (rv (cp_u c) (cp_d c) j) ltac:(lia) ltac:(lia)) as (B1 & E1 & L1 & L2 & V).
      exists B1. split; [exact E1|]. split; [congruence|]. split; [congruence|]. split.
      * intros r c0 l Hr Hc0 Hl. rewrite V. destruct (Nat.eqb_spec r i); [lia|]. cbn [andb]. eauto.
      * intros l Hl Hlw. rewrite V, Nat.eqb_refl. cbn [andb]. destruct (Nat.eqb_spec l (j - i1)) as [->|].
        -- f_equal. lia.
        -- apply K4; lia.
    + exists B'. split; [exact E'|]. split; [exact J1|]. split; [exact J2|].
      intros r c0 l Hr Hc0 Hl. destruct (Nat.eq_dec r i) as [->|].
      * rewrite Ec in Hc0. injection Hc0 as <-. apply J4; lia.
      * apply J3 with (c := c0); auto; lia.
  - exists B. split; [exact E|]. destruct HB as (H1 & H2 & H3). split; [exact H1|]. split; [exact H2|].
    intros r c l Hc Hl. apply H3; auto. simpl. apply nth_error_Some. congruence.
Qed.
End Rows.

Lemma shift_ok (P D : list (pt R)) i1 w : (i1 + w <= length P)%nat -> length D = w ->
  exists P', shift_poles P D i1 w = Ok P' /\ length P' = length P /\
    forall j, nth j P' (fun _ => 0) =
      if ((i1 <=? j) && (j <? i1 + w))%nat then padd (nth j P (fun _ => 0)) (nth (j - i1) D (fun _ => 0))
      else nth j P (fun _ => 0).
Proof.
  intros Hw LD. unfold shift_poles.
  set (J := fun (i : nat) (P' : list (pt R)) => length P' = length P /\
    forall j, nth j P' (fun _ => 0) =
      if ((i1 <=? j) && (j <? i))%nat then padd (nth j P (fun _ => 0)) (nth (j - i1) D (fun _ => 0))
      else nth j P (fun _ => 0)).
  match goal with |- exists P', for_ _ _ ?b _ = _ /\ _ => destruct (for_inv J b i1 w P) as (P' & E & J1 & J2) end.
  - split; [reflexivity|]. intros j. destruct (Nat.leb_spec i1 j), (Nat.ltb_spec j i1); try lia; reflexivity.
  - intros i P0 Hi (H1 & H2).
    rewrite (get_nth (A := pt R) P0 i (fun _ => 0)) by lia. cbn [bind].
    rewrite (get_nth (A := pt R) D (i - i1) (fun _ => 0)) by lia. cbn [bind].
    assert (Hi' : (i < length P0)%nat) by lia.
    rewrite (set_ok P0 i _ Hi'). eexists. split; [reflexivity|]. split; [rewrite upd_length; exact H1|].
    intros j. destruct (Nat.eq_dec j i) as [->|Hne].
    + rewrite nth_upd, Nat.eqb_refl. destruct (Nat.ltb_spec i (length P0)); [|lia].
      destruct (Nat.leb_spec i1 i); [|lia]. destruct (Nat.ltb_spec i (S i)); [|lia]. cbn [andb].
      rewrite (H2 i). destruct (Nat.leb_spec i1 i); [|lia]. destruct (Nat.ltb_spec i i); [lia|]. reflexivity.
    + rewrite nth_upd. destruct (Nat.eqb_spec i j); [lia|]. cbn [andb]. rewrite H2.
      destruct (Nat.leb_spec i1 j), (Nat.ltb_spec j i), (Nat.ltb_spec j (S i)); try lia; reflexivity.
  - exists P'. auto.
Qed.
End AtR.
