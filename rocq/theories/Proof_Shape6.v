(** Moving the poles of a surface: the matrix, the displaced poles. *)
From Coq Require Import List Arith Reals Lia Lra Bool.
From Verif Require Import Model_Base Model_Knots Model_Basis Model_Curve Model_Interp Model_Surface Model_Skin Model_Shape
  Spec_Base Spec_Basis Spec_Interp Spec_Solve Spec_Surface Proof_Base Proof_Blossom Proof_Basis Proof_Eval Proof_Interp Proof_Interp3
  Proof_Shape1 Proof_Shape2.
Import ListNotations.
Local Open Scope R_scope.

Lemma grid_index a b nu : (0 < nu)%nat -> (a < nu)%nat -> ((a + nu * b) mod nu = a /\ (a + nu * b) / nu = b)%nat.
Proof.
  intros Hn Ha. rewrite Nat.mul_comm. rewrite Nat.mod_add, Nat.div_add by lia.
  rewrite Nat.mod_small, Nat.div_small by exact Ha. split; reflexivity.
Qed.
Lemma grid_inj a b a' b' nu : (a < nu)%nat -> (a' < nu)%nat -> (a + nu * b = a' + nu * b')%nat -> a = a' /\ b = b'.
Proof.
  intros Ha Ha' E. destruct (grid_index a b nu) as (E1 & E2); [lia|exact Ha|].
  destruct (grid_index a' b' nu) as (E3 & E4); [lia|exact Ha'|]. rewrite E in E1, E2. split; congruence.
Qed.
Lemma grid_lt a b nu nv : (a < nu)%nat -> (b < nv)%nat -> (a + nu * b < nu * nv)%nat.
Proof. intros. nia. Qed.

Section AtR.
Variable eps : R.
Local Hint Extern 0 (Num R) => exact (NumR eps) : typeclass_instances.

Section Rows.
Variables (ku kv : list R) (n m p q : nat).
Hypothesis Hku : knots_ok ku n p.
Hypothesis Hkv : knots_ok kv m q.
Hypothesis Hcu : end_clamped ku n p.
Hypothesis Hcv : end_clamped kv m q.
Hypothesis Hsu : separated eps ku.
Hypothesis Hsv : separated eps kv.
Hypothesis He : 0 < eps.
Notation rvu := (rv eps ku n p).
Notation rvv := (rv eps kv m q).

Lemma surf_shape_matrix_ok (cs : list (@scons R)) i1 nu j1 nv : (i1 + nu <= n)%nat -> (j1 + nv <= m)%nat ->
  (forall c, In c cs -> in_rect ku n p kv m q (sc_u c) (sc_v c)) ->
  exists B, surf_shape_matrix cs ku kv p q i1 nu j1 nv = Ok B /\ m_rows B = length cs /\ m_cols B = (nu * nv)%nat /\
    forall r c a b, nth_error cs r = Some c -> (a < nu)%nat -> (b < nv)%nat ->
      m_cell B r (a + nu * b) = rvu (sc_u c) 0 (i1 + a) * rvv (sc_v c) 0 (j1 + b).
Proof.
  intros Hnu Hnv Hin. unfold surf_shape_matrix.
  set (good := fun (B : @mat R) r c a b => m_cell B r (a + nu * b)%nat = rvu (sc_u c) 0 (i1 + a) * rvv (sc_v c) 0 (j1 + b)).
  set (base := fun (i : nat) (B : @mat R) => m_rows B = length cs /\ m_cols B = (nu * nv)%nat /\
    forall r c a b, (r < i)%nat -> nth_error cs r = Some c -> (a < nu)%nat -> (b < nv)%nat -> good B r c a b).
  match goal with |- exists B, for_ _ _ ?bd _ = _ /\ _ => destruct (for_inv base bd 0 (length cs) (mzero (length cs) (nu * nv))) as (B & E & HB) end.
  - split; [reflexivity|]. split; [reflexivity|]. intros; lia.
  - intros i B Hi HB.
    destruct (nth_error cs i) as [c|] eqn:Ec; [|apply nth_error_None in Ec; lia].
    unfold get. rewrite Ec. cbn [bind].
    destruct (Hin c (nth_error_In _ _ Ec)) as [Hu Hv].
    set (J := fun (j : nat) (B : @mat R) => base i B /\
      forall a b, (a < nu)%nat -> (b < nv)%nat -> (j1 + b < j)%nat -> good B i c a b).
    match goal with |- exists s', for_ _ _ ?bd _ = _ /\ _ => destruct (for_inv J bd j1 nv B) as (B' & E' & J1 & J2) end.
    + split; [exact HB|]. intros; lia.
    + intros j B0 Hj (K1 & K2). rewrite (bf_all eps kv m q Hkv Hcv Hsv He) by (auto; lia). cbn [bind].
      set (I := fun (ii : nat) (B : @mat R) => base i B /\
        (forall a b, (a < nu)%nat -> (b < nv)%nat -> (j1 + b < j)%nat -> good B i c a b) /\
        (forall a, (a < nu)%nat -> (i1 + a < ii)%nat -> good B i c a (j - j1)%nat)).
      match goal with |- exists s', for_ _ _ ?bd _ = _ /\ _ => destruct (for_inv I bd i1 nu B0) as (B1 & E1 & I1 & I2 & I3) end.
      * split; [exact K1|]. split; [exact K2|]. intros; lia.
      * intros ii B1 Hii ((L1 & L2 & L3) & M2 & M3). rewrite (bf_all eps ku n p Hku Hcu Hsu He) by (auto; lia). cbn [bind].
        assert (Hcol : (ii - i1 + nu * (j - j1) < nu * nv)%nat) by (apply grid_lt; lia).
        destruct (mset_ok B1 i (ii - i1 + nu * (j - j1)) (nmul (rvu (sc_u c) 0 ii) (rvv (sc_v c) 0 j)) ltac:(lia) ltac:(lia)) as (B2 & E2 & R2 & C2 & V).
        exists B2. split; [exact E2|]. split; [split; [congruence|split; [congruence|]]|split].
        -- intros r c0 a b Hr Hc0 Ha Hb. unfold good. rewrite V. destruct (Nat.eqb_spec r i); [lia|]. cbn [andb]. apply L3; auto.
        -- intros a b Ha Hb Hbj. unfold good. rewrite V, Nat.eqb_refl. cbn [andb].
           destruct (Nat.eqb_spec (a + nu * b) (ii - i1 + nu * (j - j1))) as [Ex|]; [|apply M2; auto].
           apply grid_inj in Ex; lia.
        -- intros a Ha Hai. unfold good. rewrite V, Nat.eqb_refl. cbn [andb].
           destruct (Nat.eqb_spec (a + nu * (j - j1)) (ii - i1 + nu * (j - j1))) as [Ex|Ex].
           ++ nsimp. f_equal; f_equal; lia.
           ++ apply M3; [exact Ha|]. destruct (Nat.eq_dec (i1 + a) ii) as [<-|]; [exfalso; apply Ex; f_equal; lia|lia].
      * exists B1. split; [exact E1|]. split; [exact I1|]. intros a b Ha Hb Hbj.
        destruct (Nat.eq_dec (j1 + b) j) as [Ej|]; [|apply I2; auto; lia].
        replace b with (j - j1)%nat by lia. apply I3; [exact Ha|lia].
    + exists B'. split; [exact E'|]. destruct J1 as (L1 & L2 & L3). split; [exact L1|]. split; [exact L2|].
      intros r c0 a b Hr Hc0 Ha Hb. destruct (Nat.eq_dec r i) as [->|].
      * rewrite Ec in Hc0. injection Hc0 as <-. apply J2; auto. lia.
      * apply L3; auto. lia.
  - exists B. split; [exact E|]. destruct HB as (H1 & H2 & H3). split; [exact H1|]. split; [exact H2|].
    intros r c a b Hc Ha Hb. apply H3; auto. simpl. apply nth_error_Some. congruence.
Qed.
End Rows.

Definition in_win (i1 nu j1 nv i j : nat) : bool :=
  ((i1 <=? i) && (i <? i1 + nu) && ((j1 <=? j) && (j <? j1 + nv)))%nat.
Lemma in_win_iff i1 nu j1 nv i j : in_win i1 nu j1 nv i j = true <-> (i1 <= i < i1 + nu /\ j1 <= j < j1 + nv)%nat.
Proof. unfold in_win. rewrite !andb_true_iff, !Nat.leb_le, !Nat.ltb_lt. tauto. Qed.

Lemma surf_shift_ok (P D : list (pt R)) npu npv i1 nu j1 nv : length P = (npu * npv)%nat ->
  (i1 + nu <= npu)%nat -> (j1 + nv <= npv)%nat -> length D = (nu * nv)%nat ->
  exists P', surf_shift_poles P D npu i1 nu j1 nv = Ok P' /\ length P' = length P /\
    forall i j, (i < npu)%nat -> nth (i + npu * j) P' (fun _ => 0) =
      if in_win i1 nu j1 nv i j
      then padd (nth (i + npu * j) P (fun _ => 0)) (nth (i - i1 + nu * (j - j1)) D (fun _ => 0))
      else nth (i + npu * j) P (fun _ => 0).
Proof.
  intros LP Hnu Hnv LD. unfold surf_shift_poles.
  set (J := fun (jj : nat) (P' : list (pt R)) => length P' = length P /\
    forall i j, (i < npu)%nat -> nth (i + npu * j) P' (fun _ => 0) =
      if in_win i1 nu j1 (jj - j1) i j
      then padd (nth (i + npu * j) P (fun _ => 0)) (nth (i - i1 + nu * (j - j1)) D (fun _ => 0))
      else nth (i + npu * j) P (fun _ => 0)).
  match goal with |- exists P', for_ _ _ ?bd _ = _ /\ _ => destruct (for_inv J bd j1 nv P) as (P' & E & J1 & J2) end.
  - split; [reflexivity|]. intros i j Hi. destruct (in_win i1 nu j1 (j1 - j1) i j) eqn:Ew; [|reflexivity].
    apply in_win_iff in Ew. lia.
  - intros jj P0 Hjj (H1 & H2).
    set (I := fun (ii : nat) (P' : list (pt R)) => length P' = length P /\
      forall i j, (i < npu)%nat -> nth (i + npu * j) P' (fun _ => 0) =
        if (in_win i1 nu j1 (jj - j1) i j || in_win i1 (ii - i1) jj 1 i j)%bool
        then padd (nth (i + npu * j) P (fun _ => 0)) (nth (i - i1 + nu * (j - j1)) D (fun _ => 0))
        else nth (i + npu * j) P (fun _ => 0)).
    match goal with |- exists s', for_ _ _ ?bd _ = _ /\ _ => destruct (for_inv I bd i1 nu P0) as (P1 & E1 & I1 & I2) end.
    + split; [exact H1|]. intros i j Hi. rewrite H2 by exact Hi.
      assert (in_win i1 (i1 - i1) jj 1 i j = false) as ->.
      { destruct (in_win i1 (i1 - i1) jj 1 i j) eqn:Ew; [|reflexivity]. apply in_win_iff in Ew. lia. }
      rewrite orb_false_r. reflexivity.
    + intros ii P1 Hii (K1 & K2).
      assert (Hix : (ii + npu * jj < length P1)%nat) by (rewrite K1, LP; apply grid_lt; lia).
      rewrite (get_nth (A := pt R) P1 _ (fun _ => 0)) by exact Hix. cbn [bind].
      assert (Hdx : (ii - i1 + nu * (jj - j1) < length D)%nat) by (rewrite LD; apply grid_lt; lia).
      rewrite (get_nth (A := pt R) D _ (fun _ => 0)) by exact Hdx. cbn [bind].
      rewrite (set_ok P1 _ _ Hix). eexists. split; [reflexivity|]. split; [rewrite upd_length; exact K1|].
      intros i j Hi. rewrite nth_upd. destruct (Nat.eqb_spec (ii + npu * jj) (i + npu * j)) as [Ex|Ex].
      * apply grid_inj in Ex as (<- & <-); [|lia|exact Hi].
        destruct (Nat.ltb_spec (ii + npu * jj) (length P1)); [|lia]. cbn [andb].
        rewrite (K2 ii jj) by lia.
        assert (in_win i1 nu j1 (jj - j1) ii jj = false) as ->.
        { destruct (in_win i1 nu j1 (jj - j1) ii jj) eqn:Ew; [|reflexivity]. apply in_win_iff in Ew. lia. }
        assert (in_win i1 (ii - i1) jj 1 ii jj = false) as ->.
        { destruct (in_win i1 (ii - i1) jj 1 ii jj) eqn:Ew; [|reflexivity]. apply in_win_iff in Ew. lia. }
        assert (in_win i1 (S ii - i1) jj 1 ii jj = true) as -> by (apply in_win_iff; lia).
        reflexivity.
      * cbn [andb]. rewrite (K2 i j) by exact Hi.
        assert (in_win i1 (ii - i1) jj 1 i j = in_win i1 (S ii - i1) jj 1 i j) as ->; [|reflexivity].
        apply eq_true_iff_eq. rewrite !in_win_iff. split; [lia|]. intros Hw.
        destruct (Nat.eq_dec i ii) as [->|]; [|lia]. assert (j = jj) as -> by lia. exfalso. apply Ex. reflexivity.
    + exists P1. split; [exact E1|]. split; [exact I1|]. intros i j Hi. rewrite I2 by exact Hi.
      assert ((in_win i1 nu j1 (jj - j1) i j || in_win i1 (i1 + nu - i1) jj 1 i j)%bool = in_win i1 nu j1 (S jj - j1) i j) as ->; [|reflexivity].
      apply eq_true_iff_eq. rewrite orb_true_iff, !in_win_iff. lia.
  - exists P'. split; [exact E|]. split; [exact J1|]. intros i j Hi. rewrite J2 by exact Hi.
    replace (j1 + nv - j1)%nat with nv by lia. reflexivity.
Qed.
End AtR.
