(** Surfaces as double sums of collocation rows; grids and constraints interpolate. *)
From Coq Require Import List Arith ZArith Reals Lia Lra Bool.
From Verif Require Import Model_Base Model_Knots Model_Basis Model_Curve Model_Interp Model_Surface Model_Skin
  Spec_Base Spec_Basis Spec_Eval Spec_Interp Spec_Surface Proof_Base Proof_Eval Proof_Band Proof_Interp Proof_Interp4
  Proof_Surface Proof_Tfi.
Import ListNotations.
Local Open Scope R_scope.

Section AtR.
Variable eps : R.
Local Hint Extern 0 (Num R) => exact (NumR eps) : typeclass_instances.

Section Data.
Variables (ku kv : list R) (n m p q : nat).
Hypothesis Hku : knots_ok ku n p.
Hypothesis Hkv : knots_ok kv m q.
Hypothesis Hev : evaluable2 eps ku n p kv m q.
Notation rvu := (rv eps ku n p).
Notation rvv := (rv eps kv m q).

Lemma surf_rv (P : list (pt R)) u v du dv : length P = (n * m)%nat -> in_rect ku n p kv m q u v ->
  exists z, surf_eval u v ku kv P p q du dv = Ok z /\
    forall c, z c = sumn m (fun j => rvv v dv j * sumn n (fun i => rvu u du i * pole P c (i + n * j))).
Proof.
  intros HP Hin. pose proof Hin as [Hu Hv].
  destruct (surf_rows_eval eps ku kv n m p q P (conj Hku (conj Hkv HP)) Hev u v du dv Hin)
    as (z & R0 & z' & E & ER & E' & Hz). exists z. split; [exact E|]. intros c. rewrite <- Hz.
  destruct (mapM_seq _ _ _ ER) as (LR & VR).
  destruct (rv_eval eps kv m q Hkv v dv R0 Hv LR (ev2_2 _ _ _ _ _ _ _ Hev)) as (z1 & E1 & V1).
  rewrite E' in E1. injection E1 as <-. rewrite V1. apply sumn_ext. intros j Hj. f_equal.
  destruct (VR j Hj) as (b & Hb & Eb). unfold pole at 1. rewrite (nth_error_nth _ _ _ Hb).
  destruct (rv_eval eps ku n p Hku u du (row P n j) Hu (row_length n P j) (ev2_1 _ _ _ _ _ _ _ Hev)) as (b' & Eb' & Vb).
  rewrite Eb in Eb'. injection Eb' as <-. rewrite Vb. apply sumn_ext. intros i Hi. f_equal.
  apply pole_row. exact Hi.
Qed.
End Data.

(** ** The matrices *)
Lemma row_matrix_ok (k u : list R) n p : knots_ok k n p -> evaluable eps k n p ->
  (forall x, In x u -> kn k p <= x <= kn k n) ->
  exists N, row_matrix k u p n = Ok N /\ m_rows N = length u /\ m_cols N = n /\
    forall i b, (i < length u)%nat -> m_cell N i b = rv eps k n p (nth i u 0) 0 b.
Proof.
  intros Hk Hd Hu. unfold row_matrix.
  destruct (for_inv (fun a N => m_rows N = length u /\ m_cols N = n /\
     (forall i b, (i < a)%nat -> m_cell N i b = rv eps k n p (nth i u 0) 0 b) /\
     (forall i b, (a <= i)%nat -> m_cell N i b = 0))
    (fun i N => let* ui := get u i in fill_basis_row N i ui k p 0) 0 (length u) (mzero (length u) n)) as (N & E & H).
  - split; [reflexivity|]. split; [reflexivity|]. split; [intros; lia|]. reflexivity.
  - intros i N Hi (R1 & C1 & V1 & Z1). rewrite (get_nth _ _ 0) by lia. cbn [bind].
    destruct (fill_row_ok eps k n p Hk N i (nth i u 0) 0) as (N' & E' & R' & C' & V');
      [apply Hu, nth_In; lia|exact Hd|lia|exact C1|intros; apply Z1; lia|].
    exists N'. split; [exact E'|]. split; [congruence|]. split; [exact C'|]. split.
    + intros a b Ha. rewrite V'. destruct (Nat.eqb_spec a i) as [->|]; [reflexivity|]. apply V1. lia.
    + intros a b Ha. rewrite V'. destruct (Nat.eqb_spec a i) as [->|]; [lia|]. apply Z1. lia.
  - exists N. destruct H as (H1 & H2 & H3 & H4). auto.
Qed.

(** ** Two families of solves *)
Lemma two_solves_ok (lu : @solver R) (Cu Cv : @mat R) cols X : exact_solver lu ->
  m_cols Cu = m_rows Cu -> m_cols Cv = m_rows Cv ->
  length cols = m_rows Cv -> (forall c, In c cols -> length c = m_rows Cu) ->
  two_solves lu Cu Cv cols (m_rows Cu) = Ok X ->
  length X = m_rows Cu /\ (forall r, In r X -> length r = m_rows Cv) /\
  forall i j, (i < m_rows Cu)%nat -> (j < m_rows Cv)%nat ->
    sumn (m_rows Cu) (fun i' => m_cell Cu i i' * sumn (m_rows Cv) (fun j' => m_cell Cv j j' * nth j' (nth i' X []) 0))
    = nth i (nth j cols []) 0.
Proof.
  intros Hex HCu HCv Lc Hc E. unfold two_solves in E. apply bind_inv in E as (A & EA & EX).
  destruct (mapM_nth _ _ _ EA) as (LA & HA). destruct (mapM_seq _ _ _ EX) as (LX & HX).
  assert (HAj : forall j, (j < m_rows Cv)%nat ->
    solves (m_rows Cu) (m_rows Cu) (m_cell Cu) (nth j A []) (nth j cols [])).
  { intros j Hj. destruct (HA j (nth j cols [])) as (b & Hb & Eb); [apply nth_error_nth'; lia|].
    rewrite (nth_error_nth _ _ [] Hb).
    assert (HI : In (nth j cols []) cols) by (apply nth_In; lia).
    pose proof (Hex _ _ _ Eb (Hc _ HI)) as S. rewrite HCu in S. exact S. }
  assert (HXi : forall i, (i < m_rows Cu)%nat ->
    solves (m_rows Cv) (m_rows Cv) (m_cell Cv) (nth i X []) (map (fun j => nth i (nth j A []) 0) (seq 0 (m_rows Cv)))).
  { intros i Hi. destruct (HX i Hi) as (b & Hb & Eb). rewrite (nth_error_nth _ _ [] Hb).
    apply bind_inv in Eb as (r & Er & Eb). destruct (mapM_nth _ _ _ Er) as (Lr & Hr).
    assert (Eqr : r = map (fun j => nth i (nth j A []) 0) (seq 0 (m_rows Cv))).
    { apply (nth_ext _ _ 0 0); [rewrite map_length, seq_length; lia|]. intros j Hj.
      destruct (Hr j (nth j A [])) as (x & Hx & Ex); [apply nth_error_nth'; lia|].
      rewrite (nth_error_nth _ _ 0 Hx), nth_map_seq by lia.
      destruct (HAj j ltac:(lia)) as (LAj & _). rewrite (get_nth _ _ 0) in Ex by lia. congruence. }
    subst r. pose proof (Hex _ _ _ Eb ltac:(rewrite map_length, seq_length; reflexivity)) as S. rewrite HCv in S. exact S. }
  split; [exact LX|]. split.
  { intros r Hr. apply (In_nth _ _ []) in Hr as (i & Hi & <-). exact (proj1 (HXi i ltac:(lia))). }
  intros i j Hi Hj. destruct (HAj j Hj) as (_ & _ & S). rewrite <- S by exact Hi. apply sumn_ext. intros i' Hi'. f_equal.
  destruct (HXi i' Hi') as (_ & _ & S'). rewrite S' by exact Hj. rewrite nth_map_seq by exact Hj. reflexivity.
Qed.

Lemma grids_length nu nv (X : list (list (list R))) : length (poles_of_grids nu nv X) = (nu * nv)%nat.
Proof. unfold poles_of_grids. rewrite map_length, seq_length. reflexivity. Qed.
Lemma grids_pole nu nv (X : list (list (list R))) c i j : (i < nu)%nat -> (j < nv)%nat -> (c < length X)%nat ->
  (i < length (nth c X []))%nat -> (j < length (nth i (nth c X []) []))%nat ->
  pole (poles_of_grids nu nv X) c (i + nu * j) = nth j (nth i (nth c X []) []) 0.
Proof.
  intros Hi Hj Hc H1 H2. unfold pole, poles_of_grids. rewrite nth_map_seq by nia.
  rewrite (nth_error_nth' X []) by exact Hc.
  replace ((i + nu * j) mod nu)%nat with i by (rewrite Nat.mul_comm, Nat.mod_add, Nat.mod_small; lia).
  replace ((i + nu * j) / nu)%nat with j by (rewrite Nat.mul_comm, Nat.div_add, Nat.div_small; lia).
  rewrite (nth_error_nth' _ []) by exact H1. rewrite (nth_error_nth' _ 0) by exact H2. reflexivity.
Qed.

Lemma grid_poles_ok lu dim (Q : list (pt R)) (ku kv u v : list R) p q P : exact_solver lu ->
  knots_ok ku (length u) p -> knots_ok kv (length v) q -> evaluable2 eps ku (length u) p kv (length v) q ->
  (forall x, In x u -> kn ku p <= x <= kn ku (length u)) -> (forall x, In x v -> kn kv q <= x <= kn kv (length v)) ->
  grid_poles lu dim Q ku kv u v p q = Ok P ->
  length Q = (length u * length v)%nat /\ length P = (length u * length v)%nat /\
  forall i j, (i < length u)%nat -> (j < length v)%nat ->
    exists z, surf_eval (nth i u 0) (nth j v 0) ku kv P p q 0 0 = Ok z /\
      forall c, (c < dim)%nat -> z c = nth (i + length u * j) Q (fun _ => 0) c.
Proof.
  intros Hex Hku Hkv Hev Hu Hv E. unfold grid_poles in E.
  destruct (Nat.eqb_spec (length Q) (length u * length v)) as [LQ|]; [|discriminate]. cbn [negb] in E.
  destruct (row_matrix_ok ku u (length u) p Hku (ev2_1 _ _ _ _ _ _ _ Hev) Hu) as (Mu & EMu & RMu & CMu & VMu).
  destruct (row_matrix_ok kv v (length v) q Hkv (ev2_2 _ _ _ _ _ _ _ Hev) Hv) as (Mv & EMv & RMv & CMv & VMv).
  rewrite EMu, EMv in E. cbn [bind] in E. apply bind_inv in E as (X & EX & E). injection E as <-.
  split; [exact LQ|]. split; [apply grids_length|]. intros i j Hi Hj.
  destruct (surf_rv ku kv _ _ p q Hku Hkv Hev (poles_of_grids (length u) (length v) X) (nth i u 0) (nth j v 0) 0 0)
    as (z & Ez & Vz).
  { apply grids_length. } { split; [apply Hu|apply Hv]; apply nth_In; assumption. }
  exists z. split; [exact Ez|]. intros c Hc. rewrite Vz.
  destruct (mapM_seq _ _ _ EX) as (LX & HX). destruct (HX c Hc) as (Xc & HXc & EXc).
  apply bind_inv in EXc as (cols & Ecols & EXc).
  assert (Hcols : length cols = length v /\ (forall b, In b cols -> length b = length u) /\
    forall a b, (a < length u)%nat -> (b < length v)%nat ->
      nth a (nth b cols []) 0 = nth (a + length u * b) Q (fun _ => 0) c).
  { destruct (mapM_seq _ _ _ Ecols) as (L1 & H1).
    assert (H2 : forall b, (b < length v)%nat -> length (nth b cols []) = length u /\
      forall a, (a < length u)%nat -> nth a (nth b cols []) 0 = nth (a + length u * b) Q (fun _ => 0) c).
    { intros b Hb. destruct (H1 b Hb) as (col & Hcol & Ecol). rewrite (nth_error_nth _ _ [] Hcol).
      destruct (mapM_seq _ _ _ Ecol) as (L2 & H2). split; [exact L2|]. intros a Ha.
      destruct (H2 a Ha) as (x & Hx & Ex). rewrite (nth_error_nth _ _ 0 Hx).
      cbv beta in Ex. rewrite (get_nth Q _ (fun _ => 0)) in Ex by nia. cbn [bind] in Ex. congruence. }
    split; [exact L1|]. split; [|intros a b Ha Hb; apply H2; assumption].
    intros b Hb. apply (In_nth _ _ []) in Hb as (b0 & Hb0 & <-). apply H2. lia. }
  destruct Hcols as (Lcols & Hcl & Hcv).
  assert (EXc' : two_solves lu Mu Mv cols (m_rows Mu) = Ok Xc) by (rewrite RMu; exact EXc).
  destruct (two_solves_ok lu Mu Mv cols Xc Hex) as (LXc & HXr & HS); try congruence.
  { rewrite RMu. exact Hcl. }
  rewrite RMu, RMv in *. rewrite <- Hcv by assumption. rewrite <- (HS i j Hi Hj).
  assert (Hp : forall i' j', (i' < length u)%nat -> (j' < length v)%nat ->
    pole (poles_of_grids (length u) (length v) X) c (i' + length u * j') = nth j' (nth i' Xc []) 0).
  { intros i' j' Hi' Hj'. assert (Ec : nth c X [] = Xc) by (apply nth_error_nth; exact HXc).
    rewrite grids_pole; rewrite ?Ec; try lia; [reflexivity|].
    rewrite (HXr (nth i' Xc [])); [exact Hj'|apply nth_In; lia]. }
  rewrite (sumn_ext (length v) _ (fun j' => sumn (length u) (fun i' =>
    m_cell Mu i i' * (m_cell Mv j j' * nth j' (nth i' Xc []) 0)))).
  2:{ intros j' Hj'. rewrite <- sumn_scal. apply sumn_ext. intros i' Hi'. rewrite Hp by assumption.
      rewrite VMu, VMv by assumption. ring. }
  rewrite sumn_swap. apply sumn_ext. intros i' Hi'. rewrite sumn_scal. reflexivity.
Qed.
End AtR.
