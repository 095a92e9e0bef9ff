(** Lofts approximated along a spine: the sections are reproduced when the knots let them be. *)
From Coq Require Import List Arith ZArith Reals Lia Lra Bool.
From Verif Require Import Model_Base Model_Knots Model_Math Model_Basis Model_Curve Model_Interp Model_Surface Model_Unify Model_Skin Model_Spine
  Spec_Base Spec_Basis Spec_Eval Spec_Knots Spec_Interp Spec_Surface Spec_Unify Spec_Approx Spec_Solve Spec_Skin Spec_Spine Spec_Loftapprox
  Proof_Base Proof_Eval Proof_Interp Proof_Interp3 Proof_Interp4 Proof_Ctor Proof_Builders Proof_Surface Proof_SurfEdit2 Proof_Surface2 Proof_Surface3 Proof_Json Proof_Text Proof_Lsq
  Proof_Gauss Proof_Skin1 Proof_Skin2 Proof_Skin3 Proof_Skin6 Proof_Skin7 Proof_Skin9 Proof_Spine1 Proof_Spine2 Proof_Spine4 Proof_Spine5 Proof_Loftapprox Proof_Loftapprox2.
Import ListNotations.
Local Open Scope R_scope.

Section AtR.
Variable eps : R.
Local Hint Extern 0 (Num R) => exact (NumR eps) : typeclass_instances.

Section Data.
Variables (ku kv : list R) (nu nv p q : nat).
Hypothesis Hku : knots_ok ku nu p.
Hypothesis Hkv : knots_ok kv nv q.
Hypothesis Hev : evaluable2 eps ku nu p kv nv q.
Notation rvu := (rv eps ku nu p).
Notation rvv := (rv eps kv nv q).

(** Parameters, as many as poles, that determine the poles: any values can be met. *)
Lemma square_meets (v : list R) (y : nat -> R) : length v = nv -> (forall x, In x v -> kn kv q <= x <= kn kv nv) -> resolve eps kv nv q v ->
  exists x : nat -> R, forall j, (j < nv)%nat -> sumn nv (fun b => rvv (nth j v 0) 0 b * x b) = y j.
Proof.
  intros Lv Hv Hr. set (N := mkmat nv nv (fun j b => rvv (nth j v 0) 0 b)).
  destruct gauss_complete as (Hex & Hco).
  destruct (Hco N (map y (seq 0 nv)) eq_refl) as (x & Ex).
  { rewrite map_length, seq_length. reflexivity. }
  { cbn [N m_rows m_cell]. intros x Z0 j Hj. set (P := map (fun j _ => x j) (seq 0 nv) : list (pt R)).
    assert (LP : length P = nv) by (unfold P; rewrite map_length, seq_length; reflexivity).
    assert (HP : forall l, (l < nv)%nat -> nth l P (fun _ => 0) 0%nat = x l) by (intros l Hl; unfold P; rewrite nth_map_seq by exact Hl; reflexivity).
    rewrite <- (HP j Hj). apply Hr; [exact LP| |exact Hj]. intros z Hz.
    destruct (rv_eval eps kv nv q Hkv z 0 P (Hv z Hz) LP (ev2_2 eps _ _ _ _ _ _ Hev)) as (w & Ew & Vw). exists w. split; [exact Ew|]. rewrite Vw.
    apply (In_nth _ _ 0) in Hz as (r & Hrr & <-). refine (eq_trans _ (Z0 r ltac:(lia))). apply sumn_ext. intros l Hl. unfold pole. rewrite HP by assumption. reflexivity. }
  pose proof (Hex N _ x Ex ltac:(rewrite map_length, seq_length; reflexivity)) as S. cbn [N m_rows m_cols m_cell] in S.
  destruct S as (Lx & _ & S). exists (fun b => nth b x 0). intros j Hj.
  assert (HS := S j Hj). rewrite nth_map_seq in HS by exact Hj. exact HS.
Qed.

(** The least squares surface of the points of splines on these knots carries the splines. *)
Lemma lsq_rows (Q P : list (pt R)) (u v : list R) c (rows : nat -> nat -> R) : length v = nv -> length P = (nu * nv)%nat ->
  (forall x, In x u -> kn ku p <= x <= kn ku nu) -> (forall x, In x v -> kn kv q <= x <= kn kv nv) ->
  resolve eps ku nu p u -> resolve eps kv nv q v ->
  (forall P', length P' = (nu * nv)%nat -> exists e e' : nat -> nat -> R,
    (forall i j, (i < length u)%nat -> (j < length v)%nat ->
       gap eps ku kv P p q (nth i u 0) (nth j v 0) 0 0 (nth (i + length u * j) Q (fun _ => 0)) c (e i j) /\
       gap eps ku kv P' p q (nth i u 0) (nth j v 0) 0 0 (nth (i + length u * j) Q (fun _ => 0)) c (e' i j)) /\
    sumn (length v) (fun j => sumn (length u) (fun i => e i j ^ 2)) <= sumn (length v) (fun j => sumn (length u) (fun i => e' i j ^ 2))) ->
  (forall i j, (i < length u)%nat -> (j < nv)%nat -> nth (i + length u * j) Q (fun _ => 0) c = sumn nu (fun a => rvu (nth i u 0) 0 a * rows j a)) ->
  forall a j, (a < nu)%nat -> (j < nv)%nat -> sumn nv (fun b => rvv (nth j v 0) 0 b * pole P c (a + nu * b)) = rows j a.
Proof.
  intros Lv LP Hu Hv Ru Rv HP HQ.
  assert (Hnu : (0 < nu)%nat) by (destruct Hku as (_ & H & _); lia).
  assert (X : forall n, exists x : nat -> nat -> R, forall a, (a < n)%nat -> forall j, (j < nv)%nat -> sumn nv (fun b => rvv (nth j v 0) 0 b * x a b) = rows j a).
  { induction n as [|n IH]; [exists (fun _ _ => 0); intros; lia|].
    destruct IH as (x & Hx). destruct (square_meets v (fun j => rows j n) Lv Hv Rv) as (y & Hy).
    exists (fun a => if (a =? n)%nat then y else x a). intros a Ha j Hj. destruct (Nat.eqb_spec a n) as [->|]; [apply Hy; exact Hj|apply Hx; [lia|exact Hj]]. }
  destruct (X nu) as (x & Hx).
  set (P' := map (fun ix (_ : nat) => x (ix mod nu)%nat (ix / nu)%nat) (seq 0 (nu * nv)) : list (pt R)).
  assert (LP' : length P' = (nu * nv)%nat) by (unfold P'; rewrite map_length, seq_length; reflexivity).
  assert (VP : forall a b, (a < nu)%nat -> (b < nv)%nat -> pole P' c (a + nu * b) = x a b).
  { intros a b Ha Hb. unfold pole, P'. rewrite nth_map_seq by nia.
    replace ((a + nu * b) mod nu)%nat with a by (rewrite Nat.mul_comm, Nat.mod_add, Nat.mod_small; lia).
    replace ((a + nu * b) / nu)%nat with b by (rewrite Nat.mul_comm, Nat.div_add, Nat.div_small; lia). reflexivity. }
  destruct (HP P' LP') as (e & e' & G & M).
  assert (GU : forall PP x0 y0 w e1 e2, gap eps ku kv PP p q x0 y0 0 0 w c e1 -> gap eps ku kv PP p q x0 y0 0 0 w c e2 -> e1 = e2).
  { intros PP x0 y0 w e1 e2 (z1 & E1 & ->) (z2 & E2 & ->). rewrite E1 in E2. injection E2 as <-. reflexivity. }
  assert (Z' : forall i j, (i < length u)%nat -> (j < nv)%nat -> e' i j = 0).
  { intros i j Hi Hj. destruct (G i j Hi ltac:(lia)) as (_ & G').
    rewrite (GU _ _ _ _ _ _ G' (gap_grid eps ku kv nu nv p q Hku Hkv Hev P' Q u v c LP' Hu Hv i j Hi ltac:(lia))). rewrite HQ by assumption.
    apply Rminus_diag_eq. rewrite (sumn_ext nv _ (fun b => rvv (nth j v 0) 0 b * sumn nu (fun a => rvu (nth i u 0) 0 a * x a b))).
    2:{ intros b Hb. f_equal. apply sumn_ext. intros a Ha. rewrite VP by assumption. reflexivity. }
    rewrite (sumn_cross nv nu). apply sumn_ext. intros a Ha. f_equal. apply Hx; assumption. }
  assert (Z : forall i j, (i < length u)%nat -> (j < nv)%nat -> e i j = 0).
  { rewrite Lv in M. rewrite (sumn_ext nv (fun j => sumn (length u) (fun i => e' i j ^ 2)) (fun _ => 0)) in M.
    2:{ intros j Hj. apply sumn_zero. intros i Hi. rewrite Z' by assumption. ring. }
    rewrite (sumn_zero nv (fun _ => 0)) in M by reflexivity.
    assert (N1 : forall j, (j < nv)%nat -> 0 <= sumn (length u) (fun i => e i j ^ 2)) by (intros j Hj; apply sumn_nonneg; intros i Hi; apply pow2_ge_0).
    assert (N2 : forall n, (n <= nv)%nat -> 0 <= sumn n (fun j => sumn (length u) (fun i => e i j ^ 2))) by (intros n Hn; apply sumn_nonneg; intros j Hj; apply N1; lia).
    intros i j Hi Hj. apply (sumn_sq_zero (length u) (fun i => e i j)); [|exact Hi].
    clear - M N1 N2 Hj. revert M N1 N2 Hj. generalize nv as n0. induction n0 as [|n IH]; intros M N1 N2 Hj; [lia|]. cbn [sumn] in M. pose proof (N2 n ltac:(lia)). pose proof (N1 n ltac:(lia)).
    destruct (Nat.eq_dec j n) as [->|]; [lra|]. apply IH; [lra| | |lia]; intros; [apply N1|apply N2]; lia. }
  intros a j Ha Hj.
  set (D := map (fun a (_ : nat) => sumn nv (fun b => rvv (nth j v 0) 0 b * pole P c (a + nu * b)) - rows j a) (seq 0 nu) : list (pt R)).
  assert (LD : length D = nu) by (unfold D; rewrite map_length, seq_length; reflexivity).
  assert (HD : forall l, (l < nu)%nat -> nth l D (fun _ => 0) 0%nat = sumn nv (fun b => rvv (nth j v 0) 0 b * pole P c (l + nu * b)) - rows j l)
    by (intros l Hl; unfold D; rewrite nth_map_seq by exact Hl; reflexivity).
  apply Rminus_diag_uniq. rewrite <- (HD a Ha). apply Ru; [exact LD| |exact Ha]. intros z Hz.
  destruct (rv_eval eps ku nu p Hku z 0 D (Hu z Hz) LD (ev2_1 eps _ _ _ _ _ _ Hev)) as (w & Ew & Vw). exists w. split; [exact Ew|]. rewrite Vw.
  apply (In_nth _ _ 0) in Hz as (i & Hi & <-). destruct (G i j Hi ltac:(lia)) as (G1 & _). rewrite (Z i j Hi Hj) in G1.
  pose proof (GU _ _ _ _ _ _ G1 (gap_grid eps ku kv nu nv p q Hku Hkv Hev P Q u v c LP Hu Hv i j Hi ltac:(lia))) as GG. rewrite HQ in GG by assumption.
  rewrite (sumn_cross nv nu) in GG.
  rewrite (sumn_ext nu _ (fun a => rvu (nth i u 0) 0 a * sumn nv (fun b => rvv (nth j v 0) 0 b * pole P c (a + nu * b)) - rvu (nth i u 0) 0 a * rows j a)).
  2:{ intros l Hl. unfold pole at 1. rewrite HD by exact Hl. ring. }
  rewrite sumn_minus. symmetry. exact GG.
Qed.
End Data.
End AtR.
