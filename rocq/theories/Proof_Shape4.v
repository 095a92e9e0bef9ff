(** A curve moved to a point. *)
From Coq Require Import List Arith Reals Lia Lra Bool.
From Verif Require Import Model_Base Model_Knots Model_Basis Model_Curve Model_Interp Model_Surface Model_Skin Model_Shape
  Spec_Base Spec_Basis Spec_Eval Spec_Class Spec_Surface Spec_Interp Spec_Solve Spec_Shape
  Proof_Base Proof_Blossom Proof_Basis Proof_Eval Proof_PropBasis Proof_Curve Proof_Ctor Proof_Invariant Proof_Interp Proof_Interp2 Proof_Interp3
  Proof_Tfi Proof_SurfEdit2 Proof_Shape1 Proof_Shape2 Proof_Shape3.
Import ListNotations.
Local Open Scope R_scope.

Section AtR.
Variable eps : R.
Local Hint Extern 0 (Num R) => exact (NumR eps) : typeclass_instances.

Section Crv.
Variable c : curve R.
Hypothesis Hc : shapeable eps c.
Notation k := (c_knots c).
Notation n := (length (c_poles c)).
Notation p := (c_deg c).
Notation rv := (rv eps k n p).
Notation spn := (spn eps k n p).

Lemma rv_Nbas u j : c_lo c <= u <= c_hi c -> (j < n)%nat -> rv u 0 j = Nbas (kn k) n p j u.
Proof.
  intros Hu Hj. destruct (sh_knots eps c Hc) as (Hk & Hcl & Hsep & He & _).
  apply (sh_inside eps c Hc) in Hu.
  pose proof (bf_all eps k n p Hk Hcl Hsep He u 0 j Hu Hj) as E.
  rewrite (basis_function_correct eps k n p u j Hk Hcl Hsep He Hu Hj) in E. injection E as E. auto.
Qed.

Lemma span_range u : c_lo c <= u <= c_hi c ->
  find_span_range n p u k = Ok ((spn u - p)%nat, spn u) /\ (p <= spn u < n)%nat /\
  kn k (spn u) <= u <= kn k (S (spn u)).
Proof.
  intros Hu. destruct (sh_knots eps c Hc) as (Hk & _). apply (sh_inside eps c Hc) in Hu.
  destruct (spn_ok eps k n p Hk u Hu) as (Ef & Hl & Hs & _). unfold find_span_range. rewrite Ef. cbn [bind].
  split; [|split; [exact Hl|]].
  - destruct (Nat.ltb_spec p (spn u)); [reflexivity|]. replace (spn u - p)%nat with 0%nat by lia. reflexivity.
  - unfold span_at in Hs. unfold inside in Hu. destruct Hs as [[H1 H2]|[H1 H2]]; [lra|]. subst. rewrite H2 in *.
    replace (S (n - 1)) with n in * by lia. destruct Hk as (_ & _ & _ & Hlast). lra.
Qed.

(** The window of moved poles. *)
Definition win1 (keep : bool) (u : R) : nat := if keep then max 1 (spn u - p) else (spn u - p)%nat.
Definition win2 (keep : bool) (u : R) : nat := if keep then min (n - 2) (spn u) else spn u.

Lemma inner_ok keep u : c_lo c <= u <= c_hi c ->
  inner_range keep n (spn u - p) (spn u) = Ok (win1 keep u, win2 keep u) /\ (win2 keep u < n)%nat.
Proof.
  intros Hu. destruct (span_range u Hu) as (_ & Hl & _).
  destruct (sh_knots eps c Hc) as (_ & _ & _ & _ & _ & _ & Hp).
  unfold inner_range, win1, win2. destruct keep; [|split; [reflexivity|lia]].
  unfold subi. destruct (Nat.leb_spec 2 n); [|lia]. split; [reflexivity|lia].
Qed.

Lemma point_delta lu llt dim x u keep v : c_lo c <= u <= c_hi c -> value c u 0 = Ok v ->
  moved_to_point lu llt dim c x u keep =
  moved_to_constraints_delta lu llt dim c [mkcp (psub x v) u 0%nat] (win1 keep u) (win2 keep u).
Proof.
  intros Hu Ev. unfold moved_to_point. destruct (span_range u Hu) as (Er & _). rewrite Er. cbn [bind].
  destruct (inner_ok keep u Hu) as (Ei & _). rewrite Ei. cbn [bind]. rewrite Ev. reflexivity.
Qed.

Lemma point_gaps x u v : value c u 0 = Ok v -> gaps eps c [mkcp x u 0%nat] [mkcp (psub x v) u 0%nat].
Proof.
  intros Ev. constructor; [|constructor]. cbn [cp_u cp_d cp_v]. split; [reflexivity|]. split; [reflexivity|].
  exists v. split; [exact Ev|]. intros co. reflexivity.
Qed.

Lemma rv_window0 keep u j : c_lo c <= u <= c_hi c -> (j < n)%nat ->
  (j < win1 keep u \/ win2 keep u < j)%nat -> (keep = true -> j <> 0 /\ j <> n - 1)%nat -> rv u 0 j = 0.
Proof.
  intros Hu Hj Hw Hke. destruct (span_range u Hu) as (_ & Hl & _).
  assert (Hd : (j < spn u - p \/ spn u < j)%nat).
  { unfold win1, win2 in Hw. destruct keep; [|exact Hw]. destruct (Hke eq_refl). lia. }
  destruct Hd; [apply rv_low; lia|apply rv_high; assumption].
Qed.

Lemma movable_window u keep : c_lo c <= u <= c_hi c -> movable c u keep ->
  exists j, (win1 keep u <= j <= win2 keep u)%nat /\ rv u 0 j <> 0.
Proof.
  intros Hu (j & Hj & Hke & Hne). exists j. rewrite <- rv_Nbas in Hne by auto. split; [|exact Hne].
  destruct (Nat.lt_ge_cases j (win1 keep u)) as [H1|H1]; [|destruct (Nat.lt_ge_cases (win2 keep u) j) as [H2|H2]; [|lia]];
    exfalso; apply Hne; apply (rv_window0 keep u j Hu Hj); auto; intros E; specialize (Hke E); lia.
Qed.

Lemma one_value u : c_lo c <= u <= c_hi c -> exists v, value c u 0 = Ok v /\
  forall co, v co = sumn n (fun j => rv u 0 j * nth j (c_poles c) (fun _ => 0) co).
Proof. intros Hu. exact (sh_value eps c Hc c u 0%nat eq_refl eq_refl eq_refl eq_refl Hu). Qed.

Lemma point_ok lu llt dim x u keep c' : exact_solver lu -> exact_solver llt -> c_lo c <= u <= c_hi c ->
  movable c u keep -> moved_to_point lu llt dim c x u keep = Ok c' ->
  same_frame c keep c' /\ passes eps dim c' u 0 x /\
  (forall j, (u < kn k j \/ kn k (j + p + 1) < u) -> nth j (c_poles c') (fun _ => 0) = nth j (c_poles c) (fun _ => 0)) /\
  forall c'' co, (co < dim)%nat -> same_frame c keep c'' -> passes eps dim c'' u 0 x ->
    displacement (c_poles c) (c_poles c') co <= displacement (c_poles c) (c_poles c'') co.
Proof.
  intros Hlu Hllt Hu Hm E. destruct (one_value u Hu) as (v & Ev & Vv).
  rewrite (point_delta lu llt dim x u keep v Hu Ev) in E.
  destruct (inner_ok keep u Hu) as (_ & Hi2). destruct (span_range u Hu) as (_ & Hl & Hk1 & Hk2).
  destruct (sh_knots eps c Hc) as (Hk & _ & _ & _ & _ & _ & Hp1). pose proof Hk as (Lk & Lp & Nd & _).
  set (goals := [mkcp x u 0%nat]).
  assert (Hin : forall g, In g goals -> c_lo c <= cp_u g <= c_hi c) by (intros g [<-|[]]; exact Hu).
  pose proof (point_gaps x u v Ev) as Hg. fold goals in Hg.
  destruct (movable_window u keep Hu Hm) as (j0 & Hj0 & Hne0).
  destruct (delta_ok eps c Hc lu llt dim goals _ _ _ Hlu Hllt Hi2 Hin Hg c' E) as (Hr & Hmeet & _ & _).
  assert (Hpass : passes eps dim c' u 0 x).
  { specialize (Hmeet ltac:(simpl; lia) (mkcp x u 0%nat) (or_introl eq_refl)). exact Hmeet. }
  destruct Hr as (R1 & R2 & R3 & R4 & R5).
  assert (Hfr : same_frame c keep c').
  { repeat (split; [assumption|]). intros -> j Hj. apply R5. unfold win1, win2.
    destruct Hj as [-> | ->]; [left; lia|right]. destruct Hm as (jm & Hm1 & Hm2 & _). specialize (Hm2 eq_refl). lia. }
  split; [exact Hfr|]. split; [exact Hpass|]. split.
  - intros j Hj. destruct (Nat.lt_ge_cases j n) as [Hjn|Hjn].
    2: { rewrite !nth_overflow by lia. reflexivity. }
    apply R5. destruct (Nat.lt_ge_cases j (win1 keep u)) as [|H1]; [left; assumption|].
    destruct (Nat.lt_ge_cases (win2 keep u) j) as [|H2]; [right; assumption|]. exfalso.
    assert (spn u - p <= j <= spn u)%nat by (unfold win1, win2 in H1, H2; destruct keep; lia).
    assert (kn k j <= kn k (spn u)) by (apply Nd; lia).
    assert (kn k (S (spn u)) <= kn k (j + p + 1)) by (apply Nd; lia). lra.
  - intros c'' co Hco (F1 & F2 & F3 & F4 & F5) (v2 & Ev2 & V2).
    unfold moved_to_constraints_delta in E. destruct (bind_inv _ _ _ E) as (P' & EP & Emk). clear E.
    destruct (delta_core eps c Hc lu llt dim goals _ _ _ Hlu Hllt Hi2 Hin Hg P' EP) as (w & B & Hw & EB & RB & CB & VB & LP & Out & Col).
    rewrite (mk_curve_accepts eps k P' p) in Emk by (auto; lia). injection Emk as <-. cbn [c_poles] in *.
    destruct (Col co Hco) as (xs & Ex & Lx & Vx).
    set (i1 := win1 keep u) in *. set (i2 := win2 keep u) in *.
    assert (RB1 : m_rows B = 1%nat) by exact RB.
    set (bb := map (fun d => cp_v d co) [mkcp (psub x v) u 0%nat]) in *.
    assert (Lb : length bb = m_rows B) by (rewrite RB1; reflexivity).
    set (y := fun l => nth (i1 + l) (c_poles c'') (fun _ => 0) co - nth (i1 + l) (c_poles c) (fun _ => 0) co).
    assert (Hrow : row_of B y 0 = nth 0 bb 0).
    { transitivity (x co - v co); [|reflexivity].
      destruct (sh_value eps c Hc c'' u 0%nat F1 F2 F3 F4 Hu) as (v3 & Ev3 & V3).
      rewrite Ev2 in Ev3. injection Ev3 as <-. rewrite <- (V2 co Hco), V3, Vv.
      unfold row_of. rewrite CB. rewrite <- sumn_minus.
      rewrite (sumn_ext n _ (fun j => rv u 0 j * (nth j (c_poles c'') (fun _ => 0) co - nth j (c_poles c) (fun _ => 0) co))) by (intros; ring).
      rewrite (sumn_window n i1 w); [|lia|].
      - apply sumn_ext. intros l Hl'. rewrite (VB 0%nat (mkcp x u 0%nat) l eq_refl Hl'). reflexivity.
      - intros j Hj Hout. destruct keep.
        + destruct (Nat.eq_dec j 0) as [->|Hj0n]; [rewrite (F5 eq_refl) by auto; ring|].
          destruct (Nat.eq_dec j (n - 1)%nat) as [->|Hjn]; [rewrite (F5 eq_refl) by auto; ring|].
          rewrite (rv_window0 true u j Hu Hj); [ring|unfold i1, i2 in *; lia|auto].
        + rewrite (rv_window0 false u j Hu Hj); [ring|unfold i1, i2 in *; lia|discriminate]. }
    rewrite (disp_window c i1 w (c_poles c) P') by (auto; try lia; intros j Hj; rewrite Out by lia; reflexivity).
    rewrite (sumn_ext w _ (fun l => nth l xs 0 ^ 2)) by (intros l Hl'; f_equal; apply (Vx l Hl')).
    apply Rle_trans with (sumn w (fun l => y l ^ 2)).
    + destruct (shape_solve_ok eps lu llt B bb xs Hlu Hllt Lb Ex) as (_ & S1 & S2 & _). rewrite RB1, CB in *.
      destruct (Nat.lt_ge_cases 1 w) as [Hw2|Hw1].
      * apply (S2 Hw2). intros r Hr'. assert (r = 0)%nat as -> by lia. exact Hrow.
      * assert (Ew : w = 1%nat) by (unfold i1, i2 in *; lia). rewrite Ew in *.
        specialize (S1 ltac:(lia) 0%nat ltac:(lia)). rewrite <- Hrow in S1. unfold row_of in S1. rewrite CB in S1. cbn [sumn] in S1 |- *.
        assert (Hb0 : m_cell B 0 0 <> 0).
        { rewrite (VB 0%nat (mkcp x u 0%nat) 0%nat eq_refl ltac:(lia)). cbn [cp_u cp_d].
          replace (i1 + 0)%nat with j0 by (unfold i1, i2 in *; lia). exact Hne0. }
        assert (nth 0 xs 0 = y 0%nat) as ->. { apply (Rmult_eq_reg_l (m_cell B 0 0)); [lra|exact Hb0]. } lra.
    + unfold displacement.
      apply Rle_trans with (sumn n (fun j => if ((i1 <=? j) && (j <? i1 + w))%nat then (nth j (c_poles c'') (fun _ => 0) co - nth j (c_poles c) (fun _ => 0) co) ^ 2 else 0)).
      * apply Req_le. symmetry. rewrite (sumn_window n i1 w).
        -- apply sumn_ext. intros l Hl'. destruct (Nat.leb_spec i1 (i1 + l)), (Nat.ltb_spec (i1 + l) (i1 + w)); try lia. reflexivity.
        -- lia.
        -- intros j Hj Hout. destruct (Nat.leb_spec i1 j), (Nat.ltb_spec j (i1 + w)); cbn [andb]; try lra; lia.
      * apply sumn_le. intros j Hj. destruct ((i1 <=? j) && (j <? i1 + w))%nat; [lra|apply pow2_ge_0].
Qed.
End Crv.
End AtR.
