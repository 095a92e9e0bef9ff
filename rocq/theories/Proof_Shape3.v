(** Moving the poles of a curve: constraints met, displacement, misses. *)
From Coq Require Import List Arith Reals Lia Lra Bool.
From Verif Require Import Model_Base Model_Knots Model_Basis Model_Curve Model_Interp Model_Surface Model_Skin Model_Shape
  Spec_Base Spec_Basis Spec_Eval Spec_Class Spec_Surface Spec_Interp Spec_Solve Spec_Shape
  Proof_Base Proof_Blossom Proof_Basis Proof_Eval Proof_PropBasis Proof_Curve Proof_Ctor Proof_Invariant Proof_Interp Proof_Interp2 Proof_Interp3
  Proof_Tfi Proof_SurfEdit2 Proof_Shape1 Proof_Shape2.
Import ListNotations.
Local Open Scope R_scope.

Lemma nth_error_default {A} (l : list A) i d : (i < length l)%nat -> nth_error l i = Some (nth i l d).
Proof. intros H. apply nth_error_nth'. exact H. Qed.

Lemma f2_nth {A B} (Rl : A -> B -> Prop) la lb : Forall2 Rl la lb -> forall r a, nth_error la r = Some a ->
  exists b, nth_error lb r = Some b /\ Rl a b.
Proof.
  induction 1 as [|x y la lb H _ IH]; intros [|r] a E; try discriminate; cbn [nth_error] in *; [injection E as <-; eauto|eauto].
Qed.

Section AtR.
Variable eps : R.
Local Hint Extern 0 (Num R) => exact (NumR eps) : typeclass_instances.

Section Crv.
Variable c : curve R.
Hypothesis Hc : shapeable eps c.
Notation k := (c_knots c).
Notation n := (length (c_poles c)).
Notation p := (c_deg c).

Lemma sh_knots : knots_ok k n p /\ end_clamped k n p /\ separated eps k /\ 0 < eps /\
  c_lo c = kn k p /\ c_hi c = kn k n /\ (1 <= p)%nat.
Proof.
  destruct Hc as (Hs & (N1 & N2) & Hsep & He). destruct (standard_wf c Hs) as (((L & Lp & Nd) & F1 & F2) & (C1 & C2)).
  unfold c_n in *. repeat split; auto.
  - rewrite N1. symmetry. apply C1. lia.
  - rewrite N2. apply C2. lia.
  - destruct Hs as (_ & Hp & _). exact Hp.
Qed.

Lemma sh_inside u : c_lo c <= u <= c_hi c <-> inside k n p u.
Proof. destruct sh_knots as (_ & _ & _ & _ & E1 & E2 & _). unfold inside. rewrite E1, E2. reflexivity. Qed.

Lemma sh_dom : eval_dom eps k n p.
Proof. destruct sh_knots as (_ & H1 & H2 & H3 & _). right. auto. Qed.

Notation rv := (rv eps k n p).

(** Values of any curve with the same knots and degree. *)
Lemma sh_value (c' : curve R) u d : c_deg c' = p -> c_knots c' = k -> bounds c' = bounds c ->
  length (c_poles c') = n -> c_lo c <= u <= c_hi c ->
  exists v, value c' u d = Ok v /\ forall co, v co = sumn n (fun j => rv u d j * nth j (c_poles c') (fun _ => 0) co).
Proof.
  intros E1 E2 E3 E4 Hu. destruct sh_knots as (Hk & _ & _ & He & _).
  destruct (rv_eval eps k n p Hk u d (c_poles c') (proj1 (sh_inside u) Hu) E4 sh_dom) as (v & Ev & V).
  exists v. split; [|exact V]. injection E3 as B1 B2.
  rewrite value_guard_eval by lra. rewrite E1, E2. exact Ev.
Qed.

(** The difference of the values is the row of the window applied to the displacements. *)
Lemma sh_window i1 w (P P' : list (pt R)) u d co : (i1 + w <= n)%nat ->
  (forall j, (j < i1 \/ i1 + w <= j)%nat -> nth j P' (fun _ => 0) co = nth j P (fun _ => 0) co) ->
  sumn n (fun j => rv u d j * nth j P' (fun _ => 0) co) =
  sumn n (fun j => rv u d j * nth j P (fun _ => 0) co) +
  sumn w (fun l => rv u d (i1 + l) * (nth (i1 + l) P' (fun _ => 0) co - nth (i1 + l) P (fun _ => 0) co)).
Proof.
  intros Hw Ho.
  rewrite (sumn_ext n (fun j => rv u d j * nth j P' (fun _ => 0) co)
    (fun j => rv u d j * nth j P (fun _ => 0) co + rv u d j * (nth j P' (fun _ => 0) co - nth j P (fun _ => 0) co))) by (intros; ring).
  rewrite sumn_plus. f_equal.
  rewrite (sumn_window n i1 w); [reflexivity|exact Hw|]. intros j Hj Hout. rewrite Ho by lia. ring.
Qed.

Lemma disp_window i1 w (P P' : list (pt R)) co : length P = n -> (i1 + w <= n)%nat ->
  (forall j, (j < i1 \/ i1 + w <= j)%nat -> nth j P' (fun _ => 0) co = nth j P (fun _ => 0) co) ->
  displacement P P' co = sumn w (fun l => (nth (i1 + l) P' (fun _ => 0) co - nth (i1 + l) P (fun _ => 0) co) ^ 2).
Proof.
  intros L Hw Ho. unfold displacement. rewrite L. rewrite (sumn_window n i1 w); [reflexivity|exact Hw|].
  intros j Hj Hout. rewrite Ho by lia. ring.
Qed.

Section Delta.
Variables (lu llt : @solver R) (dim : nat) (goals ds : list (@cpoint R)) (i1 i2 : nat).
Hypothesis Hlu : exact_solver lu.
Hypothesis Hllt : exact_solver llt.
Hypothesis Hi2 : (i2 < n)%nat.
Hypothesis Hin : forall g, In g goals -> c_lo c <= cp_u g <= c_hi c.
Hypothesis Hg : gaps eps c goals ds.

Lemma gaps_nth r g : nth_error goals r = Some g -> exists d, nth_error ds r = Some d /\
  cp_u d = cp_u g /\ cp_d d = cp_d g /\
  forall co, cp_v d co = cp_v g co - sumn n (fun j => rv (cp_u g) (cp_d g) j * nth j (c_poles c) (fun _ => 0) co).
Proof.
  intros Hr. assert (Hi : c_lo c <= cp_u g <= c_hi c) by (apply Hin; eapply nth_error_In; eauto).
  destruct (f2_nth _ _ _ Hg r g Hr) as (d0 & Hd & A & B & v & Ev & V).
  exists d0. split; [exact Hd|]. split; [exact A|]. split; [exact B|]. intros co. rewrite V. f_equal.
  destruct (sh_value c (cp_u g) (cp_d g) eq_refl eq_refl eq_refl eq_refl Hi) as (v' & Ev' & V').
  rewrite Ev in Ev'. injection Ev' as <-. apply V'.
Qed.
Lemma gaps_len : length ds = length goals.
Proof. symmetry. clear Hin. unfold gaps in Hg. induction Hg as [|? ? ? ? ? ? IH]; simpl; auto. Qed.
Lemma gaps_in d : In d ds -> inside k n p (cp_u d).
Proof.
  intros Hd. apply In_nth_error in Hd as (r & Hr).
  destruct (nth_error goals r) as [g|] eqn:Eg.
  - destruct (gaps_nth r g Eg) as (d' & Hd' & E & _). rewrite Hr in Hd'. injection Hd' as <-. rewrite E.
    apply sh_inside, Hin. eapply nth_error_In; eauto.
  - apply nth_error_None in Eg. rewrite <- gaps_len in Eg. apply nth_error_None in Eg. congruence.
Qed.

(** The columns. *)
Lemma delta_core P' : move_to_constraints_delta lu llt dim (c_poles c) ds k p i1 i2 = Ok P' ->
  exists w B, (i1 + w = i2 + 1)%nat /\ shape_matrix ds k p i1 w = Ok B /\
    m_rows B = length goals /\ m_cols B = w /\
    (forall r g l, nth_error goals r = Some g -> (l < w)%nat -> m_cell B r l = rv (cp_u g) (cp_d g) (i1 + l)) /\
    length P' = n /\
    (forall j, (j < i1 \/ i2 < j)%nat -> nth j P' (fun _ => 0) = nth j (c_poles c) (fun _ => 0)) /\
    forall co, (co < dim)%nat -> exists x,
      shape_solve lu llt B (map (fun d => cp_v d co) ds) = Ok x /\ length x = w /\
      forall l, (l < w)%nat -> nth (i1 + l) P' (fun _ => 0) co - nth (i1 + l) (c_poles c) (fun _ => 0) co = nth l x 0.
Proof.
  intros E. destruct sh_knots as (Hk & Hcl & Hsep & He & _).
  unfold move_to_constraints_delta in E. destruct (bind_inv _ _ _ E) as (w & Ew & E1). clear E.
  unfold subi in Ew. destruct (Nat.leb_spec i1 (i2 + 1)) as [Hle|]; [|discriminate]. injection Ew as Ew.
  destruct (shape_matrix_ok eps k n p Hk Hcl Hsep He ds i1 w ltac:(lia) gaps_in) as (B & EB & RB & CB & VB).
  rewrite EB in E1. cbn [bind] in E1. destruct (bind_inv _ _ _ E1) as (X & EX & E2). clear E1.
  destruct (shift_ok eps (c_poles c) (poles_of_columns w X) i1 w ltac:(lia) (poles_length eps w X)) as (P1 & EP & LP & VP).
  assert (P1 = P') as ->. { pose proof (eq_trans (eq_sym EP) E2) as H. injection H as H. exact H. } clear E2.
  exists w, B. split; [lia|]. split; [exact EB|]. split; [rewrite RB; apply gaps_len|]. split; [exact CB|].
  split.
  { intros r g l Hr Hl. destruct (gaps_nth r g Hr) as (d & Hd & Eu & Ed & _). rewrite (VB r d l Hd Hl), Eu, Ed. reflexivity. }
  split; [exact LP|]. split.
  { intros j Hj. rewrite VP. destruct (Nat.leb_spec i1 j), (Nat.ltb_spec j (i1 + w)); try lia; reflexivity. }
  intros co Hco. destruct (mapM_seq _ _ _ EX) as (LX & HX). destruct (HX co Hco) as (x & Hx & Ex).
  exists x. split; [exact Ex|].
  assert (Lb : length (map (fun d => cp_v d co) ds) = m_rows B) by (rewrite map_length; congruence).
  destruct (shape_solve_ok eps lu llt B _ x Hlu Hllt Lb Ex) as (Lx & _). rewrite CB in Lx. split; [exact Lx|].
  intros l Hl. rewrite VP. destruct (Nat.leb_spec i1 (i1 + l)); [|lia]. destruct (Nat.ltb_spec (i1 + l) (i1 + w)); [|lia].
  cbn [andb]. replace (i1 + l - i1)%nat with l by lia. unfold padd. nsimp.
  pose proof (poles_cell eps w X co l x Hx Hl Lx) as Hp. unfold pole in Hp.
  match goal with |- ?a + ?b - ?a' = _ => change (a + b - a = nth l x 0) end.
  transitivity (nth l (poles_of_columns w X) (fun _ => 0) co); [ring|exact Hp].
Qed.

Lemma delta_ok c' : moved_to_constraints_delta lu llt dim c ds i1 i2 = Ok c' ->
  reshaped c i1 i2 c' /\
  ((length goals <= i2 + 1 - i1)%nat -> meets eps dim c' goals) /\
  ((length goals < i2 + 1 - i1)%nat -> forall c'' co, (co < dim)%nat ->
     reshaped c i1 i2 c'' -> meets eps dim c'' goals ->
     displacement (c_poles c) (c_poles c') co <= displacement (c_poles c) (c_poles c'') co) /\
  ((i2 + 1 - i1 < length goals)%nat -> forall c'' co e e'', (co < dim)%nat ->
     reshaped c i1 i2 c'' -> misses_by eps c' goals co e -> misses_by eps c'' goals co e'' -> e <= e'').
Proof.
  intros E. destruct sh_knots as (Hk & Hcl & Hsep & He & Elo & Ehi & _). pose proof Hk as (Lk & Lp & Nd & _).
  unfold moved_to_constraints_delta in E. destruct (bind_inv _ _ _ E) as (P' & EP & E1). clear E.
  destruct (delta_core P' EP) as (w & B & Hw & EB & RB & CB & VB & LP & Out & Col).
  rewrite (mk_curve_accepts eps k P' p) in E1 by (auto; lia). injection E1 as <-.
  set (c' := mk p P' k (kn k 0) (kn k (length k - 1))).
  assert (Hr : reshaped c i1 i2 c').
  { split; [reflexivity|]. split; [reflexivity|]. split.
    - unfold bounds, c'. cbn [c_lo c_hi]. destruct Hc as (_ & (N1 & N2) & _). rewrite N1, N2. unfold c_n. f_equal. f_equal. lia.
    - split; [exact LP|exact Out]. }
  assert (Out' : forall (c'' : curve R) co j, reshaped c i1 i2 c'' -> (j < i1 \/ i1 + w <= j)%nat ->
            nth j (c_poles c'') (fun _ => 0) co = nth j (c_poles c) (fun _ => 0) co).
  { intros c'' co j (_ & _ & _ & _ & H) Hj. rewrite H by lia. reflexivity. }
  assert (Row : forall (c'' : curve R) r g co, reshaped c i1 i2 c'' -> nth_error goals r = Some g ->
     exists v, value c'' (cp_u g) (cp_d g) = Ok v /\
       v co = sumn n (fun j => rv (cp_u g) (cp_d g) j * nth j (c_poles c) (fun _ => 0) co) +
              row_of B (fun l => nth (i1 + l) (c_poles c'') (fun _ => 0) co - nth (i1 + l) (c_poles c) (fun _ => 0) co) r).
  { intros c'' r g co Hr'' Hg'. pose proof Hr'' as (R1 & R2 & R3 & R4 & R5).
    destruct (sh_value c'' (cp_u g) (cp_d g) R1 R2 R3 R4 (Hin g (nth_error_In _ _ Hg'))) as (v & Ev & V).
    exists v. split; [exact Ev|]. rewrite V, (sh_window i1 w (c_poles c) (c_poles c'')) by (auto; lia).
    f_equal. unfold row_of. rewrite CB. apply sumn_ext. intros l Hl. rewrite (VB r g l Hg' Hl). reflexivity. }
  assert (Rhs : forall r g co, nth_error goals r = Some g ->
     nth r (map (fun d => cp_v d co) ds) 0 = cp_v g co - sumn n (fun j => rv (cp_u g) (cp_d g) j * nth j (c_poles c) (fun _ => 0) co)).
  { intros r g co Hg'. destruct (gaps_nth r g Hg') as (d & Hd & _ & _ & V). rewrite <- V.
    apply nth_error_nth. rewrite (map_nth_error _ _ _ Hd). reflexivity. }
  assert (Lb : forall co, length (map (fun d => cp_v d co) ds) = m_rows B)
    by (intros co; rewrite map_length, RB; apply gaps_len).
  assert (Ew : (i2 + 1 - i1 = w)%nat) by lia. rewrite Ew. clear Ew.
  split; [exact Hr|]. split; [|split].
  - intros Hle g Hgin. apply In_nth_error in Hgin as (r & Hg').
    destruct (Row c' r g 0%nat Hr Hg') as (v & Ev & _). exists v. split; [exact Ev|]. intros co Hco.
    destruct (Row c' r g co Hr Hg') as (v' & Ev' & V). rewrite Ev in Ev'. injection Ev' as <-. rewrite V.
    destruct (Col co Hco) as (x & Ex & Lx & Vx).
    destruct (shape_solve_ok eps lu llt B _ x Hlu Hllt (Lb co) Ex) as (_ & H1 & _).
    assert (Hr' : (r < m_rows B)%nat) by (rewrite RB; apply nth_error_Some; congruence).
    specialize (H1 ltac:(lia) r Hr'). rewrite (Rhs r g co Hg') in H1.
    transitivity (sumn n (fun j => rv (cp_u g) (cp_d g) j * nth j (c_poles c) (fun _ => 0) co) + row_of B (fun l => nth l x 0) r).
    + f_equal. unfold row_of. rewrite CB. apply sumn_ext. intros l Hl. f_equal. apply (Vx l Hl).
    + rewrite H1. ring.
  - intros Hlt c'' co Hco Hr'' Hm. destruct (Col co Hco) as (x & Ex & Lx & Vx).
    destruct (shape_solve_ok eps lu llt B _ x Hlu Hllt (Lb co) Ex) as (_ & _ & H2 & _).
    specialize (H2 ltac:(lia)). rewrite CB, RB in H2.
    rewrite (disp_window i1 w (c_poles c) (c_poles c')), (disp_window i1 w (c_poles c) (c_poles c'')) by (auto; lia).
    rewrite (sumn_ext w (fun l => (nth (i1 + l) (c_poles c') (fun _ => 0) co - _) ^ 2) (fun l => nth l x 0 ^ 2))
      by (intros l Hl; f_equal; apply (Vx l Hl)).
    apply (H2 (fun l => nth (i1 + l) (c_poles c'') (fun _ => 0) co - nth (i1 + l) (c_poles c) (fun _ => 0) co)).
    intros r Hr'. assert (exists g, nth_error goals r = Some g) as (g & Hg').
    { destruct (nth_error goals r) eqn:Eg; [eauto|apply nth_error_None in Eg; lia]. }
    rewrite (Rhs r g co Hg'). destruct (Row c'' r g co Hr'' Hg') as (v & Ev & V).
    destruct (Hm g (nth_error_In _ _ Hg')) as (v' & Ev' & Vg). rewrite Ev in Ev'. injection Ev' as <-.
    rewrite <- (Vg co Hco), V. ring.
  - intros Hgt c'' co e e'' Hco Hr'' (V & HV & ->) (V'' & HV'' & ->). destruct (Col co Hco) as (x & Ex & Lx & Vx).
    destruct (shape_solve_ok eps lu llt B _ x Hlu Hllt (Lb co) Ex) as (_ & _ & _ & H3).
    specialize (H3 ltac:(lia) (fun l => nth (i1 + l) (c_poles c'') (fun _ => 0) co - nth (i1 + l) (c_poles c) (fun _ => 0) co)).
    rewrite RB in H3.
    assert (Term : forall (c1 : curve R) (V1 : nat -> pt R) (y : nat -> R), reshaped c i1 i2 c1 ->
      (forall i g, nth_error goals i = Some g -> value c1 (cp_u g) (cp_d g) = Ok (V1 i)) ->
      (forall l, (l < w)%nat -> nth (i1 + l) (c_poles c1) (fun _ => 0) co - nth (i1 + l) (c_poles c) (fun _ => 0) co = y l) ->
      sumn (length goals) (fun i => (V1 i co - cp_v (nth i goals (mkcp (fun _ => 0) 0 0%nat)) co) ^ 2)
      = sumn (length goals) (fun r => (row_of B y r - nth r (map (fun d => cp_v d co) ds) 0) ^ 2)).
    { intros c1 V1 y Hr1 HV1 Hy. apply sumn_ext. intros i Hi.
      pose proof (nth_error_default goals i (mkcp (fun _ => 0) 0 0%nat) Hi) as Hg'. set (g := nth i goals _) in *.
      destruct (Row c1 i g co Hr1 Hg') as (v & Ev & Vv). rewrite (HV1 i g Hg') in Ev. injection Ev as Ev.
      rewrite (Rhs i g co Hg'). f_equal. rewrite Ev, Vv.
      replace (row_of B y i) with (row_of B (fun l => nth (i1 + l) (c_poles c1) (fun _ => 0) co - nth (i1 + l) (c_poles c) (fun _ => 0) co) i).
      - ring.
      - unfold row_of. rewrite CB. apply sumn_ext. intros l Hl. f_equal. apply (Hy l Hl). }
    rewrite (Term c' V (fun l => nth l x 0) Hr HV Vx).
    rewrite (Term c'' V'' _ Hr'' HV'' (fun l _ => eq_refl)). exact H3.
Qed.
End Delta.
End Crv.
End AtR.
