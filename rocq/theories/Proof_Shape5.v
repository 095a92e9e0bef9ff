(** A curve moved to a point: it is found; what is wrong with constraints and with two poles. *)
From Coq Require Import List Arith Reals Lia Lra Bool.
From Verif Require Import Model_Base Model_Knots Model_Basis Model_Curve Model_Interp Model_Surface Model_Skin Model_Shape
  Spec_Base Spec_Basis Spec_Eval Spec_Class Spec_Surface Spec_Interp Spec_Solve Spec_Shape
  Proof_Base Proof_Blossom Proof_Basis Proof_Eval Proof_PropBasis Proof_Curve Proof_Ctor Proof_Invariant Proof_Interp Proof_Interp2 Proof_Interp3
  Proof_Interp4 Proof_ExBasis Proof_Tfi Proof_SurfEdit2 Proof_Shape1 Proof_Shape2 Proof_Shape3 Proof_Shape4.
Import ListNotations.
Local Open Scope R_scope.

Lemma sumn_nonzero m (f : nat -> R) : sumn m f <> 0 -> exists j, (j < m)%nat /\ f j <> 0.
Proof.
  induction m as [|m IH]; cbn [sumn]; intros H; [lra|].
  destruct (Req_EM_T (f m) 0) as [E|E]; [|exists m; split; [lia|exact E]].
  destruct IH as (j & Hj & Hne); [lra|]. exists j. split; [lia|exact Hne].
Qed.

Section AtR.
Variable eps : R.
Local Hint Extern 0 (Num R) => exact (NumR eps) : typeclass_instances.

Lemma shape_solve_found lu llt (B : @mat R) b l : complete_solver lu -> complete_solver llt -> m_rows B = 1%nat ->
  length b = 1%nat -> (l < m_cols B)%nat -> m_cell B 0 l <> 0 -> exists x, shape_solve lu llt B b = Ok x.
Proof.
  intros Hlu Hllt Hr Lb Hl Hne. destruct (Nat.le_gt_cases 2 (m_cols B)) as [H2|H2].
  - exact (shape_solve_one eps lu llt B b l Hllt Hr H2 Lb Hl Hne).
  - assert (Ec : m_cols B = 1%nat) by lia. assert (l = 0)%nat as -> by lia.
    unfold shape_solve. rewrite Hr, Ec. cbn [Nat.ltb Nat.leb]. destruct Hlu as [_ Hc]. apply Hc.
    + congruence.
    + congruence.
    + rewrite Hr. intros x Hx j Hj. assert (j = 0)%nat as -> by lia. specialize (Hx 0%nat ltac:(lia)). cbn [sumn] in Hx.
      destruct (Rmult_integral (m_cell B 0 0) (x 0%nat)); [lra|contradiction|assumption].
Qed.

Section Crv.
Variable c : curve R.
Hypothesis Hc : shapeable eps c.
Notation k := (c_knots c).
Notation n := (length (c_poles c)).
Notation p := (c_deg c).
Notation rv := (rv eps k n p).
Notation spn := (spn eps k n p).

Lemma free_movable u : c_lo c <= u <= c_hi c -> movable c u false.
Proof.
  intros Hu. destruct (sh_knots eps c Hc) as (Hk & _ & _ & He & _). pose proof (proj1 (sh_inside eps c Hc u) Hu) as Hi.
  destruct (sh_knots eps c Hc) as (_ & Hcl & Hsep & _).
  destruct (basis_function_sum eps k n p u Hk Hcl Hsep He Hi) as (b & Hb & Hs).
  destruct (sumn_nonzero n b) as (j & Hj & Hne); [lra|]. exists j. split; [exact Hj|]. split; [discriminate|].
  pose proof (Hb j Hj) as E. rewrite (basis_function_correct eps k n p u j Hk Hcl Hsep He Hi Hj) in E. injection E as E. congruence.
Qed.

Lemma single_returns lu llt dim (d : @cpoint R) i1 i2 j : complete_solver lu -> complete_solver llt ->
  c_lo c <= cp_u d <= c_hi c -> (i2 < n)%nat -> (i1 <= j <= i2)%nat -> rv (cp_u d) (cp_d d) j <> 0 ->
  exists c', moved_to_constraints_delta lu llt dim c [d] i1 i2 = Ok c'.
Proof.
  intros Hlu Hllt Hu Hi2 Hj Hne. destruct (sh_knots eps c Hc) as (Hk & Hcl & Hsep & He & _). pose proof Hk as (Lk & Lp & Nd & _).
  unfold moved_to_constraints_delta, move_to_constraints_delta, subi.
  destruct (Nat.leb_spec i1 (i2 + 1)); [|lia]. cbn [bind].
  destruct (shape_matrix_ok eps k n p Hk Hcl Hsep He [d] i1 (i2 + 1 - i1) ltac:(lia)) as (B & EB & RB & CB & VB).
  { intros d' [<-|[]]. apply (sh_inside eps c Hc). exact Hu. }
  rewrite EB. cbn [bind].
  destruct (mapM_all_ok (fun co => shape_solve lu llt B (map (fun c0 => cp_v c0 co) [d])) (seq 0 dim)) as (X & EX).
  { intros co _. apply (shape_solve_found lu llt B (map (fun c0 => cp_v c0 co) [d]) (j - i1) Hlu Hllt RB eq_refl); [lia|].
    rewrite (VB 0%nat d (j - i1)%nat eq_refl) by lia. replace (i1 + (j - i1))%nat with j by lia. exact Hne. }
  rewrite EX. cbn [bind].
  destruct (shift_ok eps (c_poles c) (poles_of_columns (i2 + 1 - i1) X) i1 (i2 + 1 - i1) ltac:(lia) (poles_length eps _ X)) as (P1 & EP & LP & _).
  rewrite EP. cbn [bind]. rewrite (mk_curve_accepts eps k P1 p) by (auto; lia). eauto.
Qed.

Lemma point_returns lu llt dim x u keep : complete_solver lu -> complete_solver llt -> c_lo c <= u <= c_hi c ->
  movable c u keep -> exists c', moved_to_point lu llt dim c x u keep = Ok c'.
Proof.
  intros Hlu Hllt Hu Hm. destruct (one_value eps c Hc u Hu) as (v & Ev & _).
  rewrite (point_delta eps c Hc lu llt dim x u keep v Hu Ev).
  destruct (movable_window eps c Hc u keep Hu Hm) as (j & Hj & Hne).
  destruct (inner_ok eps c Hc keep u Hu) as (_ & Hi2).
  exact (single_returns lu llt dim (mkcp (psub x v) u 0%nat) _ _ j Hlu Hllt Hu Hi2 Hj Hne).
Qed.

Lemma in_place lu llt dim x u keep c' : exact_solver lu -> exact_solver llt -> c_lo c <= u <= c_hi c ->
  (move_to_point lu llt dim c x u keep = Ok c' <-> moved_to_point lu llt dim c x u keep = Ok c').
Proof.
  intros Hlu Hllt Hu. unfold move_to_point. destruct (one_value eps c Hc u Hu) as (v & Ev & _).
  destruct (inner_ok eps c Hc keep u Hu) as (_ & Hi2).
  assert (Key : forall c1, moved_to_point lu llt dim c x u keep = Ok c1 -> copyPoles c (c_poles c1) = Ok c1).
  { intros c1 E. rewrite (point_delta eps c Hc lu llt dim x u keep v Hu Ev) in E.
    assert (Hin : forall g, In g [mkcp x u 0%nat] -> c_lo c <= cp_u g <= c_hi c) by (intros g [<-|[]]; exact Hu).
    destruct (delta_ok eps c Hc lu llt dim _ _ _ _ Hlu Hllt Hi2 Hin (point_gaps eps c x u v Ev) c1 E) as ((R1 & R2 & R3 & R4 & _) & _).
    unfold copyPoles. rewrite R4, Nat.eqb_refl. cbn [negb]. destruct c1; cbn in *. injection R3 as -> ->. subst. reflexivity. }
  destruct (moved_to_point lu llt dim c x u keep) as [c1| | |]; cbn [bind]; [rewrite (Key c1 eq_refl); reflexivity| | |]; split; discriminate.
Qed.

(** The constraint is added to the curve instead of being reached. *)
Lemma constraints_shift lu llt dim x u v : complete_solver lu -> complete_solver llt -> c_lo c <= u <= c_hi c ->
  value c u 0 = Ok v ->
  exists c', moved_to_constraints lu llt dim c [mkcp x u 0%nat] false = Ok c' /\
    passes eps dim c' u 0 (padd v x).
Proof.
  intros Hlu Hllt Hu Ev. destruct (span_range eps c Hc u Hu) as (Er & Hl & _).
  destruct (inner_ok eps c Hc false u Hu) as (_ & Hi2).
  destruct (movable_window eps c Hc u false Hu (free_movable u Hu)) as (j & Hj & Hne).
  destruct (single_returns lu llt dim (mkcp x u 0%nat) _ _ j Hlu Hllt Hu Hi2 Hj Hne) as (c' & E).
  exists c'. split.
  - unfold moved_to_constraints, to_delta. cbn [mapM cp_u cp_d]. rewrite Ev. cbn [bind].
    unfold spans_of, subi. destruct (Nat.leb_spec 1 n); [|lia]. cbn [bind foldM cp_u]. rewrite Er. cbn [bind fst snd].
    replace (min (n - 1) (spn u - p)) with (spn u - p)%nat by lia. cbn [Nat.max inner_range bind]. exact E.
  - assert (Hin : forall g, In g [mkcp (padd v x) u 0%nat] -> c_lo c <= cp_u g <= c_hi c) by (intros g [<-|[]]; exact Hu).
    assert (Hg : gaps eps c [mkcp (padd v x) u 0%nat] [mkcp x u 0%nat]).
    { constructor; [|constructor]. cbn [cp_u cp_d cp_v]. split; [reflexivity|]. split; [reflexivity|]. exists v. split; [exact Ev|].
      intros co. unfold padd. nsimp. ring. }
    destruct (delta_ok eps c Hc lu llt dim _ _ _ _ (proj1 Hlu) (proj1 Hllt) Hi2 Hin Hg c' E) as (_ & Hm & _).
    apply (Hm ltac:(unfold win1, win2; simpl; lia) (mkcp (padd v x) u 0%nat)). left. reflexivity.
Qed.

Lemma two_poles lu llt dim x u : complete_solver llt -> c_lo c <= u <= c_hi c -> n = 2%nat ->
  moved_to_point lu llt dim c x u true = Ok c.
Proof.
  intros [He Hcm] Hu Hn. destruct (one_value eps c Hc u Hu) as (v & Ev & _).
  rewrite (point_delta eps c Hc lu llt dim x u true v Hu Ev).
  destruct (span_range eps c Hc u Hu) as (_ & Hl & _). destruct (sh_knots eps c Hc) as (Hk & _ & _ & _ & _ & _ & Hp).
  pose proof Hk as (Lk & Lp & Nd & _).
  assert (E1 : win1 eps c true u = 1%nat) by (unfold win1; lia).
  assert (E2 : win2 eps c true u = 0%nat) by (unfold win2; lia). rewrite E1, E2.
  unfold moved_to_constraints_delta, move_to_constraints_delta. cbn [subi Nat.add Nat.leb Nat.sub bind].
  unfold shape_matrix. cbn [length for_ get nth_error bind].
  destruct (mapM_all_ok (fun co => shape_solve lu llt (mzero 1 0) (map (fun c0 => cp_v c0 co) [mkcp (psub x v) u 0%nat])) (seq 0 dim)) as (X & EX).
  { intros co _. unfold shape_solve. cbn [mzero m_rows m_cols Nat.ltb Nat.leb]. apply Hcm; [reflexivity|reflexivity|].
    cbn [gram mzero m_rows m_cols]. intros y Hy j Hj. lia. }
  match goal with |- context [mapM ?f (seq 0 dim)] => change (mapM f (seq 0 dim)) with (mapM (fun co => shape_solve lu llt (mzero 1 0) (map (fun c0 => cp_v c0 co) [mkcp (psub x v) u 0%nat])) (seq 0 dim)) end.
  rewrite EX. cbn [bind]. unfold shift_poles. cbn [for_ bind].
  rewrite (mk_curve_accepts eps k (c_poles c) p) by (auto; lia).
  destruct Hc as (_ & (N1 & N2) & _). f_equal. destruct c as [pd Ps ks l h]; cbn in *. subst l h. f_equal. f_equal. unfold c_n. cbn. lia.
Qed.
End Crv.
End AtR.
