(** Wrappers and literal cases for the statements about shaping. *)
From Coq Require Import List Arith Reals Lia Lra Bool.
From Verif Require Import Model_Base Model_Knots Model_Basis Model_Curve Model_Interp Model_Surface Model_Skin Model_Shape
  Spec_Base Spec_Basis Spec_Eval Spec_Class Spec_Surface Spec_Interp Spec_Solve Spec_Shape
  Proof_Base Proof_Blossom Proof_Basis Proof_Ders Proof_Interp Proof_Invariant Proof_Json Proof_Gauss Proof_PropCurve
  Proof_Shape1 Proof_Shape2 Proof_Shape3 Proof_Shape4 Proof_Shape5 Proof_Shape6 Proof_Shape7 Proof_Shape8 Proof_Shape9.
Import ListNotations.
Local Open Scope R_scope.

(** ** Refutations *)
Lemma constraints_refuted eps c (lu llt : @solver R) dim x u v co : shapeable eps c -> complete_solver lu -> complete_solver llt ->
  c_lo c <= u <= c_hi c -> @value R (NumR eps) c u 0 = Ok v -> (co < dim)%nat -> v co <> 0 ->
  exists c', @moved_to_constraints R (NumR eps) lu llt dim c [mkcp x u 0%nat] false = Ok c' /\ ~ passes eps dim c' u 0 x.
Proof.
  intros Hc Hlu Hllt Hu Ev Hco Hne. destruct (constraints_shift eps c Hc lu llt dim x u v Hlu Hllt Hu Ev) as (c' & E & z & Ez & Vz).
  exists c'. split; [exact E|]. intros (z' & Ez' & Vz'). rewrite Ez in Ez'. injection Ez' as <-.
  specialize (Vz co Hco). specialize (Vz' co Hco). unfold padd in Vz. rewrite Vz' in Vz. change (x co = v co + x co) in Vz. lra.
Qed.
Lemma two_poles_refuted eps c (lu llt : @solver R) dim x u v co : shapeable eps c -> complete_solver llt ->
  c_lo c <= u <= c_hi c -> length (c_poles c) = 2%nat -> @value R (NumR eps) c u 0 = Ok v -> (co < dim)%nat -> v co <> x co ->
  @moved_to_point R (NumR eps) lu llt dim c x u true = Ok c /\ ~ passes eps dim c u 0 x.
Proof.
  intros Hc Hllt Hu Hn Ev Hco Hne. split; [exact (two_poles eps c Hc lu llt dim x u Hllt Hu Hn)|].
  intros (z & Ez & Vz). rewrite Ev in Ez. injection Ez as <-. exact (Hne (Vz co Hco)).
Qed.

(** ** A literal curve *)
Lemma lit_sep (l : list R) e : (forall i, (S i < length l)%nat -> kn l i = kn l (S i) \/ e < kn l (S i) - kn l i) ->
  0 < e -> separated e l.
Proof.
  intros H He i j Hij. induction Hij as [|j Hij IH]; intros Hj; [left; reflexivity|].
  specialize (IH ltac:(lia)). specialize (H j Hj). destruct H as [H|H], IH as [IH|IH]; [left; congruence|right; lra|right; lra|right; lra].
Qed.
Lemma ex_shapeable : shapeable (1 / 1000) ex_c.
Proof.
  split; [exact ex_c_std|]. split; [exact (proj1 (proj2 ex_c_wf))|]. split; [|lra]. apply lit_sep; [|lra].
  intros i Hi. unfold ex_c, c_knots in *.
  repeat (destruct i as [|i]; [unfold kn; cbn; first [left; reflexivity|right; lra]|]). cbn in Hi. lia.
Qed.
Lemma ex_movable : movable ex_c (3 / 2) true.
Proof.
  pose proof ex_shapeable as Hc. assert (Hu : c_lo ex_c <= 3 / 2 <= c_hi ex_c) by (cbn; lra).
  destruct (span_range (1 / 1000) ex_c Hc (3 / 2) Hu) as (_ & Hl & K1 & K2).
  set (l := spn (1 / 1000) (c_knots ex_c) (length (c_poles ex_c)) (c_deg ex_c) (3 / 2)) in *.
  assert (El : l = 3%nat).
  { cbn [ex_c c_deg c_poles length map seq] in Hl. destruct l as [|[|[|[|[|]]]]]; try lia; unfold kn in K1, K2; cbn in K1, K2; lra. }
  destruct (free_movable (1 / 1000) ex_c Hc (3 / 2) Hu) as (j & Hj & _ & Hne). exists j. split; [exact Hj|]. split; [|exact Hne].
  intros _. rewrite <- (rv_Nbas (1 / 1000) ex_c Hc (3 / 2) j Hu Hj) in Hne. change (length (c_poles ex_c)) with 5%nat in *.
  destruct (Nat.eq_dec j 0) as [-> | H0]; [exfalso; apply Hne; apply rv_low; fold l; rewrite ?El; cbn; lia|].
  destruct (Nat.eq_dec j 4) as [-> | H4]; [exfalso; apply Hne; apply rv_high; fold l; rewrite El; lia|]. lia.
Qed.
Lemma ex_curve_moved x : exists c', @moved_to_point R (NumR (1 / 1000)) gauss gauss 1 ex_c x (3 / 2) true = Ok c'.
Proof.
  apply (point_returns (1 / 1000) ex_c ex_shapeable); [exact gauss_complete|exact gauss_complete|cbn; lra|exact ex_movable].
Qed.

(** ** A literal surface: degrees (2, 2), three poles each way *)
Definition patch : surf R :=
  mks 2 2 (map (fun i _ => INR i) (seq 0 9)) [0; 0; 0; 1; 1; 1] [0; 0; 0; 1; 1; 1] 0 1 0 1.
Lemma k6 : knots_ok [0; 0; 0; 1; 1; 1] 3 2.
Proof.
  split; [reflexivity|]. split; [lia|]. split; [|cbn; lra].
  intros i j Hij Hj. cbn [length] in Hj.
  destruct i as [|[|[|[|[|[|]]]]]], j as [|[|[|[|[|[|]]]]]]; cbn; try lra; lia.
Qed.
Lemma patch_shapeable : shapeable_surface (1 / 1000) patch.
Proof.
  assert (Hsep : separated (1 / 1000) [0; 0; 0; 1; 1; 1]).
  { apply lit_sep; [|lra]. intros i Hi.
    repeat (destruct i as [|i]; [unfold kn; cbn; first [left; reflexivity|right; lra]|]). cbn in Hi. lia. }
  assert (Hcl : clamped [0; 0; 0; 1; 1; 1] 3 2).
  { split; intros i Hi; [destruct i as [|[|[|]]]|destruct i as [|[|[|[|[|[|]]]]]]]; cbn; first [reflexivity|lia]. }
  unfold shapeable_surface. split; [|split; [|split; [lra|]]].
  - split; [exact k6|]. split; [exact k6|]. reflexivity.
  - repeat split; reflexivity.
  - auto.
Qed.
Lemma patch_in : in_surface patch (1 / 2) (1 / 2).
Proof. unfold in_surface, in_rect. cbn. lra. Qed.
Lemma patch_mk : @mk_surf R (NumR (1 / 1000)) (s_poles patch) (s_ku patch) (s_kv patch) (s_degU patch) (s_degV patch) = Ok patch.
Proof.
  rewrite (mk_surf_accepts (1 / 1000)); [reflexivity|cbn; lia|cbn; lia|apply k6|apply k6|reflexivity|reflexivity|reflexivity|reflexivity].
Qed.
Lemma patch_movable : surface_movable patch (1 / 2) (1 / 2) true.
Proof.
  assert (Hin : inside [0; 0; 0; 1; 1; 1] 3 2 (1 / 2)) by (unfold inside; cbn; lra).
  assert (Hm : Nbas (kn [0; 0; 0; 1; 1; 1]) 3 2 1 (1 / 2) <> 0).
  { destruct patch_shapeable as (_ & _ & _ & (_ & Hcl) & _ & Hsep & _).
    rewrite <- (rv_Nb (1 / 1000) [0; 0; 0; 1; 1; 1] 3 2 (1 / 2) 1 k6 Hcl Hsep ltac:(lra) Hin ltac:(lia)).
    destruct (spn_ok (1 / 1000) _ 3 2 k6 (1 / 2) Hin) as (_ & Hl & _).
    unfold rv. replace (spn _ _ _ _ _) with 2%nat by lia. cbn [Nat.leb]. unfold kn. cbn. lra. }
  exists 1%nat, 1%nat. split; [cbn; lia|]. split; [cbn; lia|]. split; [cbn; lia|].
  unfold pole_weight. apply Rmult_integral_contrapositive_currified; exact Hm.
Qed.
Lemma patch_moved x : exists s', @surf_moved_to_point R (NumR (1 / 1000)) gauss gauss 1 patch x (1 / 2) (1 / 2) true = Ok s'.
Proof.
  apply (surf_point_returns (1 / 1000) patch patch_shapeable patch_mk); [exact gauss_complete|exact gauss_complete|exact patch_in|exact patch_movable].
Qed.
