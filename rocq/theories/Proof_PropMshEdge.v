(** The statements of C93, and literal edges. *)
From Coq Require Import List Arith QArith Reals Lia Lra Bool.
From Verif Require Import Model_Base Model_Knots Model_Curve Model_Vec Model_Math Model_Wrap Model_Interp Model_Analysis Model_Tfi Model_MshEdge
  Spec_Base Spec_Basis Spec_Build Spec_Knots Spec_Eval Spec_Class Spec_Interp Spec_Solve Spec_Analysis Spec_MshEdge
  Proof_Base Proof_Build Proof_Builders Proof_Ctor Proof_Curve Proof_Interp Proof_Interp2 Proof_Interp3 Proof_SW2 Proof_Analysis Proof_Analysis2 Proof_Analysis4 Proof_Gauss Proof_PropAnalysis Proof_MshEdge.
Import ListNotations.
Local Open Scope R_scope.

Section AtR.
Variable eps : R.
Local Hint Extern 0 (Num R) => exact (NumR eps) : typeclass_instances.
Variable sparse : @solver R.

Lemma law_facts len L u1 u2 f : complete_solver sparse -> 0 <= eps -> u1 < u2 -> measures len L u1 u2 -> abs_curv_law sparse len u1 u2 30 3 = Ok f ->
  c_lo f = 0 /\ c_hi f = L u1 u2 /\ 0 < L u1 u2 /\ fvalue f 0 = Ok u1 /\ fvalue f (L u1 u2) = Ok u2.
Proof.
  intros Hs He Hu Hm Ef. destruct (law_ok eps sparse len L u1 u2 30 3 Hs He ltac:(lia) ltac:(lia) Hu Hm) as (f' & Ef' & Hb & Hp).
  rewrite Ef in Ef'. injection Ef' as <-. unfold bounds in Hb. injection Hb as Hb1 Hb2. split; [exact Hb1|]. split; [exact Hb2|].
  pose proof Hm as (M1 & M2 & M3). split; [apply M2; lra|].
  assert (L0 : L u1 u1 = 0) by (pose proof (M3 u1 u1 u1); lra). unfold fvalue. split.
  - destruct (Hp 0%nat ltac:(lia)) as (v & Ev & Hv). rewrite spread_first, L0 in Ev. rewrite Ev. cbn [bind]. rewrite Hv by lia. rewrite spread_first. reflexivity.
  - destruct (Hp 29%nat ltac:(lia)) as (v & Ev & Hv). replace 29%nat with (30 - 1)%nat in Ev, Hv by reflexivity. rewrite spread_last in Ev by lia. rewrite Ev. cbn [bind].
    rewrite Hv by lia. rewrite spread_last by lia. reflexivity.
Qed.

Lemma new_returns len L g u1 u2 : complete_solver sparse -> 0 <= eps -> u1 < u2 -> measures len L u1 u2 ->
  exists e, new_edge_between sparse len g u1 u2 = Ok e /\ edge_points e = [].
Proof.
  intros Hs He Hu Hm. destruct (law_ok eps sparse len L u1 u2 30 3 Hs He ltac:(lia) ltac:(lia) Hu Hm) as (f & Ef & _).
  unfold new_edge_between. rewrite Ef. cbn [bind]. destruct (segment_gen eps (fun _ => 0) (fun _ => 1) 1 He ltac:(lra)) as (c & Ec & _).
  cbn [n0 n1 NumR] in *. eexists. split; [|]. { match goal with |- bind ?x _ = _ => replace x with (Ok c) by (rewrite <- Ec; reflexivity) end. cbn [bind]. reflexivity. } reflexivity.
Qed.

Lemma ends_ok len L g u1 u2 e os e1 e2 : complete_solver sparse -> 0 <= eps -> u1 < u2 -> measures len L u1 u2 ->
  new_edge_between sparse len g u1 u2 = Ok e -> obey_all eps sparse e os = Ok e1 -> compute_pnts e1 = Ok e2 ->
  length (edge_points e2) = asked os 2 /\
  (exists q, nth_error (edge_points e2) 0 = Some q /\ g_value g u1 0%nat = Ok q) /\
  (exists q, nth_error (edge_points e2) (asked os 2 - 1) = Some q /\ g_value g u2 0%nat = Ok q).
Proof.
  intros Hs He Hu Hm En Eo Ec. destruct (new_made eps sparse len g u1 u2 e En) as (f & Ef & Hmade).
  pose proof (obey_made eps sparse g f os e 2 e1 Hmade Eo) as H1. destruct (law_facts len L u1 u2 f Hs He Hu Hm Ef) as (F0 & F1 & FL & V0 & V1).
  destruct (compute_ok eps g f e1 _ e2 H1 Ec) as (_ & Ln & (q0 & N0 & x0 & X0 & G0) & (q1 & N1 & x1 & X1 & G1) & _).
  split; [exact Ln|]. split.
  - exists q0. split; [exact N0|]. rewrite F0 in X0. rewrite X0 in V0. injection V0 as ->. exact G0.
  - exists q1. split; [exact N1|]. rewrite F1 in X1. rewrite X1 in V1. injection V1 as ->. exact G1.
Qed.

Lemma compute_returns g f e n : made eps g f e n -> length (e_pts e) = n -> c_lo f = 0 -> 0 < c_hi f -> walkable eps g f (c_hi f) ->
  (forall i, (0 < i < n - 1)%nat -> exists y, fvalue (e_law e) (INR i / INR (n - 1)) = Ok y /\ 0 <= y <= 1) ->
  exists e', compute_pnts e = Ok e'.
Proof.
  intros (A & B & C & D & P) Ln F0 F1 W Hy. unfold compute_pnts. rewrite C.
  destruct (range_spec eps 0 1 n) as (_ & Hr). destruct (Hr D) as (ksi & Er & Lr & _ & _ & Kr & _). clear Hr.
  change (@make_range R _ n0 n1 n) with (@make_range R (NumR eps) 0 1 n). rewrite Er. cbn [bind].
  destruct (e_pts e) as [|p0 rest] eqn:Ep; [cbn in Ln; lia|]. cbn [front bind]. rewrite A. cbn [reparametrized of_curve g_lo g_hi].
  fold (of_curve f). fold (reparametrized g (of_curve f)).
  destruct (W (c_lo f) ltac:(lra)) as (q0 & Q0). rewrite (reparam0_ok eps g f _ q0 Q0). cbn [bind].
  rewrite set_ok by (rewrite Ln; lia). cbn [bind]. destruct (W (c_hi f) ltac:(lra)) as (q1 & Q1). rewrite (reparam0_ok eps g f _ q1 Q1). cbn [bind].
  rewrite set_ok by (rewrite upd_length, Ln; lia). cbn [bind]. unfold inner_points. rewrite Lr.
  destruct (for_inv (fun _ (st : list (pt R)) => length st = n)
    (fun i st => let* x := get ksi i in let* y := fvalue (e_law e) x in let* p := g_value (e_crv e) (nmul y (e_len e)) 0 in set st i p)
    1 (n - 2) (upd (upd (p0 :: rest) 0 q0) (length (upd (p0 :: rest) 0 q0) - 1) q1)) as (st & Est & _).
  { rewrite !upd_length. exact Ln. }
  { intros i st Hi Hst. destruct (Hy i ltac:(lia)) as (y & Ey & Hy01).
    assert (Eg : get ksi i = Ok (INR i / INR (n - 1))).
    { unfold get. rewrite (nth_error_nth' ksi 0) by lia. f_equal. change (nth i ksi 0) with (kn ksi i). rewrite Kr by lia. unfold Rdiv. ring. }
    rewrite Eg. cbn [bind]. rewrite Ey. cbn [bind]. rewrite A, B.
    destruct (W (y * c_hi f)) as (q & Hq). { split; [apply Rmult_le_pos; lra|]. rewrite <- (Rmult_1_l (c_hi f)) at 2. apply Rmult_le_compat_r; lra. }
    cbn [nmul NumR]. rewrite (reparam0_ok eps g f _ q Hq). cbn [bind]. rewrite set_ok by lia. eexists. split; [reflexivity|]. rewrite upd_length. exact Hst. }
  rewrite Est. cbn [bind]. eexists. reflexivity.
Qed.

Lemma even_ok len L g u1 u2 e f n : complete_solver sparse -> 0 <= eps -> u1 < u2 -> measures len L u1 u2 ->
  new_edge_between sparse len g u1 u2 = Ok e -> abs_curv_law sparse len u1 u2 30 3 = Ok f -> walkable eps g f (L u1 u2) -> (2 <= n)%nat ->
  exists e', compute_pnts (set_n_points e n) = Ok e' /\ length (edge_points e') = n /\
    forall i, (i < n)%nat -> stands eps g f e' i (INR i / INR (n - 1) * L u1 u2).
Proof.
  intros Hs He Hu Hm En Ef W Hn. destruct (new_made eps sparse len g u1 u2 e En) as (f' & Ef' & Hmade). rewrite Ef in Ef'. injection Ef' as <-.
  destruct (law_facts len L u1 u2 f Hs He Hu Hm Ef) as (F0 & F1 & FL & V0 & V1).
  pose proof (set_made eps g f e 2 n Hmade) as H1. destruct (Nat.ltb_spec n 2) as [Hlt|_]; [lia|].
  assert (Hpos : 0 < INR (n - 1)) by (apply (lt_INR 0); lia).
  assert (Hx : forall i, (i < n)%nat -> 0 <= INR i / INR (n - 1) <= 1).
  { intros i Hi. split; [unfold Rdiv; apply Rmult_le_pos; [apply pos_INR|left; apply Rinv_0_lt_compat; exact Hpos]|].
    apply Rmult_le_reg_r with (INR (n - 1)); [exact Hpos|]. unfold Rdiv. rewrite Rmult_assoc, Rinv_l by lra. rewrite Rmult_1_r, Rmult_1_l. apply le_INR. lia. }
  assert (Hl : forall i, (i < n)%nat -> fvalue (e_law (set_n_points e n)) (INR i / INR (n - 1)) = Ok (INR i / INR (n - 1))).
  { intros i Hi. cbn [set_n_points e_law]. apply (first_law eps sparse len g u1 u2 e He En). apply Hx. exact Hi. }
  destruct (compute_returns g f (set_n_points e n) n H1) as (e' & Ec).
  { cbn [set_n_points e_pts]. rewrite repeat_length. lia. } { exact F0. } { rewrite F1; exact FL. } { rewrite F1; exact W. }
  { intros i Hi. eexists. split; [apply Hl; lia|apply Hx; lia]. }
  exists e'. split; [exact Ec|]. destruct (compute_ok eps g f _ n e' H1 Ec) as (_ & Ln & S0 & S1 & SI). split; [exact Ln|].
  rewrite F0, F1 in *. intros i Hi. destruct (Nat.eq_dec i 0) as [->|Hi0]; [replace (INR 0 / INR (n - 1) * L u1 u2) with 0 by (simpl; field; lra); exact S0|].
  destruct (Nat.eq_dec i (n - 1)) as [->|Hi1]; [replace (INR (n - 1) / INR (n - 1) * L u1 u2) with (L u1 u2) by (field; lra); exact S1|].
  destruct (SI i ltac:(lia)) as (y & Ey & Sy). rewrite Hl in Ey by exact Hi. injection Ey as <-. exact Sy.
Qed.

Lemma sizes_ok len L g u1 u2 e f os e1 h1 h2 : complete_solver sparse -> 0 <= eps -> u1 < u2 -> measures len L u1 u2 ->
  new_edge_between sparse len g u1 u2 = Ok e -> abs_curv_law sparse len u1 u2 30 3 = Ok f -> obey_all eps sparse e os = Ok e1 ->
  (4 <= asked os 2)%nat ->
  exists e2, update_law sparse e1 h1 h2 = Ok e2 /\
    forall e3, compute_pnts e2 = Ok e3 -> stands eps g f e3 1 h1 /\ stands eps g f e3 (asked os 2 - 2) (L u1 u2 - h2).
Proof.
  intros Hs He Hu Hm En Ef Eo Hn. destruct (new_made eps sparse len g u1 u2 e En) as (f' & Ef' & Hmade). rewrite Ef in Ef'. injection Ef' as <-.
  pose proof (obey_made eps sparse g f os e 2 e1 Hmade Eo) as H1. destruct (law_facts len L u1 u2 f Hs He Hu Hm Ef) as (F0 & F1 & FL & V0 & V1).
  destruct (law_values eps sparse g f e1 _ h1 h2 Hs He H1 Hn ltac:(lra)) as (e2 & E2 & M2 & _ & A1 & A2). exists e2. split; [exact E2|].
  intros e3 E3. destruct (compute_ok eps g f e2 _ e3 M2 E3) as (_ & _ & _ & _ & SI).
  destruct (SI 1%nat ltac:(lia)) as (y1 & Y1 & S1). destruct (SI (asked os 2 - 2)%nat ltac:(lia)) as (y2 & Y2 & S2).
  rewrite A1 in Y1. rewrite A2 in Y2. injection Y1 as <-. injection Y2 as <-. rewrite F1 in *. split.
  - replace (h1 / L u1 u2 * L u1 u2) with h1 in S1 by (field; lra). exact S1.
  - replace ((1 - h2 / L u1 u2) * L u1 u2) with (L u1 u2 - h2) in S2 by (field; lra). exact S2.
Qed.

Lemma four_ok len L g u1 u2 e f h1 h2 : complete_solver sparse -> 0 <= eps -> u1 < u2 -> measures len L u1 u2 ->
  new_edge_between sparse len g u1 u2 = Ok e -> abs_curv_law sparse len u1 u2 30 3 = Ok f -> walkable eps g f (L u1 u2) ->
  0 <= h1 <= L u1 u2 -> 0 <= h2 <= L u1 u2 ->
  exists e', obey_all eps sparse e [AskN 4; AskSizes h1 h2; AskPoints] = Ok e' /\ length (edge_points e') = 4%nat /\
    stands eps g f e' 1 h1 /\ stands eps g f e' 2 (L u1 u2 - h2).
Proof.
  intros Hs He Hu Hm En Ef W Hh1 Hh2. destruct (new_made eps sparse len g u1 u2 e En) as (f' & Ef' & Hmade). rewrite Ef in Ef'. injection Ef' as <-.
  destruct (law_facts len L u1 u2 f Hs He Hu Hm Ef) as (F0 & F1 & FL & V0 & V1).
  pose proof (set_made eps g f e 2 4 Hmade) as H1. cbn [Nat.ltb Nat.leb] in H1.
  destruct (law_values eps sparse g f _ _ h1 h2 Hs He H1 ltac:(lia) ltac:(lra)) as (e2 & E2 & M2 & P2 & A1 & A2). rewrite F1 in A1, A2.
  assert (B : forall h, 0 <= h <= L u1 u2 -> 0 <= h / L u1 u2 <= 1).
  { intros h Hh. split; [unfold Rdiv; apply Rmult_le_pos; [lra|left; apply Rinv_0_lt_compat; lra]|]. apply Rmult_le_reg_r with (L u1 u2); [lra|]. field_simplify; lra. }
  destruct (compute_returns g f e2 4 M2) as (e' & Ec).
  { rewrite P2. reflexivity. } { exact F0. } { lra. } { rewrite F1; exact W. }
  { intros i Hi. assert (Ci : i = 1%nat \/ i = 2%nat) by lia. destruct Ci as [-> | ->]; eexists.
    - split; [exact A1|]. apply B; exact Hh1.
    - split; [exact A2|]. pose proof (B h2 Hh2). lra. }
  exists e'. split; [cbn [obey_all obey bind]; rewrite E2; cbn [bind]; rewrite Ec; reflexivity|].
  destruct (compute_ok eps g f e2 4 e' M2 Ec) as (_ & Ln & _ & _ & SI). split; [exact Ln|].
  destruct (SI 1%nat ltac:(lia)) as (y1 & Y1 & S1). destruct (SI 2%nat ltac:(lia)) as (y2 & Y2 & S2).
  change (INR (4 - 2) / INR (4 - 1)) with (INR 2 / INR (4 - 1)) in A2.
  rewrite A1 in Y1. rewrite A2 in Y2. injection Y1 as <-. injection Y2 as <-. rewrite F1 in *. split.
  - replace (h1 / L u1 u2 * L u1 u2) with h1 in S1 by (field; lra). exact S1.
  - replace ((1 - h2 / L u1 u2) * L u1 u2) with (L u1 u2 - h2) in S2 by (field; lra). exact S2.
Qed.

Lemma growth_ok len L g u1 u2 e f os e1 h1 h2 a1 a2 : complete_solver sparse -> 0 <= eps -> u1 < u2 -> measures len L u1 u2 ->
  new_edge_between sparse len g u1 u2 = Ok e -> abs_curv_law sparse len u1 u2 30 3 = Ok f -> obey_all eps sparse e os = Ok e1 ->
  (6 <= asked os 2)%nat ->
  exists e2, update_law4 sparse e1 h1 h2 a1 a2 = Ok e2 /\
    forall e3, compute_pnts e2 = Ok e3 ->
      stands eps g f e3 1 h1 /\ stands eps g f e3 2 (h1 + a1 * h1) /\
      stands eps g f e3 (asked os 2 - 3) (L u1 u2 - (h2 + a2 * h2)) /\ stands eps g f e3 (asked os 2 - 2) (L u1 u2 - h2).
Proof.
  intros Hs He Hu Hm En Ef Eo Hn. destruct (new_made eps sparse len g u1 u2 e En) as (f' & Ef' & Hmade). rewrite Ef in Ef'. injection Ef' as <-.
  pose proof (obey_made eps sparse g f os e 2 e1 Hmade Eo) as H1. destruct (law_facts len L u1 u2 f Hs He Hu Hm Ef) as (F0 & F1 & FL & V0 & V1).
  destruct (law4_values eps sparse g f e1 _ h1 h2 a1 a2 Hs He H1 Hn ltac:(lra)) as (e2 & E2 & M2 & _ & A1 & A2 & A3 & A4). exists e2. split; [exact E2|].
  intros e3 E3. destruct (compute_ok eps g f e2 _ e3 M2 E3) as (_ & _ & _ & _ & SI).
  destruct (SI 1%nat ltac:(lia)) as (y1 & Y1 & S1). destruct (SI (asked os 2 - 2)%nat ltac:(lia)) as (y2 & Y2 & S2).
  destruct (SI 2%nat ltac:(lia)) as (y3 & Y3 & S3). destruct (SI (asked os 2 - 3)%nat ltac:(lia)) as (y4 & Y4 & S4).
  rewrite A1 in Y1. rewrite A2 in Y2. rewrite A3 in Y3. rewrite A4 in Y4. injection Y1 as <-. injection Y2 as <-. injection Y3 as <-. injection Y4 as <-. rewrite F1 in *.
  split; [|split; [|split]].
  - replace (h1 / L u1 u2 * L u1 u2) with h1 in S1 by (field; lra). exact S1.
  - match type of S3 with stands _ _ _ _ _ ?x => replace x with (h1 + a1 * h1) in S3 by (field; lra) end. exact S3.
  - match type of S4 with stands _ _ _ _ _ ?x => replace x with (L u1 u2 - (h2 + a2 * h2)) in S4 by (field; lra) end. exact S4.
  - match type of S2 with stands _ _ _ _ _ ?x => replace x with (L u1 u2 - h2) in S2 by (field; lra) end. exact S2.
Qed.

Lemma no_points len L g u1 u2 e : complete_solver sparse -> 0 <= eps -> u1 < u2 -> measures len L u1 u2 ->
  new_edge_between sparse len g u1 u2 = Ok e -> compute_pnts e = Undef EmptyFront.
Proof.
  intros Hs He Hu Hm En. destruct (new_returns len L g u1 u2 Hs He Hu Hm) as (e0 & E0 & P0). rewrite En in E0. injection E0 as <-.
  destruct (new_made eps sparse len g u1 u2 e En) as (f & Ef & (A & B & C & D & P)). unfold compute_pnts. rewrite C.
  destruct (range_spec eps 0 1 2) as (_ & Hr). destruct (Hr ltac:(lia)) as (ksi & Er & _).
  change (@make_range R _ n0 n1 2) with (@make_range R (NumR eps) 0 1 2). rewrite Er. cbn [bind]. unfold edge_points in P0. rewrite P0. reflexivity.
Qed.

Lemma three_no len L g u1 u2 e os e1 h1 h2 : complete_solver sparse -> 0 <= eps -> u1 < u2 -> measures len L u1 u2 ->
  new_edge_between sparse len g u1 u2 = Ok e -> obey_all eps sparse e os = Ok e1 -> (asked os 2 <= 3)%nat -> 0 < h1 -> 0 < h2 -> h1 + h2 < L u1 u2 ->
  forall e2, update_law sparse e1 h1 h2 <> Ok e2.
Proof.
  intros Hs He Hu Hm En Eo Hn H1 H2 H12. destruct (new_made eps sparse len g u1 u2 e En) as (f & Ef & Hmade).
  destruct (law_facts len L u1 u2 f Hs He Hu Hm Ef) as (F0 & F1 & _).
  apply (law_short eps sparse g f e1 (asked os 2) h1 h2 (proj1 Hs) He (obey_made eps sparse g f os e 2 e1 Hmade Eo) Hn H1 H2). rewrite F1. exact H12.
Qed.

End AtR.

(** ** Literal edges *)
Lemma steps_fold sparse : steps_q sparse 11 (3 # 10) (3 # 10) 11 =
  Ok [0%Q; 3 # 10; 1 # 2; 3 # 5; 3 # 5; 1 # 2; 2 # 5; 2 # 5; 1 # 2; 7 # 10; 1%Q].
Proof. vm_compute. reflexivity. Qed.
Lemma steps_leave sparse : steps_q sparse 11 (8 # 10) (1 # 10) 11 = Throw OutOfBoundsEval.
Proof. vm_compute. reflexivity. Qed.
Lemma steps_stale sparse : exists l, steps_q sparse 11 (1 # 20) (1 # 20) 6 = Ok l /\ nth 1 l 0%Q = (1 # 8).
Proof. eexists. split; vm_compute; reflexivity. Qed.

Lemma line_measured : measures span_r (fun a b => b - a) 0 1.
Proof. split; [reflexivity|]. split; intros; lra. Qed.

Lemma interp_walk eps (sparse : @solver R) (Q : list (pt R)) (u : list R) p c s : exact_solver sparse -> 0 <= eps -> (1 <= p <= 24)%nat -> (p < length Q)%nat -> length u = length Q ->
  strictly_increasing u -> @interpolate R (NumR eps) sparse 1 Q u p = Ok c -> kn u 0 <= s <= kn u (length Q - 1) -> exists x, @fvalue R (NumR eps) c s = Ok x.
Proof.
  intros Hex He Hp HpQ Hu Hs E Hin. unfold interpolate in E. apply bind_inv in E as (k & Ek & E).
  destruct (build_simple_spec eps u p ltac:(lia) ltac:(lia) Hs) as (k' & Ek' & (Lk & Hnd & Ka & Kb & _) & _ & Kst).
  rewrite Ek in Ek'. injection Ek' as <-. rewrite Hu in *. apply bind_inv in E as (P & EP & E).
  assert (Hk : knots_ok k (length Q) p).
  { split; [exact Lk|]. split; [lia|]. split; [exact Hnd|]. replace (length Q) with (S (length Q - 1)) at 2 by lia. apply Kst; lia. }
  assert (Hd : evaluable eps k (length Q) p) by (left; lia).
  destruct (build_poles_ok eps k (length Q) p Hk sparse 1 1 (map (fun q => [q]) Q) u P Hex He (le_n 1) Hd) as (LP & _).
  { rewrite map_length; exact Hu. } { rewrite map_length; lia. } { intros q Hq. apply in_map_iff in Hq as (x & <- & _). reflexivity. }
  { intros x Hx. destruct (In_nth u x 0 Hx) as (i & Hi & <-). change (nth i u 0) with (kn u i). unfold Proof_Interp.inside.
    rewrite (Ka p), (Kb (length Q)) by lia. split; apply (strict_mono u Hs); lia. } { exact EP. }
  rewrite (mk_curve_accepts eps) in E by (rewrite ?LP; auto; lia). injection E as <-.
  destruct (rv_eval eps k (length Q) p Hk s 0 P) as (q & Eq & _); [unfold Proof_Interp.inside; rewrite (Ka p), (Kb (length Q)) by lia; exact Hin|exact LP|exact Hd|].
  exists (q 0%nat). unfold fvalue.
  destruct (passes_of eps (mk p P k (kn k 0) (kn k (length k - 1))) 1 s 0 q q He) as (v & Ev & Hv); cbn [c_lo c_hi c_knots c_poles c_deg].
  { rewrite (Ka 0%nat), (Kb (length k - 1)%nat) by lia. exact Hin. } { exact Eq. } { reflexivity. }
  rewrite Ev. cbn [bind]. rewrite Hv by lia. reflexivity.
Qed.

Lemma line_walkable eps : 0 <= eps -> exists e f, @new_edge R (NumR eps) gauss span_r line_r = Ok e /\ @abs_curv_law R (NumR eps) gauss span_r 0 1 30 3 = Ok f /\
  walkable eps line_r f (1 - 0).
Proof.
  intros He. destruct (new_returns eps gauss span_r (fun a b => b - a) line_r 0 1 lit_solver He ltac:(lra) line_measured) as (e & Ee & _).
  destruct (law_ok eps gauss span_r (fun a b => b - a) 0 1 30 3 lit_solver He ltac:(lia) ltac:(lia) ltac:(lra) line_measured) as (f & Ef & _).
  exists e, f. split; [exact Ee|]. split; [exact Ef|]. intros s Hs.
  assert (Hf : exists x, @fvalue R (NumR eps) f s = Ok x).
  { unfold abs_curv_law in Ef. destruct (range_spread eps 0 1 30 ltac:(lia)) as (u & Eu & Lu & Ku). rewrite Eu in Ef. cbn [bind] in Ef.
    destruct (measured_range span_r (fun a b => b - a) 0 1 30 u line_measured ltac:(lra) ltac:(lia) Lu Ku) as (HS & HI & HL).
    destruct (cumulated_ok eps span_r (fun j => kn u (S j) - kn u j) u ltac:(lia)) as (m & Em & Lm & Km). { intros i Hi. reflexivity. }
    rewrite Em in Ef. cbn [bind] in Ef. rewrite Lu in Ef, Lm.
    assert (Km' : forall i, (i < 30)%nat -> kn m i = kn u i) by (intros i Hi; rewrite Km by lia; rewrite HL by exact Hi; lra).
    assert (Inc : strictly_increasing m).
    { assert (G : forall d i, (i + S d < 30)%nat -> kn m i < kn m (i + S d)).
      { induction d as [|d IH]; intros i Hi; [rewrite Nat.add_1_r, !Km' by lia; apply HS; lia|].
        specialize (IH i ltac:(lia)). replace (i + S (S d))%nat with (S (i + S d)) by lia. pose proof (HS (i + S d)%nat ltac:(lia)). rewrite <- !Km' in H by lia. lra. }
      intros i j Hij Hj. replace j with (i + S (j - i - 1))%nat by lia. apply G. lia. }
    apply (interp_walk eps gauss (map (fun x (_ : nat) => x) u) m 3 f s (proj1 lit_solver) He ltac:(lia)).
    { rewrite map_length, Lu; lia. } { rewrite map_length, Lu; exact Lm. } { exact Inc. } { exact Ef. }
    rewrite map_length, Lu, !Km', !Ku by lia. replace (30 - 1)%nat with 29%nat by lia. pose proof (spread_last 0 1 30 ltac:(lia)) as H. cbn [Nat.sub] in H. rewrite H, spread_first. lra. }
  destruct Hf as (x & Ex). exists (fun _ => x). exists x. split; [exact Ex|reflexivity].
Qed.
