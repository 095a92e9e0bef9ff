(** A surface moved to points. *)
From Coq Require Import List Arith Reals Lia Lra Bool.
From Verif Require Import Model_Base Model_Knots Model_Basis Model_Curve Model_Interp Model_Surface Model_Skin Model_Shape
  Spec_Base Spec_Basis Spec_Eval Spec_Class Spec_Surface Spec_Interp Spec_Solve Spec_Shape
  Proof_Base Proof_Blossom Proof_Basis Proof_Eval Proof_PropBasis Proof_Curve Proof_Interp Proof_Interp2 Proof_Interp3 Proof_Interp4
  Proof_Tfi Proof_SurfEdit Proof_Skin1 Proof_Skin2 Proof_Skin3 Proof_Shape1 Proof_Shape2 Proof_Shape3 Proof_Shape5 Proof_Shape6 Proof_Shape7 Proof_ExBasis.
Import ListNotations.
Local Open Scope R_scope.

Section AtR.
Variable eps : R.
Local Hint Extern 0 (Num R) => exact (NumR eps) : typeclass_instances.

Lemma span_rng k n p u : knots_ok k n p -> inside k n p u ->
  find_span_range n p u k = Ok ((spn eps k n p u - p)%nat, spn eps k n p u) /\ (p <= spn eps k n p u < n)%nat /\
  kn k (spn eps k n p u) <= u <= kn k (S (spn eps k n p u)).
Proof.
  intros Hk Hu.
  destruct (spn_ok eps k n p Hk u Hu) as (Ef & Hl & Hs & _). unfold find_span_range. rewrite Ef. cbn [bind].
  set (l := spn eps k n p u) in *.
  split; [|split; [exact Hl|]].
  - destruct (Nat.ltb_spec p l); [reflexivity|]. replace (l - p)%nat with 0%nat by lia. reflexivity.
  - unfold span_at in Hs. unfold inside in Hu. destruct Hs as [[H1 H2]|[H1 H2]]; [lra|]. rewrite H2 in *.
    replace (S (n - 1)) with n in * by lia. destruct Hk as (_ & _ & _ & Hlast). lra.
Qed.

Lemma rv_Nb k n p u j : knots_ok k n p -> end_clamped k n p -> separated eps k -> 0 < eps -> inside k n p u ->
  (j < n)%nat -> rv eps k n p u 0 j = Nbas (kn k) n p j u.
Proof.
  intros Hk Hcl Hsep He Hu Hj.
  pose proof (bf_all eps k n p Hk Hcl Hsep He u 0 j Hu Hj) as E.
  rewrite (basis_function_correct eps k n p u j Hk Hcl Hsep He Hu Hj) in E. injection E as E. auto.
Qed.

Section Srf.
Variable s : surf R.
Hypothesis Hs : shapeable_surface eps s.
Notation ku := (s_ku s).
Notation kv := (s_kv s).
Notation n := (s_nU s).
Notation m := (s_nV s).
Notation p := (s_degU s).
Notation q := (s_degV s).
Notation rvu := (rv eps ku n p).
Notation rvv := (rv eps kv m q).
Notation spu := (spn eps ku n p).
Notation spv := (spn eps kv m q).

Lemma npu : nPolesU s = Ok n.
Proof.
  destruct (ss_facts eps s Hs) as ((L & _) & _). unfold nPolesU, npoles, subi.
  destruct (Nat.leb_spec (p + 1) (length ku)); [|lia]. f_equal. unfold s_nU in *. lia.
Qed.
Lemma npv : nPolesV s = Ok m.
Proof.
  destruct (ss_facts eps s Hs) as (_ & (L & _) & _). unfold nPolesV, npoles, subi.
  destruct (Nat.leb_spec (q + 1) (length kv)); [|lia]. f_equal. unfold s_nV in *. lia.
Qed.

Lemma wgt_pole u v i j : in_surface s u v -> (i < n)%nat -> (j < m)%nat ->
  wgt eps s u v (i + n * j) = pole_weight s u v i j.
Proof.
  intros (Hu & Hv) Hi Hj. destruct (ss_facts eps s Hs) as (Hku & Hkv & Hcu & Hcv & Hsu & Hsv & He & _).
  unfold wgt, pole_weight. destruct (grid_index i j n ltac:(lia) Hi) as (-> & ->).
  rewrite (rv_Nb ku n p u i), (rv_Nb kv m q v j) by assumption. reflexivity.
Qed.
Lemma weight0 u v i j : in_surface s u v -> (i < n)%nat -> (j < m)%nat ->
  (i < spu u - p \/ spu u < i \/ j < spv v - q \/ spv v < j)%nat -> pole_weight s u v i j = 0.
Proof.
  intros Hin Hi Hj Ho. rewrite <- wgt_pole by assumption. unfold wgt. destruct (grid_index i j n ltac:(lia) Hi) as (-> & ->).
  destruct Ho as [H|[H|[H|H]]].
  - rewrite (rv_low eps ku n p u 0 i) by lia. ring.
  - rewrite (rv_high eps ku n p u 0 i) by lia. ring.
  - rewrite (rv_low eps kv m q v 0 j) by lia. ring.
  - rewrite (rv_high eps kv m q v 0 j) by lia. ring.
Qed.

(** The bounding box of the acting poles. *)
Lemma spans_box cs st r : (forall g, In g cs -> in_surface s (sc_u g) (sc_v g)) ->
  foldM (fun st c =>
    let* a := find_span_range n p (sc_u c) ku in
    let* b := find_span_range m q (sc_v c) kv in
    Ok (min (fst (fst st)) (fst a), max (snd (fst st)) (snd a),
        (min (fst (snd st)) (fst b), max (snd (snd st)) (snd b)))) st cs = Ok r ->
  (fst (fst r) <= fst (fst st) /\ snd (fst st) <= snd (fst r) /\ fst (snd r) <= fst (snd st) /\ snd (snd st) <= snd (snd r) /\
   (snd (fst st) < n -> snd (fst r) < n) /\ (snd (snd st) < m -> snd (snd r) < m))%nat /\
  forall g, In g cs -> (fst (fst r) <= spu (sc_u g) - p /\ spu (sc_u g) <= snd (fst r) /\
                        fst (snd r) <= spv (sc_v g) - q /\ spv (sc_v g) <= snd (snd r))%nat.
Proof.
  destruct (ss_facts eps s Hs) as (Hku & Hkv & _). revert st.
  induction cs as [|c cs IH]; intros st Hin E.
  - cbn [foldM] in E. injection E as <-. split; [lia|intros g []].
  - cbn [foldM] in E. destruct (Hin c (or_introl eq_refl)) as (Hu & Hv).
    destruct (span_rng ku n p (sc_u c) Hku Hu) as (Eu & Lu & _). destruct (span_rng kv m q (sc_v c) Hkv Hv) as (Ev & Lv & _).
    rewrite Eu, Ev in E. cbn [bind fst snd] in E. apply IH in E; [|intros g Hg; apply Hin; right; exact Hg].
    cbn [fst snd] in E. destruct E as (B & C). split; [lia|]. intros g [<-|Hg]; [lia|exact (C g Hg)].
Qed.
Lemma spans_ok cs st : (forall g, In g cs -> in_surface s (sc_u g) (sc_v g)) ->
  exists r, foldM (fun st c =>
    let* a := find_span_range n p (sc_u c) ku in
    let* b := find_span_range m q (sc_v c) kv in
    Ok (min (fst (fst st)) (fst a), max (snd (fst st)) (snd a),
        (min (fst (snd st)) (fst b), max (snd (snd st)) (snd b)))) st cs = Ok r.
Proof.
  destruct (ss_facts eps s Hs) as (Hku & Hkv & _). revert st.
  induction cs as [|c cs IH]; intros st Hin; cbn [foldM]; [eauto|].
  destruct (Hin c (or_introl eq_refl)) as (Hu & Hv).
  destruct (span_rng ku n p (sc_u c) Hku Hu) as (Eu & _). destruct (span_rng kv m q (sc_v c) Hkv Hv) as (Ev & _).
  rewrite Eu, Ev. cbn [bind fst snd]. apply IH. intros g Hg; apply Hin; right; exact Hg.
Qed.

Lemma to_delta_gaps cs ds : surf_to_delta s cs = Ok ds -> surface_gaps eps s cs ds.
Proof.
  unfold surf_to_delta, surface_gaps. revert ds. induction cs as [|c cs IH]; intros ds E; cbn [mapM] in E.
  - injection E as <-. constructor.
  - destruct (bind_inv _ _ _ E) as (d & Ed & E1). clear E. destruct (bind_inv _ _ _ E1) as (ds' & Eds & E2). injection E2 as <-.
    constructor; [|apply IH; exact Eds].
    destruct (bind_inv _ _ _ Ed) as (z & Ez & E3). injection E3 as <-. cbn [sc_u sc_v sc_x].
    split; [reflexivity|]. split; [reflexivity|]. exists z. split; [exact Ez|]. intros co. reflexivity.
Qed.

Lemma inner_inv keep N a b i1 i2 : inner_range keep N a b = Ok (i1, i2) ->
  (keep = true -> 2 <= N /\ i1 = max 1 a /\ i2 = min (N - 2) b)%nat /\ (keep = false -> i1 = a /\ i2 = b).
Proof.
  unfold inner_range, subi. destruct keep.
  - destruct (Nat.leb_spec 2 N); [|discriminate]. intros E. injection E as <- <-. split; [auto|discriminate].
  - intros E. injection E as <- <-. split; [discriminate|auto].
Qed.

Lemma surf_window lu llt dim goals keep s' : (forall g, In g goals -> in_surface s (sc_u g) (sc_v g)) ->
  surf_moved_to_constraints lu llt dim s goals keep = Ok s' ->
  exists i1 i2 j1 j2 ds, covers s keep goals i1 i2 j1 j2 /\ surface_gaps eps s goals ds /\
    surf_moved_delta lu llt dim s ds i1 i2 j1 j2 = Ok s' /\
    (keep = true -> 1 <= i1 /\ i2 <= n - 2 /\ 1 <= j1 /\ j2 <= m - 2 /\ 2 <= n /\ 2 <= m)%nat /\
    (forall g, goals = [g] -> (spu (sc_u g) - p <= i1 /\ i2 <= spu (sc_u g) /\ spv (sc_v g) - q <= j1 /\ j2 <= spv (sc_v g)))%nat.
Proof.
  intros Hin E. destruct (ss_facts eps s Hs) as (Hku & Hkv & _).
  unfold surf_moved_to_constraints in E. rewrite npu, npv in E. cbn [bind] in E.
  destruct (bind_inv _ _ _ E) as ([ru rvr] & Er & E1). clear E.
  destruct (bind_inv _ _ _ E1) as ([i1 i2] & Ei & E2). clear E1.
  destruct (bind_inv _ _ _ E2) as ([j1 j2] & Ej & E3). clear E2.
  destruct (bind_inv _ _ _ E3) as (ds & Ed & E4). clear E3.
  unfold surf_spans_of in Er. rewrite npu, npv in Er. cbn [bind] in Er.
  destruct (bind_inv _ _ _ Er) as (a & Ea & Er1). clear Er. destruct (bind_inv _ _ _ Er1) as (b & Eb & Er). clear Er1.
  pose proof Hku as (_ & Hn & _). pose proof Hkv as (_ & Hm & _).
  unfold subi in Ea, Eb. destruct (Nat.leb_spec 1 n); [|discriminate]. destruct (Nat.leb_spec 1 m); [|discriminate].
  injection Ea as Ea. injection Eb as Eb.
  pose proof Er as Er0.
  apply spans_box in Er; [|exact Hin]. cbn [fst snd] in Er. destruct Er as ((B1 & B2 & B3 & B4 & B5 & B6) & C).
  specialize (B5 ltac:(lia)). specialize (B6 ltac:(lia)).
  apply inner_inv in Ei as (I1 & I2). apply inner_inv in Ej as (J1 & J2).
  exists i1, i2, j1, j2, ds. split; [|split; [apply to_delta_gaps; exact Ed|split; [exact E4|split]]].
  - split; [|split].
    + destruct keep; [destruct (I1 eq_refl) as (? & ? & ?)|destruct (I2 eq_refl) as (? & ?)]; lia.
    + destruct keep; [destruct (J1 eq_refl) as (? & ? & ?)|destruct (J2 eq_refl) as (? & ?)]; lia.
    + intros i j Hi Hj Ho.
      assert (Hcase : (keep = true /\ (i = 0 \/ i = n - 1 \/ j = 0 \/ j = m - 1)%nat) \/
        (i < fst ru \/ snd ru < i \/ j < fst rvr \/ snd rvr < j)%nat).
      { destruct keep.
        - destruct (I1 eq_refl) as (? & ? & ?), (J1 eq_refl) as (? & ? & ?).
          destruct (Nat.eq_dec i 0) as [Hq1|Hq1]; [left; auto|]. destruct (Nat.eq_dec i (n - 1)) as [Hq2|Hq2]; [left; auto|].
          destruct (Nat.eq_dec j 0) as [Hq3|Hq3]; [left; auto|]. destruct (Nat.eq_dec j (m - 1)) as [Hq4|Hq4]; [left; auto 6|]. right. lia.
        - destruct (I2 eq_refl) as (? & ?), (J2 eq_refl) as (? & ?). right. lia. }
      destruct Hcase as [H1|H1]; [left; exact H1|]. right. intros g Hg. pose proof (C g Hg) as Cg.
      apply weight0; auto. lia.
  - intros ->. destruct (I1 eq_refl) as (? & ? & ?), (J1 eq_refl) as (? & ? & ?). lia.
  - intros g ->. destruct (Hin g (or_introl eq_refl)) as (Hu & Hv).
    destruct (span_rng ku n p (sc_u g) Hku Hu) as (Eu & Lu & _). destruct (span_rng kv m q (sc_v g) Hkv Hv) as (Ev & Lv & _).
    cbn [foldM] in Er0. rewrite Eu, Ev in Er0. cbn [bind fst snd] in Er0. injection Er0 as <- <-. cbn [fst snd] in *.
    destruct keep; [destruct (I1 eq_refl) as (? & ? & ?), (J1 eq_refl) as (? & ? & ?)|destruct (I2 eq_refl) as (? & ?), (J2 eq_refl) as (? & ?)]; lia.
Qed.

Lemma surf_constraints_ok lu llt dim goals keep s' : exact_solver lu -> exact_solver llt ->
  (0 < length goals)%nat -> positions s goals ->
  surf_moved_to_constraints lu llt dim s goals keep = Ok s' ->
  same_surface_frame s keep s' /\
  exists i1 i2 j1 j2, covers s keep goals i1 i2 j1 j2 /\ reshaped_surface s i1 i2 j1 j2 s' /\
  ((length goals <= (i2 + 1 - i1) * (j2 + 1 - j1))%nat -> meets_surface eps dim s' goals) /\
  ((length goals < (i2 + 1 - i1) * (j2 + 1 - j1))%nat -> forall s'' co, (co < dim)%nat ->
     reshaped_surface s i1 i2 j1 j2 s'' -> meets_surface eps dim s'' goals ->
     displacement (s_poles s) (s_poles s') co <= displacement (s_poles s) (s_poles s'') co) /\
  (((i2 + 1 - i1) * (j2 + 1 - j1) < length goals)%nat -> forall s'' co e e'', (co < dim)%nat ->
     reshaped_surface s i1 i2 j1 j2 s'' -> surface_misses_by eps s' goals co e -> surface_misses_by eps s'' goals co e'' -> e <= e'').
Proof.
  intros Hlu Hllt Hne Hps E.
  assert (Hin : forall g, In g goals -> in_surface s (sc_u g) (sc_v g)) by (intros g Hg; apply Hps; exact Hg).
  destruct (surf_window lu llt dim goals keep s' Hin E) as (i1 & i2 & j1 & j2 & ds & Hcov & Hg & Ed & Hk & _).
  destruct (surf_delta_ok eps s Hs lu llt dim goals ds i1 i2 j1 j2 Hlu Hllt (proj1 Hcov) (proj1 (proj2 Hcov)) Hin Hg s' Hne Hps Ed) as (Hr & Hrest).
  split; [|exists i1, i2, j1, j2; auto].
  destruct Hr as (R1 & R2 & R3 & R4 & R5 & R6 & R7 & R8 & R9 & R10). unfold same_surface_frame.
  repeat (split; [assumption|]). intros Ek i j Hi Hj Hb. apply R10; [exact Hi|]. specialize (Hk Ek). lia.
Qed.

(** A single point. *)
Lemma free_surface_movable u v : in_surface s u v -> surface_movable s u v false.
Proof.
  intros (Hu & Hv). destruct (ss_facts eps s Hs) as (Hku & Hkv & Hcu & Hcv & Hsu & Hsv & He & _).
  destruct (basis_function_sum eps ku n p u Hku Hcu Hsu He Hu) as (b & Hb & Sb).
  destruct (sumn_nonzero n b) as (i & Hi & Hne); [lra|].
  destruct (basis_function_sum eps kv m q v Hkv Hcv Hsv He Hv) as (b' & Hb' & Sb').
  destruct (sumn_nonzero m b') as (j & Hj & Hne'); [lra|].
  exists i, j. split; [exact Hi|]. split; [exact Hj|]. split; [discriminate|]. unfold pole_weight.
  pose proof (Hb i Hi) as E. rewrite (basis_function_correct eps ku n p u i Hku Hcu Hsu He Hu Hi) in E. injection E as ->.
  pose proof (Hb' j Hj) as E. rewrite (basis_function_correct eps kv m q v j Hkv Hcv Hsv He Hv Hj) in E. injection E as ->.
  apply Rmult_integral_contrapositive_currified; assumption.
Qed.

Lemma window_has keep u v x i1 i2 j1 j2 : surface_movable s u v keep -> covers s keep [mksc u v x 0%nat 0%nat] i1 i2 j1 j2 ->
  exists i j, (i1 <= i <= i2)%nat /\ (j1 <= j <= j2)%nat /\ (i < n)%nat /\ (j < m)%nat /\ pole_weight s u v i j <> 0.
Proof.
  intros (i & j & Hi & Hj & Hke & Hne) (_ & _ & Hc). exists i, j.
  assert (Hw : ~ (i < i1 \/ i2 < i \/ j < j1 \/ j2 < j)%nat).
  { intros Ho. destruct (Hc i j Hi Hj Ho) as [(Ek & Hb)|Hz].
    - specialize (Hke Ek). lia.
    - apply Hne. exact (Hz _ (or_introl eq_refl)). }
  repeat split; try assumption; lia.
Qed.

Lemma surf_point_ok lu llt dim x u v keep s' : exact_solver lu -> exact_solver llt -> in_surface s u v ->
  surface_movable s u v keep -> surf_moved_to_point lu llt dim s x u v keep = Ok s' ->
  same_surface_frame s keep s' /\ meets_surface eps dim s' [mksc u v x 0%nat 0%nat] /\
  (forall i j, (i < n)%nat -> (j < m)%nat ->
     (u < kn ku i \/ kn ku (i + p + 1) < u \/ v < kn kv j \/ kn kv (j + q + 1) < v) ->
     nth (i + n * j) (s_poles s') (fun _ => 0) = nth (i + n * j) (s_poles s) (fun _ => 0)) /\
  forall s'' co, (co < dim)%nat -> same_surface_frame s keep s'' -> meets_surface eps dim s'' [mksc u v x 0%nat 0%nat] ->
    displacement (s_poles s) (s_poles s') co <= displacement (s_poles s) (s_poles s'') co.
Proof.
  intros Hlu Hllt Huv Hmv E. unfold surf_moved_to_point in E. set (goals := [mksc u v x 0%nat 0%nat]) in *.
  assert (Hps : positions s goals) by (intros g [<-|[]]; auto).
  assert (Hin : forall g, In g goals -> in_surface s (sc_u g) (sc_v g)) by (intros g Hg; apply Hps; exact Hg).
  destruct (surf_constraints_ok lu llt dim goals keep s' Hlu Hllt ltac:(simpl; lia) Hps E) as (Hfr & _).
  split; [exact Hfr|].
  destruct (surf_window lu llt dim goals keep s' Hin E) as (i1 & i2 & j1 & j2 & ds & Hcov & Hg & Ed & _ & Hone).
  specialize (Hone _ eq_refl). cbn [sc_u sc_v] in Hone.
  destruct (window_has keep u v x i1 i2 j1 j2 Hmv Hcov) as (i0 & j0 & Hi0 & Hj0 & Hi0n & Hj0m & Hne0).
  pose proof Hcov as (Hi2 & Hj2 & Hout0).
  destruct (surf_delta_ok eps s Hs lu llt dim goals ds i1 i2 j1 j2 Hlu Hllt Hi2 Hj2 Hin Hg s' ltac:(simpl; lia) Hps Ed) as (Hr & Hmeet & _).
  assert (Hgl : length goals = 1%nat) by reflexivity.
  assert (Hmt : meets_surface eps dim s' goals) by (apply Hmeet; rewrite Hgl; clear -Hi0 Hj0; nia).
  split; [exact Hmt|].
  destruct (ss_facts eps s Hs) as (Hku & Hkv & _ & _ & _ & _ & He & LP). pose proof Huv as (Hu & Hv).
  destruct (span_rng ku n p u Hku Hu) as (_ & Lu & Ku1 & Ku2). destruct (span_rng kv m q v Hkv Hv) as (_ & Lv & Kv1 & Kv2).
  split.
  - intros i j Hi Hj Ho. apply Hr; [exact Hi|].
    destruct (Nat.lt_ge_cases i i1); [auto|]. destruct (Nat.lt_ge_cases i2 i); [auto|].
    destruct (Nat.lt_ge_cases j j1); [auto|]. destruct (Nat.lt_ge_cases j2 j); [auto|]. exfalso.
    pose proof Hku as (Lku & _ & Ndu & _). pose proof Hkv as (Lkv & _ & Ndv & _).
    assert (kn ku i <= kn ku (spu u)) by (apply Ndu; lia).
    assert (kn ku (S (spu u)) <= kn ku (i + p + 1)) by (apply Ndu; lia).
    assert (kn kv j <= kn kv (spv v)) by (apply Ndv; lia).
    assert (kn kv (S (spv v)) <= kn kv (j + q + 1)) by (apply Ndv; lia). lra.
  - intros s'' co Hco Hf Hm''.
    destruct (Hm'' _ (or_introl eq_refl)) as (z2 & Ez2 & Vz2). cbn [sc_u sc_v sc_du sc_dv sc_x] in Ez2, Vz2.
    assert (Hsh : same_shape s s'') by (unfold same_shape; unfold same_surface_frame in Hf; tauto).
    destruct (ss_value eps s Hs s'' u v Hsh Huv) as (z3 & Ez3 & Vz3). rewrite Ez2 in Ez3. injection Ez3 as <-.
    destruct (ss_value eps s Hs s u v ltac:(unfold same_shape; tauto) Huv) as (z & Ez & Vz).
    unfold surf_moved_delta in Ed. rewrite (sgaps_len eps s goals ds Hg), Hgl in Ed. cbn [Nat.ltb Nat.leb] in Ed.
    destruct (bind_inv _ _ _ Ed) as (P' & EP & Emk). clear Ed.
    destruct (surf_delta_core eps s Hs lu llt dim goals ds i1 i2 j1 j2 Hlu Hllt Hi2 Hj2 Hin Hg P' EP) as (nu & nv & B & Hnu & Hnv & EB & RB & CB & VB & LP' & Out & Col).
    apply (mk_surf_inv eps) in Emk. assert (EPs : s_poles s' = P') by (rewrite Emk; reflexivity).
    destruct (Col co Hco) as (xs & Ex & Lx & Vx). rewrite Hgl in RB.
    set (bb := map (fun d => sc_x d co) ds) in *.
    assert (Lb : length bb = m_rows B) by (unfold bb; rewrite map_length, RB; apply (sgaps_len eps s goals ds Hg)).
    assert (Hb0 : nth 0 bb 0 = x co - z co).
    { destruct (f2_nth _ _ _ Hg 0%nat _ eq_refl) as (d & Hd & _ & _ & z1 & Ez1 & V1). cbn [sc_u sc_v sc_du sc_dv sc_x] in Ez1, V1.
      rewrite Ez in Ez1. injection Ez1 as <-. rewrite <- V1. apply nth_error_nth. unfold bb. rewrite (map_nth_error _ _ _ Hd). reflexivity. }
    set (y := dsp s i1 j1 nu (s_poles s) (s_poles s'') co).
    assert (Hrow : row_of B y 0 = nth 0 bb 0).
    { rewrite Hb0, <- (Vz2 co Hco), Vz3, Vz. unfold row_of. rewrite CB. rewrite <- sumn_minus.
      rewrite (sumn_ext (n * m) _ (fun l => wgt eps s u v l * (nth l (s_poles s'') (fun _ => 0) co - nth l (s_poles s) (fun _ => 0) co))) by (intros; ring).
      rewrite (sumn_inj (n * m) (nu * nv) (widx s i1 j1 nu));
        [|exact (widx_lt s i1 i2 j1 j2 nu nv Hi2 Hj2 Hnu Hnv)|exact (widx_inj s i1 i2 j1 j2 nu nv Hi2 Hj2 Hnu Hnv)|].
      - apply sumn_ext. intros l Hl. rewrite (VB 0%nat _ l eq_refl Hl). reflexivity.
      - intros l Hl Hb. destruct (div_in l n m Hl) as (A1 & A2 & A3).
        pose proof (widx_out s i1 i2 j1 j2 nu nv Hi2 Hj2 Hnu Hnv l Hl Hb) as Ho.
        destruct (Hout0 _ _ A1 A2 Ho) as [(Ek & Hbd)|Hz].
        + destruct Hf as (_ & _ & _ & _ & _ & _ & _ & _ & _ & F). rewrite A3. rewrite (F Ek _ _ A1 A2 Hbd). ring.
        + specialize (Hz _ (or_introl eq_refl)). cbn [sc_u sc_v] in Hz.
          rewrite A3 at 1. rewrite (wgt_pole u v _ _ Huv A1 A2), Hz. ring. }
    rewrite EPs.
    assert (Hr' : reshaped_surface s i1 i2 j1 j2 s') by exact Hr.
    pose proof (disp_surf eps s Hs i1 i2 j1 j2 nu nv Hi2 Hj2 Hnu Hnv s' co Hr') as Hdisp. rewrite EPs in Hdisp. rewrite Hdisp.
    rewrite (sumn_ext (nu * nv) _ (fun l => nth l xs 0 ^ 2)) by (intros l Hl'; f_equal; apply (Vx l Hl')).
    apply Rle_trans with (sumn (nu * nv) (fun l => y l ^ 2)).
    + destruct (shape_solve_ok eps lu llt B bb xs Hlu Hllt Lb Ex) as (_ & S1 & S2 & _). rewrite RB, CB in *.
      destruct (Nat.lt_ge_cases 1 (nu * nv)) as [Hw2|Hw1].
      * apply (S2 Hw2). intros r Hr''. assert (r = 0)%nat as -> by lia. exact Hrow.
      * assert (Ew : (nu * nv = 1)%nat) by (clear -Hw1 Hi0 Hj0 Hnu Hnv; nia). rewrite Ew in *.
        specialize (S1 ltac:(lia) 0%nat ltac:(lia)). rewrite <- Hrow in S1. unfold row_of in S1. rewrite CB in S1. cbn [sumn] in S1 |- *.
        assert (Hb1 : m_cell B 0 0 <> 0).
        { rewrite (VB 0%nat _ 0%nat eq_refl ltac:(lia)). cbn [sc_u sc_v].
          assert (nu = 1 /\ nv = 1)%nat as (E1 & E2) by (apply Nat.eq_mul_1; exact Ew). subst nu nv.
          replace (widx s i1 j1 1 0) with (i0 + n * j0)%nat.
          - rewrite (wgt_pole u v i0 j0 Huv Hi0n Hj0m). exact Hne0.
          - unfold widx. cbn [Nat.modulo Nat.div Nat.divmod fst snd Nat.sub]. replace i0 with i1 by lia. replace j0 with j1 by lia.
            rewrite !Nat.add_0_r. reflexivity. }
        assert (nth 0 xs 0 = y 0%nat) as ->. { apply (Rmult_eq_reg_l (m_cell B 0 0)); [lra|exact Hb1]. } lra.
    + unfold displacement. rewrite LP. unfold y, dsp.
      set (f := fun l => (nth l (s_poles s'') (fun _ => 0) co - nth l (s_poles s) (fun _ => 0) co) ^ 2).
      set (g := fun l => if in_win i1 nu j1 nv (l mod n) (l / n) then f l else 0).
      apply Rle_trans with (sumn (n * m) g).
      * apply Req_le. rewrite (sumn_inj (n * m) (nu * nv) (widx s i1 j1 nu));
          [|exact (widx_lt s i1 i2 j1 j2 nu nv Hi2 Hj2 Hnu Hnv)|exact (widx_inj s i1 i2 j1 j2 nu nv Hi2 Hj2 Hnu Hnv)|].
        -- apply sumn_ext. intros l Hl. destruct (div_in l nu nv Hl) as (A1 & A2 & A3). unfold g, widx.
           destruct (grid_index (i1 + l mod nu) (j1 + l / nu) n) as (-> & ->); [lia|lia|].
           assert (in_win i1 nu j1 nv (i1 + l mod nu) (j1 + l / nu) = true) as -> by (apply in_win_iff; lia). reflexivity.
        -- intros l Hl Hb. pose proof (widx_out s i1 i2 j1 j2 nu nv Hi2 Hj2 Hnu Hnv l Hl Hb) as Ho. unfold g.
           destruct (in_win i1 nu j1 nv (l mod n) (l / n)) eqn:Ew; [|reflexivity]. apply in_win_iff in Ew. lia.
      * apply sumn_le. intros l Hl. unfold g. destruct (in_win i1 nu j1 nv (l mod n) (l / n)); [lra|apply pow2_ge_0].
Qed.
End Srf.
End AtR.
