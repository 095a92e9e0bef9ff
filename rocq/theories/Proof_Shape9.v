(** Surfaces: the move to a point returns; derivative constraints are missed. *)
From Coq Require Import List Arith Reals Lia Lra Bool.
From Verif Require Import Model_Base Model_Knots Model_Basis Model_Curve Model_Interp Model_Surface Model_Skin Model_Shape
  Spec_Base Spec_Basis Spec_Eval Spec_Class Spec_Surface Spec_Interp Spec_Solve Spec_Shape
  Proof_Base Proof_Blossom Proof_Basis Proof_Ders Proof_Eval Proof_PropBasis Proof_Curve Proof_Interp Proof_Interp2 Proof_Interp3 Proof_Interp4
  Proof_Tfi Proof_SurfEdit Proof_Skin1 Proof_Skin2 Proof_Skin3 Proof_Shape1 Proof_Shape2 Proof_Shape3 Proof_Shape5 Proof_Shape6 Proof_Shape7 Proof_Shape8 Proof_Json.
Import ListNotations.
Local Open Scope R_scope.

Section AtR.
Variable eps : R.
Local Hint Extern 0 (Num R) => exact (NumR eps) : typeclass_instances.

Lemma mk_surf_same (P P' : list (pt R)) (ku kv : list R) p q s : mk_surf P ku kv p q = Ok s -> length P' = length P ->
  exists s', mk_surf P' ku kv p q = Ok s'.
Proof.
  intros E L. unfold mk_surf in *.
  destruct (bind_inv _ _ _ E) as (a & E1 & E'). rewrite E1. cbn [bind]. clear E. rename E' into E.
  destruct (bind_inv _ _ _ E) as (b & E2 & E'). rewrite E2. cbn [bind]. clear E. rename E' into E.
  destruct (bind_inv _ _ _ E) as (c & E3 & E'). rewrite E3. cbn [bind]. clear E. rename E' into E.
  destruct (bind_inv _ _ _ E) as (d & E4 & E'). rewrite E4. cbn [bind]. clear E. rename E' into E.
  rewrite L. destruct (_ =? _)%Z; [|discriminate].
  destruct (bind_inv _ _ _ E) as (oku & E5 & E'). rewrite E5. cbn [bind]. clear E. rename E' into E.
  destruct oku; [|discriminate].
  destruct (bind_inv _ _ _ E) as (okv & E6 & E'). rewrite E6. cbn [bind]. clear E. rename E' into E.
  destruct okv; [|discriminate]. eauto.
Qed.

Section Srf.
Variable s : surf R.
Hypothesis Hs : shapeable_surface eps s.
Hypothesis Hmk : mk_surf (s_poles s) (s_ku s) (s_kv s) (s_degU s) (s_degV s) = Ok s.
Notation ku := (s_ku s).
Notation kv := (s_kv s).
Notation n := (s_nU s).
Notation m := (s_nV s).
Notation p := (s_degU s).
Notation q := (s_degV s).
Notation spu := (spn eps ku n p).
Notation spv := (spn eps kv m q).

Lemma surf_single_returns lu llt dim (g : @scons R) keep : complete_solver lu -> complete_solver llt ->
  in_surface s (sc_u g) (sc_v g) -> surface_movable s (sc_u g) (sc_v g) keep ->
  exists s', surf_moved_to_constraints lu llt dim s [g] keep = Ok s'.
Proof.
  intros Hlu Hllt Huv Hmv. destruct (ss_facts eps s Hs) as (Hku & Hkv & Hcu & Hcv & Hsu & Hsv & He & LP).
  pose proof Hku as (_ & Hn & _). pose proof Hkv as (_ & Hm & _). pose proof Huv as (Hu & Hv).
  destruct (span_rng eps ku n p (sc_u g) Hku Hu) as (Eu & Lu & _). destruct (span_rng eps kv m q (sc_v g) Hkv Hv) as (Ev & Lv & _).
  destruct Hmv as (i0 & j0 & Hi0 & Hj0 & Hke & Hne).
  assert (Hi0s : (spu (sc_u g) - p <= i0 <= spu (sc_u g))%nat).
  { destruct (Nat.lt_ge_cases i0 (spu (sc_u g) - p)) as [H|H];
      [exfalso; apply Hne; apply (weight0 eps s Hs); auto|].
    destruct (Nat.lt_ge_cases (spu (sc_u g)) i0) as [H'|H'];
      [exfalso; apply Hne; apply (weight0 eps s Hs); auto|]. lia. }
  assert (Hj0s : (spv (sc_v g) - q <= j0 <= spv (sc_v g))%nat).
  { destruct (Nat.lt_ge_cases j0 (spv (sc_v g) - q)) as [H|H];
      [exfalso; apply Hne; apply (weight0 eps s Hs); auto|].
    destruct (Nat.lt_ge_cases (spv (sc_v g)) j0) as [H'|H'];
      [exfalso; apply Hne; apply (weight0 eps s Hs); auto|]. lia. }
  unfold surf_moved_to_constraints, surf_spans_of. rewrite (npu eps s Hs), (npv eps s Hs). cbn [bind].
  unfold subi at 1 2. destruct (Nat.leb_spec 1 n); [|lia]. destruct (Nat.leb_spec 1 m); [|lia]. cbn [bind foldM].
  rewrite Eu, Ev. cbn [bind fst snd].
  assert (Hir : forall N a b c, (c < N)%nat -> (a <= c <= b)%nat -> (keep = true -> (0 < c < N - 1)%nat) -> (b < N)%nat ->
     exists x y, inner_range keep N a b = Ok (x, y) /\ (x <= c <= y)%nat /\ (y < N)%nat).
  { intros N a b c HcN Hab Hk HbN. unfold inner_range, subi. destruct keep.
    - specialize (Hk eq_refl). destruct (Nat.leb_spec 2 N); [|lia]. cbn [bind]. exists (max 1 a), (min (N - 2) b). split; [reflexivity|lia].
    - exists a, b. auto. }
  destruct (Hir n (min (n - 1) (spu (sc_u g) - p)) (max 0 (spu (sc_u g))) i0 Hi0 ltac:(lia) ltac:(intros E; apply Hke in E; lia) ltac:(lia)) as (i1 & i2 & -> & Hi & Hi2).
  destruct (Hir m (min (m - 1) (spv (sc_v g) - q)) (max 0 (spv (sc_v g))) j0 Hj0 ltac:(lia) ltac:(intros E; apply Hke in E; lia) ltac:(lia)) as (j1 & j2 & -> & Hj & Hj2).
  cbn [bind]. unfold surf_to_delta. cbn [mapM].
  destruct (ss_value0 eps s Hs s (sc_u g) (sc_v g) (sc_du g) (sc_dv g) ltac:(unfold same_shape; tauto) Huv) as (z & Ez & _).
  rewrite Ez. cbn [bind]. set (d := mksc _ _ _ _ _).
  unfold surf_moved_delta. cbn [length Nat.ltb Nat.leb]. unfold surf_move_delta, subi.
  destruct (Nat.leb_spec i1 (i2 + 1)); [|lia]. destruct (Nat.leb_spec j1 (j2 + 1)); [|lia]. cbn [bind].
  destruct (Nat.leb_spec (p + 1) (length ku)); [|unfold s_nU in *; lia]. cbn [bind]. fold n.
  replace (length ku - (p + 1))%nat with n by (unfold s_nU; lia).
  destruct (surf_shape_matrix_ok eps ku kv n m p q Hku Hkv Hcu Hcv Hsu Hsv He [d] i1 (i2 + 1 - i1) j1 (j2 + 1 - j1) ltac:(lia) ltac:(lia)) as (B & EB & RB & CB & VB).
  { intros d' [<-|[]]. exact Huv. }
  rewrite EB. cbn [bind].
  destruct (mapM_all_ok (fun co => shape_solve lu llt B (map (fun c0 => sc_x c0 co) [d])) (seq 0 dim)) as (X & EX).
  { intros co _. apply (shape_solve_found eps lu llt B (map (fun c0 => sc_x c0 co) [d]) ((i0 - i1) + (i2 + 1 - i1) * (j0 - j1)) Hlu Hllt RB eq_refl).
    - rewrite CB. apply grid_lt; lia.
    - rewrite (VB 0%nat d (i0 - i1)%nat (j0 - j1)%nat eq_refl) by lia.
      replace (i1 + (i0 - i1))%nat with i0 by lia. replace (j1 + (j0 - j1))%nat with j0 by lia.
      intros Hz. apply Hne. rewrite <- (wgt_pole eps s Hs _ _ i0 j0 Huv Hi0 Hj0). unfold wgt.
      destruct (grid_index i0 j0 n ltac:(lia) Hi0) as (-> & ->). exact Hz. }
  rewrite EX. cbn [bind].
  destruct (surf_shift_ok eps (s_poles s) (poles_of_columns ((i2 + 1 - i1) * (j2 + 1 - j1)) X) n m i1 (i2 + 1 - i1) j1 (j2 + 1 - j1) LP ltac:(lia) ltac:(lia) (poles_length eps _ X)) as (P1 & EP & LP1 & _).
  rewrite EP. cbn [bind]. exact (mk_surf_same _ _ _ _ _ _ _ Hmk LP1).
Qed.

Lemma surf_point_returns lu llt dim x u v keep : complete_solver lu -> complete_solver llt -> in_surface s u v ->
  surface_movable s u v keep -> exists s', surf_moved_to_point lu llt dim s x u v keep = Ok s'.
Proof. intros Hlu Hllt Huv Hm. exact (surf_single_returns lu llt dim (mksc u v x 0%nat 0%nat) keep Hlu Hllt Huv Hm). Qed.

Lemma surf_in_place lu llt dim x u v keep s' : exact_solver lu -> exact_solver llt -> in_surface s u v ->
  (surf_move_to_point lu llt dim s x u v keep = Ok s' <-> surf_moved_to_point lu llt dim s x u v keep = Ok s').
Proof.
  intros Hlu Hllt Huv. unfold surf_move_to_point, surf_moved_to_point.
  assert (Key : forall s1, surf_moved_to_constraints lu llt dim s [mksc u v x 0%nat 0%nat] keep = Ok s1 -> surf_copyPoles s (s_poles s1) = Ok s1).
  { intros s1 E.
    assert (Hp : positions s [mksc u v x 0%nat 0%nat]) by (intros g [<-|[]]; auto).
    destruct (surf_constraints_ok eps s Hs lu llt dim [mksc u v x 0%nat 0%nat] keep s1 Hlu Hllt Nat.lt_0_1 Hp E) as ((R1 & R2 & R3 & R4 & R5 & R6 & R7 & R8 & R9 & _) & _).
    unfold surf_copyPoles, with_u. rewrite R9, Nat.eqb_refl. destruct s1; cbn in *. subst. reflexivity. }
  destruct (surf_moved_to_constraints lu llt dim s [mksc u v x 0%nat 0%nat] keep) as [s1| | |]; cbn [bind];
    [rewrite (Key s1 eq_refl); reflexivity| | |]; split; discriminate.
Qed.
End Srf.

Lemma k4 : knots_ok [0; 0; 1; 1] 2 1.
Proof.
  split; [reflexivity|]. split; [lia|]. split; [|cbn; lra].
  intros i j Hij Hj. cbn [length] in Hj.
  destruct i as [|[|[|[|]]]], j as [|[|[|[|]]]]; cbn; try lra; lia.
Qed.

Lemma sq_shapeable : 0 < eps < 1 -> shapeable_surface eps sq.
Proof.
  intros He.
  assert (Hsep : separated eps [0; 0; 1; 1]).
  { intros i j Hij Hj. cbn [length] in Hj. destruct i as [|[|[|[|]]]], j as [|[|[|[|]]]]; cbn; first [lia|left; reflexivity|right; lra]. }
  assert (Hcl : clamped [0; 0; 1; 1] 2 1).
  { split; intros i Hi; [destruct i as [|[|]]|destruct i as [|[|[|[|]]]]]; cbn; first [reflexivity|lia]. }
  unfold shapeable_surface. split; [|split; [|split; [lra|]]].
  - split; [exact k4|]. split; [exact k4|]. reflexivity.
  - repeat split; reflexivity.
  - auto.
Qed.

Lemma sq_in : in_surface sq 0 0.
Proof. unfold in_surface, in_rect. cbn. lra. Qed.

Lemma sq_mk : mk_surf (s_poles sq) (s_ku sq) (s_kv sq) (s_degU sq) (s_degV sq) = Ok sq.
Proof.
  rewrite (mk_surf_accepts eps); [reflexivity|cbn; lia|cbn; lia|apply k4|apply k4|reflexivity|reflexivity|reflexivity|reflexivity].
Qed.

Lemma sq_rv d j : rv eps [0; 0; 1; 1] 2 1 0 d j =
  match d, j with O, O => 1 | 1%nat, O => -1 | 1%nat, 1%nat => 1 | _, _ => 0 end.
Proof.
  assert (Hi : inside [0; 0; 1; 1] 2 1 0) by (unfold inside; cbn; lra).
  destruct (spn_ok eps [0; 0; 1; 1] 2 1 k4 0 Hi) as (_ & Hl & _).
  unfold rv. replace (spn eps [0; 0; 1; 1] 2 1 0) with 1%nat by lia.
  destruct j as [|[|j]]; cbn [Nat.leb]; [| |destruct d as [|[|]]; reflexivity].
  - destruct d as [|[|d]]; [cbn; rewrite ?Rmult_0_r, ?Rmult_1_r; field|cbn; rewrite ?Rmult_0_r, ?Rmult_1_r; field|]. rewrite ffall_big by lia. ring.
  - destruct d as [|[|d]]; [cbn; rewrite ?Rmult_0_r, ?Rmult_1_r; field|cbn; rewrite ?Rmult_0_r, ?Rmult_1_r; field|]. rewrite ffall_big by lia. ring.
Qed.

Lemma derivative_missed lu llt : 0 < eps < 1 -> complete_solver lu -> complete_solver llt ->
  exists s', surf_moved_to_constraints lu llt 2 sq [sq_goal] false = Ok s' /\ ~ meets_surface eps 2 s' [sq_goal].
Proof.
  intros He Hlu Hllt. pose proof (sq_shapeable He) as Hs.
  destruct (surf_single_returns sq Hs sq_mk lu llt 2 sq_goal false Hlu Hllt sq_in (free_surface_movable eps sq Hs 0 0 sq_in)) as (s' & E).
  exists s'. split; [exact E|]. intros Hm.
  destruct (Hm sq_goal (or_introl eq_refl)) as (z & Ez & Vz). specialize (Vz 0%nat ltac:(lia)). cbn [sq_goal sc_u sc_v sc_du sc_dv sc_x] in Ez, Vz.
  assert (Hin : forall g, In g [sq_goal] -> in_surface sq (sc_u g) (sc_v g)) by (intros g [<-|[]]; exact sq_in).
  destruct (surf_window eps sq Hs lu llt 2 [sq_goal] false s' Hin E) as (i1 & i2 & j1 & j2 & ds & (Hi2 & Hj2 & Hcov) & Hg & Ed & _ & _).
  (* the same differences, read as those of a position *)
  destruct (ss_value0 eps sq Hs sq 0 0 0 0 ltac:(unfold same_shape; tauto) sq_in) as (z0 & Ez0 & Vz0).
  destruct (ss_value0 eps sq Hs sq 0 0 1 0 ltac:(unfold same_shape; tauto) sq_in) as (z1 & Ez1 & Vz1).
  set (x0 := fun co => z0 co + (sc_x sq_goal co - z1 co)). set (g0 := mksc 0 0 x0 0%nat 0%nat).
  assert (Hg0 : surface_gaps eps sq [g0] ds).
  { unfold surface_gaps in *. inversion Hg as [|? d ? l Hd Hl]; subst. inversion Hl; subst. constructor; [|constructor].
    destruct Hd as (Eu & Ev & w & Ew & Vw). split; [exact Eu|]. split; [exact Ev|]. exists z0. split; [exact Ez0|].
    cbn [sq_goal sc_u sc_v sc_du sc_dv] in Ew. rewrite Ez1 in Ew. injection Ew as <-.
    intros co. rewrite Vw. unfold g0, x0. cbn [sc_x]. ring. }
  assert (Hp0 : positions sq [g0]) by (intros g [<-|[]]; split; [reflexivity|split; [reflexivity|exact sq_in]]).
  assert (Hin0 : forall g, In g [g0] -> in_surface sq (sc_u g) (sc_v g)) by (intros g [<-|[]]; exact sq_in).
  destruct (surf_delta_ok eps sq Hs lu llt 2 [g0] ds i1 i2 j1 j2 (proj1 Hlu) (proj1 Hllt) Hi2 Hj2 Hin0 Hg0 s' Nat.lt_0_1 Hp0 Ed) as (Hr & Hmeet & Hleast & _).
  assert (Hsh : same_shape sq s') by (apply (reshaped_shape sq i1 i2 j1 j2); exact Hr).
  destruct (ss_value0 eps sq Hs s' 0 0 1 0 Hsh sq_in) as (z' & Ez' & Vz'). rewrite Ez in Ez'. injection Ez' as <-.
  assert (H00 : (i1 = 0 /\ j1 = 0)%nat).
  { destruct (Nat.eq_dec i1 0) as [Hi1|Hi1]; [destruct (Nat.eq_dec j1 0) as [Hj1|Hj1]; [auto|]|]; exfalso;
      (destruct (Hcov 0%nat 0%nat) as [(Hk & _)|Hz]; [cbn; lia|cbn; lia|lia|discriminate|]);
      specialize (Hz _ (or_introl eq_refl)); change (pole_weight sq 0 0 0 0 = 0) in Hz; rewrite <- (wgt_pole eps sq Hs 0 0 0 0 sq_in) in Hz by (cbn; lia);
      unfold wgt in Hz; change (s_nU sq) with 2%nat in Hz; change (s_nV sq) with 2%nat in Hz; cbn [Nat.add Nat.mul Nat.modulo Nat.div Nat.divmod fst snd Nat.sub] in Hz;
      change (s_ku sq) with [0; 0; 1; 1] in Hz; change (s_kv sq) with [0; 0; 1; 1] in Hz;
      change (s_degU sq) with 1%nat in Hz; change (s_degV sq) with 1%nat in Hz; rewrite !sq_rv in Hz; lra. }
  destruct H00 as (-> & ->).
  specialize (Vz' 0%nat). rewrite Vz in Vz'. specialize (Vz0 0%nat). specialize (Vz1 0%nat).
  destruct (Hmeet ltac:(cbn [length]; nia) g0 (or_introl eq_refl)) as (zz & Ezz & Vzz). specialize (Vzz 0%nat ltac:(lia)). cbn [g0 sc_u sc_v sc_du sc_dv sc_x] in Ezz, Vzz.
  destruct (ss_value0 eps sq Hs s' 0 0 0 0 Hsh sq_in) as (z2 & Ez2 & Vz2). rewrite Ezz in Ez2. injection Ez2 as <-. specialize (Vz2 0%nat).
  assert (Hx0 : x0 0%nat = 1).
  { unfold x0. rewrite Vz0, Vz1. change (s_nU sq) with 2%nat. change (s_nV sq) with 2%nat.
    change (s_ku sq) with [0; 0; 1; 1]. change (s_kv sq) with [0; 0; 1; 1]. change (s_degU sq) with 1%nat. change (s_degV sq) with 1%nat.
    cbn [sumn]. rewrite !sq_rv. cbn [Nat.add Nat.mul sq s_poles nth sq_goal sc_x]. lra. }
  rewrite Vzz, Hx0 in Vz2. clear Vz0 Vz1.
  change (s_nU sq) with 2%nat in *. change (s_nV sq) with 2%nat in *.
  change (s_ku sq) with [0; 0; 1; 1] in *. change (s_kv sq) with [0; 0; 1; 1] in *. change (s_degU sq) with 1%nat in *. change (s_degV sq) with 1%nat in *.
  cbn [sumn] in Vz', Vz2. repeat rewrite sq_rv in Vz'. repeat rewrite sq_rv in Vz2. cbn [Nat.add Nat.mul] in Vz', Vz2.
  (* the second pole has not moved *)
  assert (H10 : nth 1 (s_poles s') (fun _ => 0) 0%nat = 1).
  { destruct (Nat.eq_dec i2 0) as [Hi0|Hi0].
    - destruct Hr as (_ & _ & _ & _ & _ & _ & _ & _ & _ & Ho). specialize (Ho 1%nat 0%nat ltac:(cbn; lia) ltac:(lia)).
      change (s_nU sq) with 2%nat in Ho. cbn [Nat.add Nat.mul] in Ho. rewrite Ho. reflexivity.
    - set (s'' := mks 1 1 [fun co => match co with O => 1 | _ => x0 co end; nth 1 (s_poles sq) (fun _ => 0); nth 2 (s_poles sq) (fun _ => 0); nth 3 (s_poles sq) (fun _ => 0)]
        [0; 0; 1; 1] [0; 0; 1; 1] 0 1 0 1).
      assert (Hr'' : reshaped_surface sq 0 i2 0 j2 s'').
      { unfold reshaped_surface. repeat (split; [reflexivity|]). intros i j Hi Ho. change (s_nU sq) with 2%nat in *.
        destruct i as [|[|i]]; [|destruct j as [|[|j]]; reflexivity|lia]. destruct j as [|[|j]]; [lia|reflexivity|reflexivity]. }
      assert (Hm'' : meets_surface eps 2 s'' [g0]).
      { intros g [<-|[]]. cbn [g0 sc_u sc_v sc_du sc_dv sc_x].
        destruct (ss_value0 eps sq Hs s'' 0 0 0 0 (reshaped_shape sq _ _ _ _ s'' Hr'') sq_in) as (w & Ew & Vw). exists w. split; [exact Ew|].
        intros co Hco. rewrite Vw. change (s_nU sq) with 2%nat. change (s_nV sq) with 2%nat.
        change (s_ku sq) with [0; 0; 1; 1]. change (s_kv sq) with [0; 0; 1; 1]. change (s_degU sq) with 1%nat. change (s_degV sq) with 1%nat.
        cbn [sumn]. rewrite !sq_rv. cbn [Nat.add Nat.mul]. cbn [s'' s_poles nth].
        destruct co as [|co]; [|ring]. rewrite Hx0. ring. }
      specialize (Hleast ltac:(cbn [length]; nia) s'' 0%nat ltac:(lia) Hr'' Hm''). unfold displacement in Hleast.
      change (length (s_poles sq)) with 4%nat in Hleast. cbn [sumn] in Hleast. cbn [sq s'' s_poles nth] in Hleast.
      pose proof (pow2_ge_0 (nth 2 (s_poles s') (fun _ => 0) 0%nat - 0)). pose proof (pow2_ge_0 (nth 3 (s_poles s') (fun _ => 0) 0%nat - 1)).
      assert (Hz0 : nth 0 (s_poles s') (fun _ => 0) 0%nat = 1) by lra. rewrite Hz0 in Hleast.
      assert (Hsq : (nth 1 (s_poles s') (fun _ => 0) 0%nat - 1) ^ 2 = 0) by (pose proof (pow2_ge_0 (nth 1 (s_poles s') (fun _ => 0) 0%nat - 1)); lra).
      apply Rsqr_0_uniq in Hsq || (rewrite <- Rsqr_pow2 in Hsq; apply Rsqr_0_uniq in Hsq). lra. }
  lra.
Qed.
End AtR.
