(** Round trip through JSON. *)
From Coq Require Import List Arith ZArith QArith Reals String Lia Lra Bool List.
From Verif Require Import Model_Base Model_Knots Model_Rational Model_Curve Model_Surface Model_Json
  Spec_Base Spec_Basis Spec_Eval Spec_Class Spec_Surface Spec_Knots Spec_Json Proof_Base Proof_Basis Proof_Eval Proof_Ctor Proof_Knots
  Proof_Rational.
Import ListNotations.
Local Open Scope R_scope.

(** ** Knots and multiplicities of separated knots *)
Lemma separated_tl eps x k : separated eps (x :: k) -> separated eps k.
Proof. intros H i j Hij Hj. apply (H (S i) (S j)); simpl; lia. Qed.

Lemma separated_grouped eps (k : list R) : k <> [] -> separated eps k ->
  exists ks ms, k = repeat_each ks ms /\ ks <> [] /\ length ks = length ms /\
    (forall m, In m ms -> (1 <= m)%nat) /\ spaced eps ks /\ kn ks 0 = kn k 0.
Proof.
  induction k as [|x k IH]; [congruence|]. intros _ HS.
  destruct k as [|y k].
  - exists [x], [1%nat]. simpl. split; [reflexivity|]. split; [discriminate|]. split; [reflexivity|].
    split; [intros m [<-|[]]; lia|]. split; [|reflexivity]. intros i Hi. simpl in Hi. lia.
  - destruct (IH ltac:(discriminate) (separated_tl _ _ _ HS)) as (ks & ms & E & N & L & M & Sp & F).
    destruct ks as [|z ks]; [congruence|]. destruct ms as [|m ms]; [discriminate|].
    change (z = y) in F. subst z.
    destruct (HS 0%nat 1%nat ltac:(lia) ltac:(simpl; lia)) as [Eq|Lt].
    + change (x = y) in Eq. subst x. exists (y :: ks), (S m :: ms).
      split; [simpl; rewrite E; reflexivity|]. split; [discriminate|]. split; [simpl in *; lia|].
      split; [intros a [<-|Ha]; [lia|apply M; right; exact Ha]|]. split; [exact Sp|reflexivity].
    + change (eps < y - x) in Lt. exists (x :: y :: ks), (1%nat :: m :: ms).
      split; [simpl; rewrite E; reflexivity|]. split; [discriminate|]. split; [simpl in *; lia|].
      split; [intros a [<-|Ha]; [lia|apply M; exact Ha]|]. split; [|reflexivity].
      intros i Hi. destruct i as [|i]; [change (x + eps < y); lra|].
      apply (Sp i). simpl in *; lia.
Qed.

Lemma mapM_reals (l : list R) : mapM get_real (map JReal l) = Ok l.
Proof. induction l as [|a l IH]; [reflexivity|]. cbn [map mapM get_real bind]. rewrite IH. reflexivity. Qed.
Lemma mapM_sizes (l : list nat) : mapM get_size (map (fun n => @JInt R (Z.of_nat n)) l) = Ok l.
Proof.
  induction l as [|a l IH]; [reflexivity|]. cbn [map mapM get_size bind].
  destruct (Z.leb_spec 0 (Z.of_nat a)); [|lia]. cbn [bind]. rewrite IH. cbn [bind]. rewrite Nat2Z.id. reflexivity.
Qed.

Section AtR.
Variable eps : R.
Local Hint Extern 0 (Num R) => exact (NumR eps) : typeclass_instances.

Lemma read_point dim (p : pt R) : exists q, make_array dim (json_point dim p) = Ok q /\
  forall c, (c < dim)%nat -> q c = p c.
Proof.
  unfold make_array, json_point, json_reals. rewrite !map_length, seq_length, Nat.eqb_refl. cbn [negb].
  rewrite mapM_reals. cbn [bind]. eexists; split; [reflexivity|]. intros c Hc. cbn beta.
  rewrite (nth_indep _ _ (p 0%nat)) by (rewrite map_length, seq_length; lia).
  rewrite map_nth, seq_nth by lia. reflexivity.
Qed.

Lemma read_points dim (P : list (pt R)) : exists P', make_point_vec dim (json_points dim P) = Ok P' /\
  same_points dim P P'.
Proof.
  unfold make_point_vec, json_points. induction P as [|p P (P' & E & L & V)].
  - exists []. split; [reflexivity|]. split; [reflexivity|]. intros i c Hi. simpl in Hi. lia.
  - destruct (read_point dim p) as (q & Eq & Vq). exists (q :: P').
    cbn [map mapM]. rewrite Eq. cbn [bind]. rewrite E. cbn [bind]. split; [reflexivity|].
    split; [simpl; rewrite L; reflexivity|]. intros [|i] c Hi Hc; [exact (Vq c Hc)|].
    apply (V i c); [simpl in Hi; lia|exact Hc].
Qed.

Lemma make_vec_reals (l : list R) : make_vec get_real (json_reals l) = Ok l.
Proof. apply mapM_reals. Qed.
Lemma make_vec_sizes (l : list nat) : @make_vec R nat get_size (json_sizes l) = Ok l.
Proof. apply mapM_sizes. Qed.

Lemma uint32_read n : (Z.of_nat n < 2 ^ 32)%Z -> @get_uint64 R (uint32 n) = Ok n.
Proof.
  intros H. unfold get_uint64, uint32. change (2 ^ 32)%Z with 4294967296%Z in H.
  rewrite Z.mod_small by lia. destruct (Z.leb_spec 0 (Z.of_nat n)); [|lia]. rewrite Nat2Z.id. reflexivity.
Qed.

Lemma rational_points dim (P : list (pt R)) : nonzero_weights dim P ->
  exists P' pw, make_point_vec dim (json_points dim (map (weight_projection dim) P)) = Ok P' /\
    add_weights_coord dim P' (map (weight dim) P) = Ok pw /\ same_points (S dim) P pw.
Proof.
  intros HW. destruct (read_points dim (map (weight_projection dim) P)) as (P' & E & L & V).
  rewrite map_length in L, V. exists P'.
  destruct (proj2 (weights_spec eps dim P' (map (weight dim) P)) ltac:(rewrite map_length; exact L)) as (pw & E2 & L2 & V2).
  exists pw. split; [exact E|]. split; [exact E2|]. split; [congruence|]. intros i c Hi Hc.
  pose proof (separate_spec eps dim P) as S. unfold separate_weights in S. destruct S as (_ & _ & S).
  destruct (S i Hi) as (A & B). specialize (B (HW i Hi)).
  destruct (V2 i ltac:(congruence)) as (C & D).
  destruct (Nat.eq_dec c dim) as [->|N]; [rewrite C; exact A|].
  rewrite D, V, B, A by lia. field. apply HW; exact Hi.
Qed.

Lemma grouped_round (k : list R) : 0 < eps -> k <> [] -> separated eps k ->
  exists ks ms, knots_and_mults k = Ok (ks, ms) /\ flat_knots ks ms = Ok k.
Proof.
  intros He N HS. destruct (separated_grouped eps k N HS) as (ks & ms & E & N' & L & M & Sp & _).
  destruct (round_trip eps ks ms He N' L M Sp) as (A & B & _). exists ks, ms.
  rewrite E. split; [exact B|exact A].
Qed.

Lemma mk_surf_accepts (P : list (pt R)) (ku kv : list R) p q :
  (2 * p + 1 < length ku)%nat -> (2 * q + 1 < length kv)%nat -> nondecreasing ku -> nondecreasing kv ->
  length P = ((length ku - p - 1) * (length kv - q - 1))%nat ->
  (Z.of_nat (length ku) < 2 ^ 64)%Z -> (Z.of_nat (length kv) < 2 ^ 64)%Z -> (Z.of_nat (length P) < 2 ^ 64)%Z ->
  mk_surf P ku kv p q = Ok (mks p q P ku kv (kn ku 0) (kn ku (length ku - 1)) (kn kv 0) (kn kv (length kv - 1))).
Proof.
  intros Hp Hq Nu Nv LP Bu Bv BP. change (2 ^ 64)%Z with size_mod in *.
  assert (Hz : forall (k : list R) d, (2 * d + 1 < length k)%nat -> (Z.of_nat (length k) < size_mod)%Z ->
     npoles_z k d = Z.of_nat (length k - d - 1)).
  { intros k d A B. unfold npoles_z. rewrite Z.mod_small by lia. lia. }
  assert (Hc : forall (k : list R) d, (2 * d + 1 < length k)%nat -> (Z.of_nat (length k) < size_mod)%Z ->
     nondecreasing k -> check_curve_z (npoles_z k d) k d = Ok true).
  { intros k d A B N. unfold check_curve_z.
    assert (Hne : k <> []) by (destruct k; [simpl in A; lia|discriminate]).
    assert (exists b, check_curve (length k - d - 1) k d = Ok b /\ b = true) as (b & Eb & ->).
    { destruct (Rle_dec 0 eps) as [He|He].
      - destruct (check_spec eps eps k (length k - d - 1) d Hne He ltac:(auto)) as (b & E & _ & S2).
        exists b. split; [exact E|]. apply S2; [lia|lia|exact N].
      - destruct (check_spec eps 0 k (length k - d - 1) d Hne ltac:(lra)) as (b & E & _ & S2).
        { intros x y _ _ H. pose proof (Rabs_pos (x - y)). lra. }
        exists b. split; [exact E|]. apply S2; [lia|lia|exact N]. }
    unfold check_curve in Eb. destruct (knots_and_mults k) as [[ks ms]| | |]; try discriminate.
    cbn [bind] in Eb |- *. injection Eb as Eb. apply andb_true_iff in Eb. destruct Eb as (Eb & _).
    apply andb_true_iff in Eb. destruct Eb as (Eb & _). rewrite Eb. cbn [andb].
    rewrite (Hz k d A B). f_equal. apply andb_true_iff. split.
    - apply Z.eqb_eq. rewrite Z.mod_small by lia. lia.
    - apply Z.leb_le. lia. }
  assert (Hf : forall k : list R, (0 < length k)%nat -> front k = Ok (kn k 0)).
  { intros k Hk. destruct k; [simpl in Hk; lia|reflexivity]. }
  unfold mk_surf. rewrite !Hf, !back_kn by lia. cbn [bind]. rewrite !Hz by lia.
  rewrite <- Nat2Z.inj_mul, <- LP. rewrite Z.mod_small by lia. rewrite Z.eqb_refl.
  rewrite <- (Hz ku p) by lia. rewrite <- (Hz kv q) by lia.
  rewrite !Hc by auto. reflexivity.
Qed.

Ltac step := first [rewrite make_vec_reals | rewrite make_vec_sizes | rewrite uint32_read by assumption]; cbn [bind].
Ltac rd := cbn [member find fst snd String.eqb Ascii.eqb Bool.eqb bind].

Lemma shape_facts (c : curve R) : shape_ok c -> c_knots c <> [] /\ (0 < length (c_knots c))%nat.
Proof. intros (A & B & _). assert (0 < length (c_knots c))%nat by lia. split; [|lia]. destruct (c_knots c); [simpl in H; lia|discriminate]. Qed.

Lemma bscurve_round dim c : 0 < eps -> storable_curve eps c ->
  exists j c', json_of_bscurve dim c = Ok j /\ (forall f, make_curve (S f) dim j = Ok (CBS c')) /\ restored_curve dim c c'.
Proof.
  intros He (Sh & Sep & Dg). destruct (shape_facts c Sh) as (Ne & Lp). destruct Sh as (L & D & N).
  destruct (grouped_round (c_knots c) He Ne Sep) as (ks & ms & E1 & E2).
  destruct (read_points dim (c_poles c)) as (P' & E3 & SP).
  unfold json_of_bscurve. rewrite E1. cbn [bind]. eexists. 
  exists (mk (c_deg c) P' (c_knots c) (kn (c_knots c) 0) (kn (c_knots c) (length (c_knots c) - 1))).
  split; [reflexivity|]. split.
  - intros f. cbn [make_curve]. rd. cbn [get_int Z.leb Z.compare Pos.compare Pos.compare_cont andb bind].
    change ((125 =? 125)%Z) with true. cbv iota. rewrite E3. cbn [bind]. unfold read_flat. rd. step. rd. step. rewrite E2. cbn [bind]. step.
    rewrite (mk_curve_accepts eps); [reflexivity| | |exact N].
    + destruct SP as (-> & _). fold (c_n c). lia.
    + destruct SP as (-> & _). fold (c_n c). lia.
  - unfold restored_curve. cbn. split; [reflexivity|]. split; [reflexivity|]. split; [exact SP|reflexivity].
Qed.

Lemma rational_round dim c : 0 < eps -> storable_curve eps c -> nonzero_weights dim (c_poles c) ->
  exists j c', json_of_rational dim c = Ok j /\ (forall f, make_curve (S f) dim j = Ok (CRat c')) /\ restored_curve (S dim) c c'.
Proof.
  intros He (Sh & Sep & Dg) HW. destruct (shape_facts c Sh) as (Ne & Lp). destruct Sh as (L & D & N).
  destruct (grouped_round (c_knots c) He Ne Sep) as (ks & ms & E1 & E2).
  destruct (rational_points dim (c_poles c) HW) as (P' & pw & E3 & E4 & SP).
  unfold json_of_rational. rewrite E1. cbn [bind]. eexists. 
  exists (mk (c_deg c) pw (c_knots c) (kn (c_knots c) 0) (kn (c_knots c) (length (c_knots c) - 1))).
  split; [reflexivity|]. split.
  - intros f. cbn [make_curve]. rd. cbn [get_int Z.leb Z.compare Pos.compare Pos.compare_cont andb bind].
    change ((126 =? 125)%Z) with false. change ((126 =? 126)%Z) with true. cbv iota. unfold polesProjected, curve_weights. rewrite E3. cbn [bind].
    unfold read_flat. rd. repeat step. rewrite E2. cbn [bind]. repeat step.
    unfold mk_rational_weights. rewrite E4. cbn [bind].
    rewrite (mk_curve_accepts eps); [reflexivity| | |exact N].
    + destruct SP as (-> & _). fold (c_n c). lia.
    + destruct SP as (-> & _). fold (c_n c). lia.
  - unfold restored_curve. cbn. split; [reflexivity|]. split; [reflexivity|]. split; [exact SP|reflexivity].
Qed.

Lemma surface_round dim s : 0 < eps -> storable_s eps dim s ->
  exists j s', json_of_surface dim s = Ok j /\ make_surface dim j = Ok s' /\ restored_s dim s s'.
Proof.
  intros He. destruct s as [s|s|]; [| |intros []].
  - intros (Du & Dv & LP & Nu & Su & Nv & Sv & Bp & Bq & Bu & Bv & BP). unfold s_nU, s_nV in *.
    assert (Ku : s_ku s <> []) by (intros E; rewrite E in Du; simpl in Du; lia).
    assert (Kv : s_kv s <> []) by (intros E; rewrite E in Dv; simpl in Dv; lia).
    destruct (grouped_round _ He Ku Su) as (ks & ms & E1 & E2).
    destruct (grouped_round _ He Kv Sv) as (ks' & ms' & E1' & E2').
    destruct (read_points dim (s_poles s)) as (P' & E3 & SP).
    cbn [json_of_surface]. unfold json_of_bssurface. rewrite E1, E1'. cbn [bind]. do 2 eexists.
    split; [reflexivity|]. split.
    + unfold make_surface. rd. cbn [get_int Z.leb Z.compare Pos.compare Pos.compare_cont andb bind].
      change ((127 =? 127)%Z) with true. cbv iota. rewrite E3. cbn [bind].
      unfold read_flat. rd. repeat step. rewrite E2. cbn [bind]. rd. repeat step. rewrite E2'. cbn [bind]. repeat step.
      rewrite mk_surf_accepts; [reflexivity|lia|lia|exact Nu|exact Nv| |assumption|assumption|];
        destruct SP as (-> & _); assumption.
    + cbn [restored_s]. unfold restored_surface. cbn. do 4 (split; [reflexivity|]). split; [exact SP|split; reflexivity].
  - intros ((Du & Dv & LP & Nu & Su & Nv & Sv & Bp & Bq & Bu & Bv & BP) & HW). unfold s_nU, s_nV in *.
    assert (Ku : s_ku s <> []) by (intros E; rewrite E in Du; simpl in Du; lia).
    assert (Kv : s_kv s <> []) by (intros E; rewrite E in Dv; simpl in Dv; lia).
    destruct (grouped_round _ He Ku Su) as (ks & ms & E1 & E2).
    destruct (grouped_round _ He Kv Sv) as (ks' & ms' & E1' & E2').
    destruct (rational_points dim (s_poles s) HW) as (P' & pw & E3 & E4 & SP).
    cbn [json_of_surface]. unfold json_of_rational_surface, separate_weights. rewrite E1, E1'. cbn [bind]. do 2 eexists.
    split; [reflexivity|]. split.
    + unfold make_surface. rd. cbn [get_int Z.leb Z.compare Pos.compare Pos.compare_cont andb bind].
      change ((128 =? 127)%Z) with false. change ((128 =? 128)%Z) with true. cbv iota. rewrite E3. cbn [bind]. unfold read_flat. rd. repeat step. rewrite E4. cbn [bind]. rd. repeat step. rewrite E2. cbn [bind]. rd. repeat step. rewrite E2'. cbn [bind]. repeat step.
      rewrite mk_surf_accepts; [reflexivity|lia|lia|exact Nu|exact Nv| |assumption|assumption|];
        destruct SP as (-> & _); assumption.
    + cbn [restored_s]. unfold restored_surface. cbn. do 4 (split; [reflexivity|]). split; [exact SP|split; reflexivity].
Qed.

Lemma curve_round g : forall dim, 0 < eps -> storable eps dim g ->
  exists j g', json_of_curve dim g = Ok j /\ (forall f, (depth g <= f)%nat -> make_curve f dim j = Ok g') /\ restored dim g g'.
Proof.
  induction g as [c|c|c2 IH s|c IH u1 u2]; intros dim He H; [| | |destruct H].
  - destruct (bscurve_round dim c He H) as (j & c' & A & B & C). exists j, (CBS c'). split; [exact A|]. split; [|exact C].
    intros [|f] Hf; [simpl in Hf; lia|]. apply B.
  - destruct H as (H & HW). destruct (rational_round dim c He H HW) as (j & c' & A & B & C). exists j, (CRat c'). split; [exact A|]. split; [|exact C].
    intros [|f] Hf; [simpl in Hf; lia|]. apply B.
  - destruct H as (H1 & H2). destruct (IH 2%nat He H1) as (jc & c2' & A & B & C).
    destruct (surface_round dim s He H2) as (js & s' & A' & B' & C').
    cbn [json_of_curve]. rewrite A. cbn [bind]. rewrite A'. cbn [bind]. do 2 eexists. split; [reflexivity|]. split.
    + intros [|f] Hf; [simpl in Hf; lia|]. cbn [make_curve]. rd. cbn [get_int Z.leb Z.compare Pos.compare Pos.compare_cont andb bind].
      change ((142 =? 125)%Z) with false. change ((142 =? 126)%Z) with false. change ((142 =? 142)%Z) with true. cbv iota.
      rewrite (B f) by (simpl in Hf; lia). cbn [bind]. rewrite B'. cbn [bind]. reflexivity.
    + split; assumption.
Qed.

Lemma revolution_round c2 (o z x : pt R) th1 th2 : 0 < eps -> storable eps 2 c2 ->
  exists j c2' (o' z' x' : pt R), json_of_surface3 (SRev c2 (o, z, x) th1 th2) = Ok j /\
    (forall f, (depth c2 <= f)%nat -> make_surface3 f j = Ok (SRev c2' (o', z', x') th1 th2)) /\
    restored 2 c2 c2' /\ (forall c, (c < 3)%nat -> o' c = o c /\ z' c = z c /\ x' c = x c).
Proof.
  intros He H. destruct (curve_round c2 2 He H) as (jc & c2' & A & B & C).
  destruct (read_point 3 o) as (o' & Eo & Vo). destruct (read_point 3 z) as (z' & Ez & Vz).
  destruct (read_point 3 x) as (x' & Ex & Vx).
  cbn [json_of_surface3]. rewrite A. cbn [bind]. eexists. exists c2', o', z', x'. split; [reflexivity|]. split; [|split; [exact C|]].
  - intros f Hf. unfold make_surface3. rd. cbn [get_int Z.leb Z.compare Pos.compare Pos.compare_cont andb bind].
    change ((120 =? 120)%Z) with true. cbv iota. rewrite (B f Hf). cbn [bind].
    unfold make_ax2, json_points. cbn [map]. rewrite Eo. cbn [bind]. rewrite Ez. cbn [bind]. rewrite Ex. cbn [bind get_real]. reflexivity.
  - intros c Hc. split; [|split]; auto.
Qed.

(** ** What is refused *)
Lemma not_reals_refused (l : list (json R)) : (exists v, In v l /\ forall x, v <> JReal x) ->
  make_vec get_real (JArr l) = Throw InvalidArgument.
Proof.
  intros (v & Hin & Hv). cbn [make_vec]. induction l as [|a l IH]; [destruct Hin|].
  cbn [mapM]. destruct a as [ |z|x|a|m]; try reflexivity. cbn [get_real bind].
  destruct Hin as [E|Hin]; [exfalso; exact (Hv x (eq_sym E))|]. rewrite (IH Hin). reflexivity.
Qed.

Lemma wrong_dim_points dim dim' (P : list (pt R)) : P <> [] -> dim <> dim' ->
  make_point_vec dim' (json_points dim P) = Throw InvalidArgument.
Proof.
  intros HP HD. destruct P as [|p P]; [congruence|]. unfold json_points. cbn [make_point_vec map mapM].
  unfold make_array at 1, json_point at 1, json_reals at 1. rewrite !map_length, seq_length.
  destruct (Nat.eqb_spec dim dim'); [contradiction|]. reflexivity.
Qed.

Lemma wrong_dim f dim dim' (g : jcurve R) j : match g with CBS c | CRat c => c_poles c <> [] | _ => False end ->
  dim <> dim' -> json_of_curve dim g = Ok j -> make_curve (S f) dim' j = Throw InvalidArgument.
Proof.
  intros HP HD. destruct g as [c|c| |]; [| |destruct HP|destruct HP]; cbn [json_of_curve].
  - unfold json_of_bscurve. destruct (knots_and_mults (c_knots c)) as [[ks ms]| | |]; try discriminate.
    cbn [bind]. injection 1 as <-. cbn [make_curve]. rd. cbn [get_int Z.leb Z.compare Pos.compare Pos.compare_cont andb bind].
    change ((125 =? 125)%Z) with true. cbv iota. rewrite wrong_dim_points by assumption. reflexivity.
  - unfold json_of_rational. destruct (knots_and_mults (c_knots c)) as [[ks ms]| | |]; try discriminate.
    cbn [bind]. injection 1 as <-. cbn [make_curve]. rd. cbn [get_int Z.leb Z.compare Pos.compare Pos.compare_cont andb bind].
    change ((126 =? 125)%Z) with false. change ((126 =? 126)%Z) with true. cbv iota.
    rewrite wrong_dim_points; [reflexivity| |assumption]. unfold polesProjected. intros E. apply map_eq_nil in E. contradiction.
Qed.

Lemma trimmed_refused f dim c (u1 u2 : R) j : json_of_curve dim (CTrim c u1 u2) = Ok j ->
  make_curve (S f) dim j = Throw InvalidArgument.
Proof.
  cbn [json_of_curve]. destruct (json_of_curve dim c) as [jc| | |]; try discriminate. cbn [bind].
  injection 1 as <-. reflexivity.
Qed.

Lemma on_revolution_lost f dim c2 c ax th1 th2 j : 0 < eps -> storable eps 2 c2 -> (depth c2 <= f)%nat ->
  json_of_curve dim (COn c2 (SRev c ax th1 th2)) = Ok j -> make_curve (S f) dim j = Undef BadIndex.
Proof.
  intros He H Hf. destruct (curve_round c2 2 He H) as (jc & c2' & A & B & C).
  cbn [json_of_curve]. rewrite A. cbn [bind json_of_surface]. injection 1 as <-.
  cbn [make_curve]. rd. cbn [get_int Z.leb Z.compare Pos.compare Pos.compare_cont andb bind].
  change ((142 =? 125)%Z) with false. change ((142 =? 126)%Z) with false. change ((142 =? 142)%Z) with true. cbv iota.
  rewrite (B f Hf). reflexivity.
Qed.

Lemma unsupported_refused f dim m ty : find (fun kv => String.eqb (fst kv) "type") m = Some ("type"%string, @JInt R ty) ->
  (0 <= ty < 2 ^ 31)%Z -> ~ In ty [125; 126; 142]%Z -> make_curve (S f) dim (JObj m) = Throw InvalidArgument.
Proof.
  intros E B N. cbn [make_curve member]. rewrite E. cbn [bind snd get_int].
  change (2 ^ 31)%Z with 2147483648%Z in B.
  destruct (Z.leb_spec (-2147483648) ty); [|lia]. destruct (Z.leb_spec ty 2147483647); [|lia]. cbn [andb bind].
  cbn [In] in N. destruct (Z.eqb_spec ty 125); [exfalso; lia|]. destruct (Z.eqb_spec ty 126); [exfalso; lia|].
  destruct (Z.eqb_spec ty 142); [exfalso; lia|]. reflexivity.
Qed.
End AtR.

Lemma bounds_lost eps : 0 < eps < 1 -> exists (c : curve R) j c', storable_curve eps c /\
  @json_of_curve R (NumR eps) 1 (CBS c) = Ok j /\ @make_curve R (NumR eps) 1 1 j = Ok (CBS c') /\
  bounds c' <> bounds c.
Proof.
  intros He.
  assert (HS : storable_curve eps (mk 1 [fun _ => 0; fun _ => 1] [0; 0; 1; 1] 0 (1 / 2))).
  { split; [|split; [|reflexivity]].
    - split; [reflexivity|]. split; [unfold c_n; cbn; lia|]. intros i j Hij Hj. cbn [c_knots length] in Hj.
      destruct i as [|[|[|[|i]]]]; destruct j as [|[|[|[|j]]]]; try lia; cbn; lra.
    - intros i j Hij Hj. cbn [c_knots length] in Hj.
      destruct i as [|[|[|[|i]]]]; destruct j as [|[|[|[|j]]]]; try lia; cbn; first [left; reflexivity | right; lra]. }
  destruct (bscurve_round eps 1 _ ltac:(lra) HS) as (j & c' & A & B & R). exists (mk 1 [fun _ => 0; fun _ => 1] [0; 0; 1; 1] 0 (1 / 2)), j, c'.
  split; [exact HS|]. split; [exact A|]. split; [exact (B 0%nat)|].
  destruct R as (_ & _ & _ & R). unfold bounds. rewrite R. unfold first_last. cbn. intros E. injection E as E. lra.
Qed.

Lemma close_knots_lost : exists P k (c : curve Q) j c',
  @mk_curve Q NumQ P k 1 = Ok c /\
  @json_of_curve Q NumQ 1 (CBS c) = Ok j /\ @make_curve Q NumQ 1 1 j = Ok (CBS c') /\
  c_knots c' <> c_knots c.
Proof.
  exists [fun _ => 0; fun _ => 1; fun _ => 1; fun _ => 0]%Q, [0; 0; 1; 1 + @neps Q NumQ / 2; 2; 2]%Q.
  do 3 eexists. split; [vm_compute; reflexivity|]. split; [vm_compute; reflexivity|]. split; [vm_compute; reflexivity|].
  vm_compute. intros E. discriminate.
Qed.
