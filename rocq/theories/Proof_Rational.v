(** Integer helpers, quotient rule, weighted poles. *)
From Coq Require Import List Arith ZArith QArith Reals Lia Lra Bool.
From Verif Require Import Model_Base Model_Basis Model_Rational Spec_Base Spec_Basis Spec_Eval
  Spec_Rational Proof_Base Proof_Blossom Proof_Basis Proof_Ders Proof_Eval Proof_PropBasis.
Import ListNotations.
Local Open Scope R_scope.

(** ** Factorials and binomials *)
Lemma zfact_pos n : (1 <= zfact n)%Z.
Proof. induction n as [|n IH]; [simpl; lia|]. cbn [zfact]. nia. Qed.

Lemma zfact_le m n : (m <= n)%nat -> (zfact m <= zfact n)%Z.
Proof.
  induction 1 as [|n H IH]; [lia|]. cbn [zfact]. pose proof (zfact_pos n). nia.
Qed.

Lemma factorial_S mul m : (1 <= m)%nat ->
  factorial mul (S m) = let* f := factorial mul m in mul (Z.of_nat (S m)) f.
Proof. intros H. cbn [factorial]. destruct (Nat.leb_spec (S m) 1); [lia|reflexivity]. Qed.

Lemma factorial_size n : factorial mul_size n = Ok (zfact n mod size_mod)%Z.
Proof.
  induction n as [|[|m] IH]; [reflexivity|reflexivity|].
  rewrite factorial_S by lia. rewrite IH. cbn [bind]. unfold mul_size. f_equal.
  rewrite Z.mul_mod_idemp_r by (unfold size_mod; lia). reflexivity.
Qed.

Lemma factorial_size_exact n : factorial mul_size n = Ok (zfact n) <-> (n <= 20)%nat.
Proof.
  rewrite factorial_size. split; intros H.
  - destruct (le_lt_dec n 20) as [|H']; [assumption|]. exfalso.
    pose proof (zfact_le 21 n ltac:(lia)) as A.
    assert (B : (size_mod <= zfact 21)%Z) by (vm_compute; discriminate).
    pose proof (Z.mod_pos_bound (zfact n) size_mod ltac:(unfold size_mod; lia)).
    injection H. lia.
  - rewrite Z.mod_small; [reflexivity|]. pose proof (zfact_le n 20 H).
    pose proof (zfact_pos n). assert (zfact 20 < size_mod)%Z by (vm_compute; reflexivity). lia.
Qed.

Lemma factorial_int n :
  ((n <= 12)%nat -> factorial mul_int n = Ok (zfact n)) /\
  ((12 < n)%nat -> factorial mul_int n = Undef IntOverflow).
Proof.
  assert (A : forall n, (n <= 12)%nat -> factorial mul_int n = Ok (zfact n)).
  { intros m Hm. do 13 (destruct m as [|m]; [vm_compute; reflexivity|]). lia. }
  split; [apply A|]. intros H.
  induction n as [|m IH]; [lia|]. rewrite factorial_S by lia.
  destruct (Nat.eq_dec m 12) as [->|].
  - rewrite A by lia. vm_compute. reflexivity.
  - rewrite IH by lia. reflexivity.
Qed.

Lemma binom_0 n : binom n 0 = 1%nat. Proof. destruct n; reflexivity. Qed.
Lemma binom_gt n : forall k, (n < k)%nat -> binom n k = 0%nat.
Proof. induction n as [|n IH]; intros [|k] H; try lia; simpl; auto. rewrite !IH by lia. reflexivity. Qed.
Lemma binom_diag n : binom n n = 1%nat.
Proof. induction n as [|n IH]; simpl; auto. rewrite IH, binom_gt by lia. reflexivity. Qed.

Lemma binom_fact n : forall k, (k <= n)%nat ->
  (Z.of_nat (binom n k) * (zfact k * zfact (n - k)) = zfact n)%Z.
Proof.
  induction n as [|n IH]; intros [|k] H; try lia.
  - reflexivity.
  - rewrite binom_0, Nat.sub_0_r. cbn [zfact]. ring.
  - cbn [binom]. rewrite Nat2Z.inj_add. replace (S n - S k)%nat with (n - k)%nat by lia.
    destruct (Nat.eq_dec k n) as [->|Hk].
    + rewrite binom_diag, (binom_gt n (S n)), Nat.sub_diag by lia. cbn [zfact]. ring.
    + pose proof (IH k ltac:(lia)) as A. pose proof (IH (S k) ltac:(lia)) as B.
      replace (n - k)%nat with (S (n - S k)) in * by lia.
      remember (n - S k)%nat as m.
      cbn [zfact] in *. rewrite !Nat2Z.inj_succ in *.
      assert (En : Z.of_nat n = (Z.of_nat m + Z.of_nat k + 1)%Z) by lia. rewrite En.
      set (b1 := Z.of_nat (binom n k)) in *. set (b2 := Z.of_nat (binom n (S k))) in *.
      set (fk := zfact k) in *. set (fm := zfact m) in *. set (fn := zfact n) in *.
      set (zk := Z.of_nat k) in *. set (zm := Z.of_nat m) in *.
      replace ((b1 + b2) * (Z.succ zk * fk * (Z.succ zm * fm)))%Z
        with (Z.succ zk * (b1 * (fk * (Z.succ zm * fm))) + Z.succ zm * (b2 * (Z.succ zk * fk * fm)))%Z by ring.
      rewrite A, B. unfold Z.succ. ring.
Qed.

Section AtR.
Variable eps : R.
Local Hint Extern 0 (Num R) => exact (NumR eps) : typeclass_instances.

Lemma nofpos_R p : nofpos p = IZR (Zpos p).
Proof.
  induction p as [p IH|p IH|]; cbn [nofpos].
  - rewrite IH. nsimp. rewrite <- !plus_IZR. f_equal. lia.
  - rewrite IH. nsimp. rewrite <- plus_IZR. f_equal. lia.
  - reflexivity.
Qed.
Lemma nofZ_R z : nofZ z = IZR z.
Proof.
  destruct z as [|p|p]; cbn [nofZ]; [reflexivity|apply nofpos_R|].
  rewrite nofpos_R. nsimp. rewrite <- opp_IZR. reflexivity.
Qed.

Lemma binomial_gen mul (n k : nat) :
  (forall m, (m <= n)%nat -> factorial mul m = Ok (zfact m)) ->
  (forall a b, (a * b <= zfact n)%Z -> (0 <= a * b)%Z -> mul a b = Ok (a * b)%Z) ->
  (k <= n)%nat -> binomial_law mul n k = Ok (INR (binom n k)).
Proof.
  intros Hf Hm Hk. unfold binomial_law.
  destruct (Nat.eqb_spec k n) as [->|Hn]; [rewrite binom_diag; reflexivity|].
  destruct (Nat.ltb_spec n k); [lia|].
  rewrite !Hf by lia. cbn [bind].
  pose proof (binom_fact n k Hk) as B. pose proof (zfact_pos k). pose proof (zfact_pos (n - k)).
  pose proof (zfact_pos n).
  assert (P : (1 <= zfact k * zfact (n - k))%Z) by nia.
  assert (Hb : (1 <= Z.of_nat (binom n k))%Z) by nia.
  rewrite Hm by nia. cbn [bind].
  rewrite !nofZ_R. rewrite (divc_ok eps).
  - f_equal. rewrite <- B. rewrite mult_IZR, <- INR_IZR_INZ. field.
    apply not_0_IZR. lia.
  - apply not_0_IZR. lia.
Qed.

Lemma binomial_size n k : (k <= n)%nat -> (n <= 20)%nat -> binomial_law mul_size n k = Ok (INR (binom n k)).
Proof.
  intros Hk Hn. apply binomial_gen; auto.
  - intros m Hm. apply factorial_size_exact. lia.
  - intros a b Ha Hb. unfold mul_size. rewrite Z.mod_small; [reflexivity|]. split; [exact Hb|].
    pose proof (zfact_le n 20 Hn). assert (zfact 20 < size_mod)%Z by (vm_compute; reflexivity). lia.
Qed.
Lemma binomial_int n k : (k <= n)%nat -> (n <= 12)%nat -> binomial_law mul_int n k = Ok (INR (binom n k)).
Proof.
  intros Hk Hn. apply binomial_gen; auto.
  - intros m Hm. apply factorial_int. lia.
  - intros a b Ha Hb. unfold mul_int. destruct (Z.leb_spec (a * b) int_max); [reflexivity|].
    pose proof (zfact_le n 12 Hn). assert (zfact 12 <= int_max)%Z by (vm_compute; discriminate). lia.
Qed.

(** ** Weighted poles *)
Lemma combine_nth' {A B} (l : list A) (l' : list B) i a b : (i < length l)%nat -> length l = length l' ->
  nth i (combine l l') (a, b) = (nth i l a, nth i l' b).
Proof. intros _ H. apply combine_nth. exact H. Qed.

Lemma weights_spec dim (poles : list (pt R)) (ws : list R) :
  (length poles <> length ws -> add_weights_coord dim poles ws = Throw LengthError) /\
  (length poles = length ws -> exists pw, add_weights_coord dim poles ws = Ok pw /\
     length pw = length poles /\
     (forall i, (i < length poles)%nat -> polec pw dim i = kn ws i /\
        forall c, (c < dim)%nat -> polec pw c i = kn ws i * polec poles c i)).
Proof.
  unfold add_weights_coord. split; intros H.
  - destruct (Nat.eqb_spec (length poles) (length ws)); [contradiction|reflexivity].
  - destruct (Nat.eqb_spec (length poles) (length ws)); [|contradiction].
    eexists. split; [reflexivity|]. split.
    + rewrite map_length, combine_length. unfold pt in *. lia.
    + assert (G : forall i c, (i < length poles)%nat ->
        polec (map (fun qw => add_weight dim (fst qw) (snd qw)) (combine poles ws)) c i =
        add_weight dim (nth i poles (fun _ => 0)) (kn ws i) c).
      { intros i c Hi. unfold polec.
        rewrite (nth_indep _ _ ((fun qw => add_weight dim (fst qw) (snd qw)) ((fun _ : nat => 0), 0))).
        - rewrite (map_nth (fun qw => add_weight dim (fst qw) (snd qw))).
          rewrite combine_nth by exact H. reflexivity.
        - rewrite map_length, combine_length. unfold pt in *. lia. }
      intros i Hi. split.
      * rewrite G by exact Hi. unfold add_weight. rewrite Nat.eqb_refl. reflexivity.
      * intros c Hc. rewrite G by exact Hi. unfold add_weight.
        destruct (Nat.eqb_spec c dim); [lia|]. nsimp. unfold polec. ring.
Qed.

Lemma separate_spec dim (pw : list (pt R)) :
  let (ps, ws) := separate_weights dim pw in
  length ps = length pw /\ length ws = length pw /\
  forall i, (i < length pw)%nat -> kn ws i = polec pw dim i /\
    (polec pw dim i <> 0 -> forall c, (c < dim)%nat -> polec ps c i = polec pw c i / polec pw dim i).
Proof.
  unfold separate_weights. split; [apply map_length|]. split; [apply map_length|].
  intros i Hi. split.
  - unfold kn. rewrite (nth_indep _ 0 (weight dim (fun _ => 0))) by (rewrite map_length; exact Hi).
    rewrite (map_nth (weight dim)). reflexivity.
  - intros Hw c Hc. unfold polec in *.
    assert (G : nth i (map (weight_projection dim) pw) (fun _ => 0) = weight_projection dim (nth i pw (fun _ => 0))).
    { rewrite <- (map_nth (weight_projection dim)). apply nth_indep. rewrite map_length. exact Hi. }
    rewrite G.
    unfold weight_projection. rewrite (proj2 (neqb_R_false eps _ _)) by exact Hw. reflexivity.
Qed.

Lemma weights_round_trip dim (poles : list (pt R)) (ws : list R) :
  length poles = length ws -> (forall i, (i < length ws)%nat -> kn ws i <> 0) ->
  exists pw, add_weights_coord dim poles ws = Ok pw /\
    exists ps, separate_weights dim pw = (ps, ws) /\ length ps = length poles /\
      forall i c, (i < length poles)%nat -> (c < dim)%nat -> polec ps c i = polec poles c i.
Proof.
  intros HL Hw. destruct (proj2 (weights_spec dim poles ws) HL) as (pw & E & L & V).
  exists pw. split; [exact E|].
  pose proof (separate_spec dim pw) as S. destruct (separate_weights dim pw) as [ps ws'] eqn:Es.
  destruct S as (L1 & L2 & S). exists ps.
  assert (ws' = ws) as ->.
  { apply nth_ext with (d := 0) (d' := 0); [unfold pt in *; lia|].
    intros i Hi. destruct (S i ltac:(unfold pt in *; lia)) as (A & _).
    destruct (V i ltac:(unfold pt in *; lia)) as (B & _). unfold kn in A, B. rewrite A, B. reflexivity. }
  split; [reflexivity|]. split; [unfold pt in *; lia|]. intros i c Hi Hc.
  destruct (S i ltac:(unfold pt in *; lia)) as (_ & A).
  destruct (V i Hi) as (B & C).
  assert (kn ws i <> 0) by (apply Hw; unfold pt in *; lia).
  rewrite A, B, C by (auto; rewrite B; auto). field. auto.
Qed.

Lemma separate_merge dim (pw : list (pt R)) :
  (forall i, (i < length pw)%nat -> polec pw dim i <> 0) ->
  exists pw', (let (ps, ws) := separate_weights dim pw in add_weights_coord dim ps ws) = Ok pw' /\
    length pw' = length pw /\
    forall i c, (i < length pw)%nat -> (c <= dim)%nat -> polec pw' c i = polec pw c i.
Proof.
  intros Hw. pose proof (separate_spec dim pw) as S.
  destruct (separate_weights dim pw) as [ps ws]. destruct S as (L1 & L2 & S).
  destruct (proj2 (weights_spec dim ps ws) ltac:(unfold pt in *; lia)) as (pw' & E & L & V).
  exists pw'. split; [exact E|]. split; [unfold pt in *; lia|]. intros i c Hi Hc.
  destruct (S i Hi) as (A & B). destruct (V i ltac:(unfold pt in *; lia)) as (C & D).
  destruct (Nat.eq_dec c dim) as [->|].
  - rewrite C, A. reflexivity.
  - rewrite D, A, B by (auto; lia). field. auto.
Qed.

Lemma merge_agrees dim (poles : list (pt R)) (ws : list R) : length poles = length ws ->
  exists pw pw', merge_weights dim poles ws = Ok pw /\ add_weights_coord dim poles ws = Ok pw' /\
    length pw = length pw' /\ forall i c, (i < length poles)%nat -> (c <= dim)%nat -> polec pw c i = polec pw' c i.
Proof.
  intros H. destruct (proj2 (weights_spec dim poles ws) H) as (pw' & E' & L' & V').
  unfold merge_weights.
  rewrite (mapM_ok _ (fun i => (fun c => if (c =? dim)%nat then kn ws i else nmul (polec poles c i) (kn ws i)))).
  2:{ intros i Hi. apply in_seq in Hi. rewrite (get_nth poles i (fun _ => 0)) by lia. cbn [bind].
      rewrite get_kn by (unfold pt in *; lia). cbn [bind]. reflexivity. }
  eexists. exists pw'. split; [reflexivity|]. split; [exact E'|]. rewrite map_length, seq_length. split; [lia|].
  intros i c Hi Hc. unfold polec at 1.
  rewrite (get_ok_nth _ i _ _ (get_map_seq _ _ i Hi)).
  destruct (V' i Hi) as (A & B). destruct (Nat.eqb_spec c dim) as [->|]; [auto|].
  rewrite B by lia. nsimp. ring.
Qed.

Lemma merge_short dim (poles : list (pt R)) (ws : list R) : (length ws < length poles)%nat ->
  merge_weights dim poles ws = Undef BadIndex.
Proof.
  intros H. unfold merge_weights.
  assert (G : forall m s, (s + m = length poles)%nat -> (s <= length ws)%nat -> 
    mapM (fun i => let* q := get poles i in let* w := get ws i in
       Ok (fun c => if (c =? dim)%nat then w else nmul (q c) w)) (seq s m) = Undef BadIndex).
  { induction m as [|m IH]; intros s Hs Hl; [unfold pt in *; lia|]. cbn [seq mapM].
    rewrite (get_nth poles s (fun _ => 0)) by (unfold pt in *; lia). cbn [bind].
    destruct (Nat.eq_dec s (length ws)) as [->|].
    - rewrite get_ge by lia. reflexivity.
    - rewrite get_kn by lia. cbn [bind]. rewrite IH by lia. reflexivity. }
  apply G; lia.
Qed.

(** ** Rescaling *)
Lemma fold_left_weights dim (poles : list (pt R)) : forall s,
  fold_left (fun s q => nadd s (weight dim q)) poles s = s + fold_right Rplus 0 (map (weight dim) poles).
Proof.
  induction poles as [|q t IH]; intros s; cbn [fold_left map fold_right]; [nsimp; ring|].
  rewrite IH. nsimp. ring.
Qed.

Lemma scale_weights_spec dim (poles : list (pt R)) m : m <> 0 -> mean (map (weight dim) poles) <> 0 -> poles <> [] ->
  exists poles', scale_weights dim poles m = Ok poles' /\ length poles' = length poles /\
    mean (map (weight dim) poles') = m /\
    forall i c, (i < length poles)%nat -> (c < dim)%nat ->
      polec poles dim i <> 0 -> polec poles' dim i <> 0 /\
      polec poles' c i / polec poles' dim i = polec poles c i / polec poles dim i.
Proof.
  intros Hm Hs Hne. unfold scale_weights. rewrite fold_left_weights.
  unfold mean in Hs |- *. rewrite map_length in *.
  set (S := fold_right Rplus 0 (map (weight dim) poles)) in *.
  assert (HL : INR (length poles) <> 0).
  { apply not_0_INR. destruct poles; [congruence|discriminate]. }
  nsimp. rewrite (nofnat_R eps). rewrite (divc_ok eps) by exact HL. cbn [bind].
  rewrite Rplus_0_l. rewrite (divc_ok eps) by exact Hs. cbn [bind].
  eexists. split; [reflexivity|]. unfold scale_poles. rewrite !map_length. split; [reflexivity|].
  set (f := m / (S / INR (length poles))).
  assert (HS : S <> 0) by (intros E; apply Hs; rewrite E; field; exact HL).
  assert (Hf : f <> 0).
  { unfold f. apply Rmult_integral_contrapositive_currified; [exact Hm|]. apply Rinv_neq_0_compat. exact Hs. }
  split.
  - assert (G : fold_right Rplus 0 (map (weight dim) (map (fun q c => nmul (q c) f) poles)) = f * S).
    { unfold S. generalize f. clear. intros f. induction poles as [|q t IH]; cbn [map fold_right]; [ring|].
      rewrite IH. unfold weight. nsimp. ring. }
    rewrite G. unfold f. unfold pt in *. field. auto.
  - intros i c Hi Hc Hw.
    assert (V : forall c, polec (map (fun q c => nmul (q c) f) poles) c i = polec poles c i * f).
    { intros c'. unfold polec.
      rewrite (nth_indep _ _ ((fun (q : nat -> R) c => nmul (q c) f) (fun _ => 0))) by (rewrite map_length; exact Hi).
      rewrite (map_nth (fun (q : nat -> R) c => nmul (q c) f)). reflexivity. }
    rewrite !V. split; [apply Rmult_integral_contrapositive_currified; auto|]. field. auto.
Qed.
End AtR.
