(** Knot vector utilities: C24, C25, C26. *)
From Coq Require Import List Arith ZArith QArith Reals Lia Lra Bool Permutation.
From Verif Require Import Model_Base Model_Basis Model_Knots Model_Math
  Spec_Base Spec_Basis Spec_Knots Proof_Base Proof_Blossom Proof_Basis Proof_Ders Proof_Eval
  Proof_Insert Proof_Trim Proof_Ctor Proof_Invariant.
Import ListNotations.
Local Open Scope R_scope.

Lemma foldM_app {A B} (f : A -> B -> result A) l1 l2 a :
  foldM f a (l1 ++ l2) = (let* a' := foldM f a l1 in foldM f a' l2).
Proof.
  revert a; induction l1 as [|x l1 IH]; intros a; [reflexivity|]. cbn [app foldM].
  destruct (f a x); cbn [bind]; auto.
Qed.

(** A loop of writes v[i + off] = f i. *)
Lemma set_loop {A} (f : nat -> A) body off d : forall n lo v,
  (forall i v, (lo <= i < lo + n)%nat -> body i v = set v (i + off) (f i)) ->
  (lo + n + off <= length v)%nat ->
  exists v', for_ lo n body v = Ok v' /\ length v' = length v /\
    forall j, nth j v' d = if ((lo + off <=? j) && (j <? lo + n + off))%nat then f (j - off)%nat else nth j v d.
Proof.
  induction n as [|n IH]; intros lo v Hb Hl.
  - exists v. split; [reflexivity|]. split; [reflexivity|]. intros j.
    destruct (Nat.leb_spec (lo + off) j), (Nat.ltb_spec j (lo + 0 + off)); cbn [andb]; auto; lia.
  - cbn [for_]. rewrite Hb by lia. rewrite set_ok by lia. cbn [bind].
    destruct (IH (S lo) (upd v (lo + off) (f lo))) as (v' & E & L & H).
    { intros; apply Hb; lia. } { rewrite upd_length; lia. }
    exists v'. split; [exact E|]. rewrite upd_length in L. split; [exact L|].
    intros j. rewrite H. rewrite nth_upd.
    destruct (Nat.leb_spec (S lo + off) j), (Nat.ltb_spec j (S lo + n + off)),
      (Nat.leb_spec (lo + off) j), (Nat.ltb_spec j (lo + S n + off)); cbn [andb]; auto; try lia;
      destruct (Nat.eqb_spec (lo + off) j); destruct (Nat.ltb_spec (lo + off) (length v)); cbn [andb]; auto; try lia.
    f_equal; lia.
Qed.

(** ** C24 *)
Lemma push_loop {A} (a : A) n : forall lo acc, for_ lo n (fun _ acc => Ok (acc ++ [a])) acc = Ok (acc ++ repeat a n).
Proof.
  induction n as [|n IH]; intros lo acc; cbn [for_ repeat]; [rewrite app_nil_r; reflexivity|].
  cbn [bind]. rewrite IH. rewrite <- app_assoc. reflexivity.
Qed.

Lemma flat_loop {T} (rep : list T -> list nat -> list T)
  (Hrep : forall k ks m ms, rep (k :: ks) (m :: ms) = repeat k m ++ rep ks ms) (Hnil : rep [] [] = []) :
  forall ks ms ks0 ms0 acc, length ks = length ms -> length ks0 = length ms0 ->
  for_ (length ks0) (length ks) (fun i acc =>
      let* n := get (ms0 ++ ms) i in
      let* kv := get (ks0 ++ ks) i in
      for_ 0 n (fun _ acc => Ok (acc ++ [kv])) acc) acc = Ok (acc ++ rep ks ms).
Proof.
  induction ks as [|k ks IH]; intros ms ks0 ms0 acc L L0; destruct ms as [|m ms]; try discriminate.
  - cbn [length for_]. rewrite Hnil, app_nil_r. reflexivity.
  - cbn [length for_]. unfold get at 1 2. rewrite !nth_error_app2 by lia.
    replace (length ks0 - length ms0)%nat with 0%nat by lia. rewrite Nat.sub_diag. cbn [nth_error bind].
    rewrite push_loop. cbn [bind]. specialize (IH ms (ks0 ++ [k]) (ms0 ++ [m]) (acc ++ repeat k m)).
    rewrite !app_length in IH. cbn [length] in IH. replace (length ks0 + 1)%nat with (S (length ks0)) in IH by lia.
    rewrite <- !app_assoc in IH. cbn [app] in IH. rewrite IH; [|simpl in L; lia|lia].
    rewrite Hrep. rewrite ?app_assoc. reflexivity.
Qed.

Section AtR.
Variable eps : R.
Local Hint Extern 0 (Num R) => exact (NumR eps) : typeclass_instances.

Lemma flat_spec (ks : list R) (ms : list nat) :
  (length ks = length ms -> flat_knots ks ms = Ok (repeat_each ks ms)) /\
  (length ks <> length ms -> flat_knots ks ms = Throw LengthError).
Proof.
  unfold flat_knots. split; intros H.
  - apply Nat.eqb_eq in H. rewrite H. apply Nat.eqb_eq in H.
    rewrite (flat_loop repeat_each (fun _ _ _ _ => eq_refl) eq_refl ks ms [] []); auto.
  - apply Nat.eqb_neq in H. rewrite H. reflexivity.
Qed.

Lemma unflat_same (x : R) j : 0 <= eps -> forall ks ms m,
  foldM unflat_step (ks ++ [x], ms ++ [m]) (repeat x j) = Ok (ks ++ [x], ms ++ [(m + j)%nat]).
Proof.
  intros He. induction j as [|j IH]; intros ks ms m; cbn [repeat foldM]; [rewrite Nat.add_0_r; reflexivity|].
  unfold unflat_step at 1. rewrite !back_app. cbn [bind]. nsimp. rewrite (nabs_R eps).
  replace (x - x) with 0 by ring. rewrite Rabs_R0. destruct (Rleb_spec 0 eps); [|lra].
  rewrite removelast_last. cbn [bind]. rewrite IH. replace (m + S j)%nat with (S m + j)%nat by lia. reflexivity.
Qed.

Lemma unflat_all : 0 <= eps -> forall (ks : list R) ms x ks0 ms0 m, length ks = length ms ->
  (forall m, In m ms -> (1 <= m)%nat) -> spaced eps (x :: ks) ->
  foldM unflat_step (ks0 ++ [x], ms0 ++ [m]) (repeat_each ks ms) = Ok (ks0 ++ x :: ks, ms0 ++ m :: ms).
Proof.
  intros He. induction ks as [|k ks IH]; intros ms x ks0 ms0 m L Hm Hs; destruct ms as [|j ms]; try discriminate.
  - reflexivity.
  - cbn [repeat_each]. rewrite foldM_app.
    assert (Hj : (1 <= j)%nat) by (apply Hm; simpl; auto). destruct j as [|j]; [lia|].
    cbn [repeat foldM]. unfold unflat_step at 1. rewrite !back_app. cbn [bind]. nsimp. rewrite (nabs_R eps).
    pose proof (Hs 0%nat ltac:(simpl; lia)) as Hg. unfold kn in Hg. cbn [nth] in Hg.
    rewrite Rabs_right by lra. destruct (Rleb_spec (k - x) eps); [lra|]. cbn [bind].
    rewrite unflat_same by auto. cbn [bind]. rewrite IH.
    + rewrite <- !app_assoc. reflexivity.
    + simpl in L; lia.
    + intros; apply Hm; simpl; auto.
    + intros i Hi. apply (Hs (S i)). simpl in *; lia.
Qed.

Lemma unflat_round (ks : list R) (ms : list nat) : 0 <= eps -> ks <> [] -> length ks = length ms ->
  (forall m, In m ms -> (1 <= m)%nat) -> spaced eps ks ->
  knots_and_mults (repeat_each ks ms) = Ok (ks, ms).
Proof.
  intros He Hne L Hm Hs. destruct ks as [|k ks]; [congruence|]. destruct ms as [|m ms]; [discriminate|].
  assert (1 <= m)%nat by (apply Hm; simpl; auto). destruct m as [|m]; [lia|].
  unfold knots_and_mults. cbn [repeat_each repeat app front bind tl]. rewrite foldM_app.
  pose proof (unflat_same k m He [] [] 1) as E1. cbn [app] in E1. rewrite E1. cbn [bind].
  pose proof (unflat_all He ks ms k [] [] (1 + m)%nat) as E2. cbn [app] in E2. apply E2; auto.
  intros; apply Hm; simpl; auto.
Qed.

Lemma unflat_only_all : 0 <= eps -> forall (ks : list R) ms x ks0, length ks = length ms ->
  (forall m, In m ms -> (1 <= m)%nat) -> spaced eps (x :: ks) -> forall j,
  foldM (fun ks x => let* kb := back ks in
           if nltb neps (nabs (nsub x kb)) then Ok (ks ++ [x]) else Ok ks)
    (ks0 ++ [x]) (repeat x j ++ repeat_each ks ms) = Ok (ks0 ++ x :: ks).
Proof.
  intros He. induction ks as [|k ks IH]; intros ms x ks0 L Hm Hs j; destruct ms as [|m ms]; try discriminate.
  - cbn [repeat_each]. rewrite app_nil_r. induction j as [|j IHj]; [reflexivity|].
    cbn [repeat foldM]. rewrite back_app. cbn [bind]. nsimp. rewrite (nabs_R eps).
    replace (x - x) with 0 by ring. rewrite Rabs_R0. destruct (Rltb_spec eps 0); [lra|]. exact IHj.
  - induction j as [|j IHj].
    + cbn [repeat app repeat_each]. assert (1 <= m)%nat by (apply Hm; simpl; auto). destruct m as [|m]; [lia|].
      cbn [repeat app foldM]. rewrite back_app. cbn [bind]. nsimp. rewrite (nabs_R eps).
      pose proof (Hs 0%nat ltac:(simpl; lia)) as Hg. unfold kn in Hg. cbn [nth] in Hg.
      rewrite Rabs_right by lra. destruct (Rltb_spec eps (k - x)); [|lra]. cbn [bind].
      nsimp. rewrite IH.
      * rewrite <- app_assoc. reflexivity.
      * simpl in L; lia.
      * intros; apply Hm; simpl; auto.
      * intros i Hi. apply (Hs (S i)). simpl in *; lia.
    + cbn [repeat app foldM]. rewrite back_app. cbn [bind]. nsimp. rewrite (nabs_R eps).
      replace (x - x) with 0 by ring. rewrite Rabs_R0. destruct (Rltb_spec eps 0); [lra|]. exact IHj.
Qed.

Lemma unflat_only_round (ks : list R) (ms : list nat) : 0 <= eps -> ks <> [] -> length ks = length ms ->
  (forall m, In m ms -> (1 <= m)%nat) -> spaced eps ks ->
  unflat_knots_only (repeat_each ks ms) = Ok ks.
Proof.
  intros He Hne L Hm Hs. destruct ks as [|k ks]; [congruence|]. destruct ms as [|m ms]; [discriminate|].
  assert (1 <= m)%nat by (apply Hm; simpl; auto). destruct m as [|m]; [lia|].
  unfold unflat_knots_only. cbn [repeat_each repeat app front bind tl].
  apply (unflat_only_all He ks ms k []); auto. intros; apply Hm; simpl; auto.
Qed.

Lemma unflat_pairs_all : 0 < eps -> forall (ks : list R) ms x r0 m, length ks = length ms ->
  (forall m, In m ms -> (1 <= m)%nat) -> spaced eps (x :: ks) -> forall j,
  foldM (fun r x => let* b := back r in
           if nltb (nabs (nsub x (fst b))) neps
           then Ok (removelast r ++ [(fst b, S (snd b))])
           else Ok (r ++ [(x, 1%nat)]))
    (r0 ++ [(x, m)]) (repeat x j ++ repeat_each ks ms) = Ok (r0 ++ (x, (m + j)%nat) :: combine ks ms).
Proof.
  intros He. induction ks as [|k ks IH]; intros ms x r0 m0 L Hm Hs j; destruct ms as [|m ms]; try discriminate.
  - cbn [repeat_each combine]. rewrite app_nil_r. revert m0. induction j as [|j IHj]; intros m0; [rewrite Nat.add_0_r; reflexivity|].
    cbn [repeat foldM]. rewrite back_app. cbn [bind fst snd]. nsimp. rewrite (nabs_R eps).
    replace (x - x) with 0 by ring. rewrite Rabs_R0. destruct (Rltb_spec 0 eps); [|lra]. cbn [bind].
    rewrite removelast_last. rewrite IHj. replace (m0 + S j)%nat with (S m0 + j)%nat by lia. reflexivity.
  - revert m0. induction j as [|j IHj]; intros m0.
    + cbn [repeat app repeat_each]. assert (1 <= m)%nat by (apply Hm; simpl; auto). destruct m as [|m]; [lia|].
      cbn [repeat app foldM]. rewrite back_app. cbn [bind fst snd]. nsimp. rewrite (nabs_R eps).
      pose proof (Hs 0%nat ltac:(simpl; lia)) as Hg. unfold kn in Hg. cbn [nth] in Hg.
      rewrite Rabs_right by lra. destruct (Rltb_spec (k - x) eps); [lra|]. cbn [bind].
      rewrite IH.
      * rewrite <- app_assoc, Nat.add_0_r. reflexivity.
      * simpl in L; lia.
      * intros; apply Hm; simpl; auto.
      * intros i Hi. apply (Hs (S i)). simpl in *; lia.
    + cbn [repeat app foldM]. rewrite back_app. cbn [bind fst snd]. nsimp. rewrite (nabs_R eps).
      replace (x - x) with 0 by ring. rewrite Rabs_R0. destruct (Rltb_spec 0 eps); [|lra]. cbn [bind].
      rewrite removelast_last. rewrite IHj. replace (m0 + S j)%nat with (S m0 + j)%nat by lia. reflexivity.
Qed.

Lemma unflat_pairs_round (ks : list R) (ms : list nat) : 0 < eps -> ks <> [] -> length ks = length ms ->
  (forall m, In m ms -> (1 <= m)%nat) -> spaced eps ks ->
  unflat_pairs (repeat_each ks ms) = Ok (combine ks ms).
Proof.
  intros He Hne L Hm Hs. destruct ks as [|k ks]; [congruence|]. destruct ms as [|m ms]; [discriminate|].
  assert (1 <= m)%nat by (apply Hm; simpl; auto). destruct m as [|m]; [lia|].
  unfold unflat_pairs. cbn [repeat_each repeat app front bind tl].
  pose proof (unflat_pairs_all He ks ms k [] 1) as E2. cbn [app] in E2. rewrite E2; auto.
  intros; apply Hm; simpl; auto.
Qed.
End AtR.

Lemma round_trip eps (ks : list R) (ms : list nat) : 0 < eps -> ks <> [] -> length ks = length ms ->
  (forall m, In m ms -> (1 <= m)%nat) -> spaced eps ks ->
  @flat_knots R ks ms = Ok (repeat_each ks ms) /\
  @knots_and_mults R (NumR eps) (repeat_each ks ms) = Ok (ks, ms) /\
  @unflat_knots_only R (NumR eps) (repeat_each ks ms) = Ok ks /\
  @unflat_pairs R (NumR eps) (repeat_each ks ms) = Ok (combine ks ms).
Proof.
  intros He Hn L Hm Hs. split; [apply flat_spec; auto|].
  split; [apply unflat_round; auto; lra|]. split; [apply unflat_only_round; auto; lra|]. apply unflat_pairs_round; auto.
Qed.

(** At a distance of exactly eps the variants disagree. *)
Lemma unflat_disagree : let e := @neps Q NumQ in
  @knots_and_mults Q NumQ [0%Q; e] = Ok ([0%Q], [2%nat]) /\
  @unflat_pairs Q NumQ [0%Q; e] = Ok [(0%Q, 1%nat); (e, 1%nat)].
Proof. split; vm_compute; reflexivity. Qed.
