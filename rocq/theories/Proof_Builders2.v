(** Three-dimensional grids, parametrisations, examples and refutations for Prop_Knots.v. *)
From Coq Require Import List Arith ZArith QArith Reals Lia Lra Bool Permutation.
From Verif Require Import Model_Base Model_Basis Model_Knots Model_Math
  Spec_Base Spec_Basis Spec_Knots Proof_Base Proof_Blossom Proof_Basis Proof_Ders Proof_Eval
  Proof_Insert Proof_Boehm Proof_Trim Proof_Ctor Proof_Invariant Proof_Knots Proof_Builders.
Import ListNotations.
Local Open Scope R_scope.

(** One loop whose i-th round writes the cells [o + B*i, o + B*(i+1)) with the values F. *)
Lemma block_loop {A} (F : nat -> A) d len body B : forall n o v, length v = len ->
  (forall i v, (i < n)%nat -> length v = len -> exists v', body i v = Ok v' /\ length v' = len /\
     forall c, nth c v' d = if ((o + B * i <=? c) && (c <? o + B * i + B))%nat then F c else nth c v d) ->
  exists v', for_ 0 n body v = Ok v' /\ length v' = len /\
    forall c, nth c v' d = if ((o <=? c) && (c <? o + B * n))%nat then F c else nth c v d.
Proof.
  intros n o v L Hb.
  destruct (for_inv (fun m w => length w = len /\ forall c, nth c w d =
     if ((o <=? c) && (c <? o + B * m))%nat then F c else nth c v d) body 0 n v) as (v' & E & L' & V).
  - split; auto. intros c. destruct (Nat.leb_spec o c), (Nat.ltb_spec c (o + B * 0)); cbn [andb]; auto; lia.
  - intros i w Hi (Lw & Vw). destruct (Hb i w ltac:(lia) Lw) as (w' & E & L' & V).
    exists w'. split; [exact E|]. split; [exact L'|]. intros c. rewrite V, Vw.
    destruct (Nat.leb_spec (o + B * i) c), (Nat.ltb_spec c (o + B * i + B)), (Nat.leb_spec o c),
      (Nat.ltb_spec c (o + B * i)), (Nat.ltb_spec c (o + B * S i)); cbn [andb]; auto; nia.
  - exists v'. auto.
Qed.

Lemma cell_index i j k nv nw : (j < nv)%nat -> (k < nw)%nat ->
  let c := (k + nw * (j + nv * i))%nat in
  (c / nw / nv = i /\ (c / nw) mod nv = j /\ c mod nw = k)%nat.
Proof.
  intros Hj Hk c. unfold c.
  replace (k + nw * (j + nv * i))%nat with (k + (j + nv * i) * nw)%nat by lia.
  rewrite Nat.div_add, Nat.mod_add by lia. rewrite (Nat.div_small k), (Nat.mod_small k) by lia.
  cbn [Nat.add]. replace (j + nv * i)%nat with (j + i * nv)%nat by lia.
  rewrite Nat.div_add, Nat.mod_add by lia. rewrite (Nat.div_small j), (Nat.mod_small j) by lia. lia.
Qed.

Section AtR.
Variable eps : R.
Local Hint Extern 0 (Num R) => exact (NumR eps) : typeclass_instances.

Lemma range3_spec u1 u2 v1 v2 w1 w2 nu nv nw :
  ((nu < 2 \/ nv < 2 \/ nw < 2)%nat -> make_range3 u1 u2 v1 v2 w1 w2 nu nv nw = Throw LengthError) /\
  ((2 <= nu)%nat -> (2 <= nv)%nat -> (2 <= nw)%nat ->
   exists v, make_range3 u1 u2 v1 v2 w1 w2 nu nv nw = Ok v /\ length v = (nu * nv * nw)%nat /\
     forall i j k, (i < nu)%nat -> (j < nv)%nat -> (k < nw)%nat ->
       nth (k + nw * (j + nv * i)) v (0, 0, 0) = (gcoord u1 u2 nu i, gcoord v1 v2 nv j, gcoord w1 w2 nw k)).
Proof.
  unfold make_range3. split.
  - intros H. destruct (Nat.ltb_spec nu 2), (Nat.ltb_spec nv 2), (Nat.ltb_spec nw 2); cbn [orb]; auto; lia.
  - intros H1 H2 H3. destruct (Nat.ltb_spec nu 2), (Nat.ltb_spec nv 2), (Nat.ltb_spec nw 2); cbn [orb]; try lia.
    set (F := fun c => (gcoord u1 u2 nu (c / nw / nv), gcoord v1 v2 nv ((c / nw) mod nv), gcoord w1 w2 nw (c mod nw))).
    assert (HF : forall i j k, (j < nv)%nat -> (k < nw)%nat ->
       F (k + nw * (j + nv * i))%nat = (gcoord u1 u2 nu i, gcoord v1 v2 nv j, gcoord w1 w2 nw k)).
    { intros i j k Hj Hk. destruct (cell_index i j k nv nw Hj Hk) as (A & B & C). unfold F. rewrite A, B, C. reflexivity. }
    destruct (block_loop F (0, 0, 0) (nu * nv * nw) (fun i v => for_ 0 nv (fun j v => for_ 0 nw (fun k v =>
        let* a := grid_coord u1 u2 nu i in let* b := grid_coord v1 v2 nv j in let* c := grid_coord w1 w2 nw k in
        set v (k + nw * (j + nv * i)) (a, b, c)) v) v) (nv * nw) nu 0 (filled (nu * nv * nw) (0, 0, 0)))
      as (v & E & L & V).
    + apply filled_length.
    + intros i v Hi Lv. cbn [Nat.add].
      destruct (block_loop F (0, 0, 0) (nu * nv * nw) (fun j v => for_ 0 nw (fun k v =>
        let* a := grid_coord u1 u2 nu i in let* b := grid_coord v1 v2 nv j in let* c := grid_coord w1 w2 nw k in
        set v (k + nw * (j + nv * i)) (a, b, c)) v) nw nv (nv * nw * i) v Lv) as (v' & E & L & V).
      * intros j w Hj Lw.
        destruct (block_loop F (0, 0, 0) (nu * nv * nw) (fun k v =>
          let* a := grid_coord u1 u2 nu i in let* b := grid_coord v1 v2 nv j in let* c := grid_coord w1 w2 nw k in
          set v (k + nw * (j + nv * i)) (a, b, c)) 1 nw (nv * nw * i + nw * j) w Lw) as (w' & E & L & V).
        -- intros k x Hk Lx. rewrite !grid_ok by auto. cbn [bind]. rewrite set_ok.
           2: { rewrite Lx. assert (S i <= nu)%nat by lia. assert ((S i) * nv * nw <= nu * nv * nw)%nat by (do 2 apply Nat.mul_le_mono_r; auto). nia. }
           eexists. split; [reflexivity|]. rewrite upd_length. split; [auto|]. intros c. rewrite nth_upd.
           destruct (Nat.eqb_spec (k + nw * (j + nv * i)) c) as [<-|Hne].
           ++ rewrite HF by auto. destruct (Nat.ltb_spec (k + nw * (j + nv * i)) (length x)) as [Hlt|Hge].
              ** cbn [andb]. destruct (Nat.leb_spec (nv * nw * i + nw * j + 1 * k) (k + nw * (j + nv * i))),
                  (Nat.ltb_spec (k + nw * (j + nv * i)) (nv * nw * i + nw * j + 1 * k + 1)); cbn [andb]; auto; nia.
              ** exfalso. rewrite Lx in Hge. assert (S i <= nu)%nat by lia. assert ((S i) * nv * nw <= nu * nv * nw)%nat by (do 2 apply Nat.mul_le_mono_r; auto). nia.
           ++ cbn [andb]. destruct (Nat.leb_spec (nv * nw * i + nw * j + 1 * k) c),
                (Nat.ltb_spec c (nv * nw * i + nw * j + 1 * k + 1)); cbn [andb]; auto; nia.
        -- exists w'. split; [exact E|]. split; [exact L|]. intros c. rewrite V. rewrite Nat.mul_1_l. reflexivity.
      * exists v'. split; [exact E|]. split; [exact L|]. intros c. rewrite V.
        replace (nw * nv)%nat with (nv * nw)%nat by lia. reflexivity.
    + exists v. split; [exact E|]. split; [exact L|]. intros i j k Hi Hj Hk. rewrite V.
      destruct (Nat.leb_spec 0 (k + nw * (j + nv * i))) as [_|Hc]; [|lia]. cbn [andb Nat.add].
      destruct (Nat.ltb_spec (k + nw * (j + nv * i)) (nv * nw * nu)) as [_|Hc].
      * apply HF; auto.
      * exfalso. assert (S i <= nu)%nat by lia. assert ((S i) * nv * nw <= nu * nv * nw)%nat by (do 2 apply Nat.mul_le_mono_r; auto). nia.
Qed.

(** ** Parametrisation of a list of points *)
Lemma accumulate_spec (len : pt R -> pt R -> R) (pts : list (pt R)) : pts <> [] ->
  exists k, accumulate len pts = Ok k /\ length k = length pts /\
    forall i, (i < length pts)%nat -> kn k i = sumn i (fun j => len (pts_at pts (S j)) (pts_at pts j)).
Proof.
  intros Hne. assert (Hl : (0 < length pts)%nat) by (destruct pts; [congruence|simpl; lia]).
  unfold accumulate. nsimp. rewrite set_ok by (rewrite filled_length; auto). cbn [bind].
  set (s := fun i => sumn i (fun j => len (pts_at pts (S j)) (pts_at pts j))).
  destruct (for_inv (fun m (st : list R * R) => let (k, a) := st in length k = length pts /\ a = s (m - 1)%nat /\
      forall i, (i < m)%nat -> kn k i = s i)
    (fun i (st : list R * R) => let (k, a) := st in
      let* p1 := get pts i in let* p2 := get pts (i - 1) in
      let* k := set k i (a + len p1 p2) in Ok (k, a + len p1 p2)) 1 (length pts - 1) (upd (filled (length pts) 0) 0 0, 0))
    as ((k & a) & E & L & _ & V).
  - cbv beta iota. rewrite upd_length, filled_length. split; [auto|]. split; [reflexivity|].
    intros i Hi. replace i with 0%nat by lia. unfold kn. rewrite nth_upd, filled_length.
    destruct (Nat.ltb_spec 0 (length pts)); [|lia]. reflexivity.
  - intros i (k & a) Hi (L & A & V). rewrite (get_nth pts i (fun _ => 0)) by lia.
    rewrite (get_nth pts (i - 1) (fun _ => 0)) by lia. cbn [bind]. rewrite set_ok by lia. cbn [bind].
    eexists. split; [reflexivity|]. cbv beta iota. rewrite upd_length. split; [auto|].
    assert (Es : a + len (nth i pts (fun _ => 0)) (nth (i - 1) pts (fun _ => 0)) = s i).
    { rewrite A. unfold s. replace i with (S (i - 1)) at 4 by lia. cbn [sumn]. unfold pts_at.
      replace (S (i - 1)) with i by lia. reflexivity. }
    replace (S i - 1)%nat with i by lia. split; [exact Es|].
    intros j Hj. unfold kn. rewrite nth_upd. destruct (Nat.eqb_spec i j) as [->|Hne'].
    + destruct (Nat.ltb_spec j (length k)); [|lia]. cbn [andb]. exact Es.
    + cbn [andb]. apply V. lia.
  - rewrite E. cbn [bind]. exists k. split; [reflexivity|]. split; [auto|]. intros i Hi. apply V. lia.
Qed.

Lemma param_raw dist (pts : list (pt R)) mode : (2 <= length pts)%nat ->
  exists k, curve_parametrization dist sqrt pts mode false = Ok k /\ length k = length pts /\
    forall i, (i < length pts)%nat -> kn k i = sumn i (chord dist pts mode).
Proof.
  intros H. assert (Hne : pts <> []) by (intros ->; simpl in H; lia).
  unfold curve_parametrization. destruct mode.
  - rewrite subi_ok by lia. cbn [bind]. nsimp. rewrite nofnat_R. rewrite divc_ok by (apply not_0_INR; lia). cbn [bind].
    destruct (accumulate_spec (fun _ _ => 1 / INR (length pts - 1)) pts Hne) as (k & E & L & V).
    rewrite E. exists k. auto.
  - destruct (accumulate_spec dist pts Hne) as (k & E & L & V). rewrite E. exists k. auto.
  - destruct (accumulate_spec (fun a b => sqrt (dist a b)) pts Hne) as (k & E & L & V). rewrite E. exists k. auto.
Qed.

Lemma param_spec dist (pts : list (pt R)) mode adim : 0 <= eps -> (2 <= length pts)%nat ->
  (forall j, (S j < length pts)%nat -> 0 < chord dist pts mode j) ->
  (adim = true -> eps < sumn (length pts - 1) (chord dist pts mode)) ->
  exists k, curve_parametrization dist sqrt pts mode adim = Ok k /\ length k = length pts /\
    kn k 0 = 0 /\ strictly_increasing k /\
    (adim = true -> kn k (length pts - 1) = 1) /\
    (forall i, (i < length pts)%nat -> kn k i = sumn i (chord dist pts mode) /
        (if adim then sumn (length pts - 1) (chord dist pts mode) else 1)).
Proof.
  intros He Hn Hc Ha. destruct (param_raw dist pts mode Hn) as (k & E & L & V).
  assert (Hinc : strictly_increasing k).
  { intros i j Hij Hj. rewrite L in Hj. rewrite !V by lia.
    replace j with (i + (j - i))%nat by lia. rewrite sumn_app.
    assert (G : forall m, (i + m < length pts)%nat -> 0 <= sumn m (fun x => chord dist pts mode (i + x)%nat)).
    { intros m Hm. apply sumn_nonneg. intros x Hx. apply Rlt_le, Hc. lia. }
    destruct (j - i)%nat as [|m] eqn:Em; [lia|]. cbn [sumn].
    specialize (G m ltac:(lia)). specialize (Hc (i + m)%nat ltac:(lia)). lra. }
  assert (H0 : kn k 0 = 0) by (rewrite V by lia; reflexivity).
  unfold curve_parametrization in *. destruct adim.
  - apply bind_inv in E as (k' & E1 & E2). injection E2 as ->. rewrite E1. cbn [bind].
    specialize (Ha eq_refl). set (d := sumn (length pts - 1) (chord dist pts mode)) in *.
    unfold adimension. rewrite back_kn by lia. cbn [bind].
    assert (Hf : front k = Ok (kn k 0)) by (destruct k; [simpl in L; lia|reflexivity]).
    rewrite Hf. cbn [bind]. nsimp. rewrite H0, L, V by lia. fold d.
    rewrite nabs_R, Rminus_0_r. rewrite Rabs_right by lra.
    destruct (Rltb_spec eps d); [|lra].
    rewrite (mapM_ok _ (fun x => x / d)) by (intros; apply divc_ok; lra).
    assert (Hk : forall i, (i < length pts)%nat -> kn (map (fun x => x / d) k) i = kn k i / d).
    { intros i Hi. unfold kn. rewrite (nth_indep _ 0 (0 / d)) by (rewrite map_length; lia).
      rewrite (map_nth (fun x => x / d)). reflexivity. }
    eexists. split; [reflexivity|]. rewrite map_length. split; [auto|]. rewrite Hk by lia. rewrite H0.
    split; [unfold Rdiv; ring|]. split; [|split].
    + intros i j Hij Hj. rewrite map_length, L in Hj. rewrite !Hk by lia. apply Rmult_lt_compat_r.
      * apply Rinv_0_lt_compat; lra. * apply Hinc; lia.
    + intros _. rewrite Hk, V by lia. fold d. field. lra.
    + intros i Hi. rewrite Hk, V by lia. reflexivity.
  - exists k. split; [exact E|]. split; [auto|]. split; [auto|]. split; [auto|]. split; [discriminate|].
    intros i Hi. rewrite V by auto. field.
Qed.
End AtR.

Lemma range_int_spec v1 v2 :
  ((v2 <= v1)%Z -> make_range_int v1 v2 = Throw LengthError) /\
  ((v1 < v2)%Z -> exists v, make_range_int v1 v2 = Ok v /\ length v = Z.to_nat (v2 - v1 + 1) /\
    forall i, (i < length v)%nat -> nth i v 0%Z = (v1 + Z.of_nat i)%Z).
Proof.
  unfold make_range_int. split; intros H.
  - destruct (Z.ltb_spec (v2 - v1 + 1) 2); [reflexivity|lia].
  - destruct (Z.ltb_spec (v2 - v1 + 1) 2); [lia|]. eexists. split; [reflexivity|].
    rewrite map_length, seq_length. split; [reflexivity|]. intros i Hi.
    rewrite (nth_indep _ 0%Z ((fun i => (v1 + Z.of_nat i)%Z) 0%nat)) by (rewrite map_length, seq_length; auto).
    rewrite (map_nth (fun i => (v1 + Z.of_nat i)%Z)). rewrite seq_nth by auto. reflexivity.
Qed.

Lemma build_mult_range_spec eps a b n p mult : (2 <= n)%nat -> a < b ->
  exists f, @build_mult_flat_knots_range R (NumR eps) a b n p mult = Ok f /\
    clamped_vector f (p + 1 + mult * (n - 2)) p a b /\
    forall i, (0 < i < n - 1)%nat -> cnt f (a + INR i * ((b - a) / INR (n - 1))) = mult.
Proof.
  intros Hn Hab. destruct (proj2 (range_spec eps a b n) Hn) as (v & E & L & V0 & V1 & V & Hi).
  unfold build_mult_flat_knots_range. rewrite E. cbn [bind].
  destruct (build_mult_spec v p mult ltac:(lia) (Hi Hab)) as (f & Ef & C & M).
  exists f. split; [exact Ef|]. rewrite L, V0, V1 in C. split; [exact C|].
  intros i Hi'. rewrite <- V by lia. apply M. lia.
Qed.

(** ** Refutations and examples *)
(** (0, 1, 3 poles, degree 1): interior knot 1/3 instead of 1/2. *)
Lemma range_not_uniform : @build_simple_mult_flat_knots_range Q NumQ 0%Q 1%Q 3 1 = Ok [0; 0; 1 # 3; 1; 1]%Q.
Proof. vm_compute. reflexivity. Qed.
Lemma unique_duplicate : let e := @neps Q NumQ in let h := (e * (1 # 2))%Q in
  @insert_unique_ordered Q NumQ [0%Q] h e = [0%Q; h].
Proof. vm_compute. reflexivity. Qed.

Lemma ex_spaced : spaced (1/1000) [0; 1; 3] /\ strictly_increasing [0; 1; 3] /\ nondecreasing [0; 1; 3].
Proof.
  split; [|split].
  - intros i Hi. simpl in Hi. repeat (destruct i as [|i]; [unfold kn; simpl; lra|]). lia.
  - intros i j Hij Hj. simpl in Hj. destruct j as [|[|[|j]]]; try lia;
      repeat (destruct i as [|i]; [unfold kn; simpl; lra|]); lia.
  - apply succ_nondecreasing. intros i Hi. simpl in Hi. repeat (destruct i as [|i]; [unfold kn; simpl; lra|]). lia.
Qed.
Lemma adimension_wrong : @adimension Q NumQ [1; 2]%Q = Ok [1; 2]%Q.
Proof. vm_compute. reflexivity. Qed.
Definition ex_dist (a b : pt R) : R := Rabs (a 0%nat - b 0%nat).
Definition ex_pts : list (pt R) := [(fun _ => 0); (fun _ => 1); (fun _ => 3)].
Lemma ex_param : (2 <= length ex_pts)%nat /\
  (forall j, (S j < length ex_pts)%nat -> 0 < chord ex_dist ex_pts ChordLength j) /\
  1/1000 < sumn (length ex_pts - 1) (chord ex_dist ex_pts ChordLength).
Proof.
  assert (A : Rabs (1 - 0) = 1) by (rewrite Rabs_right; lra).
  assert (B : Rabs (3 - 1) = 2) by (rewrite Rabs_right; lra).
  split; [simpl; lia|]. split.
  - intros j Hj. simpl in Hj. destruct j as [|[|j]]; try lia; unfold chord, ex_dist, pts_at, ex_pts; cbn [nth];
      rewrite ?A, ?B; lra.
  - cbn [ex_pts length Nat.sub sumn]. unfold chord, ex_dist, pts_at, ex_pts; cbn [nth]. rewrite A, B. lra.
Qed.
