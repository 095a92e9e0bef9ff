(** Connections of curves. *)
From Coq Require Import List Arith ZArith Reals Lia Lra Bool Permutation.
From Verif Require Import Model_Base Model_Knots Model_Basis Model_Curve Model_Interp Model_Math Model_Wrap Model_Connect
  Spec_Base Spec_Basis Spec_Eval Spec_Knots Spec_Interp Spec_Solve Proof_Base Proof_Blossom Proof_Basis Proof_Ders Proof_Eval
  Proof_PropBasis Proof_Ctor Proof_Builders Proof_Band Proof_Interp Proof_Interp2 Proof_Interp3 Proof_Interp4
  Proof_Invariant Proof_Skin3 Proof_SW2 Proof_Connect1 Proof_Connect2.
Import ListNotations.
Local Open Scope R_scope.

Lemma mapM_fun {A B} (f : A -> result B) (g : A -> B) l : (forall x, In x l -> f x = Ok (g x)) -> mapM f l = Ok (map g l).
Proof.
  induction l as [|x l IH]; intros H; [reflexivity|]. cbn [mapM map]. rewrite (H x (or_introl eq_refl)). cbn [bind].
  rewrite IH by (intros y Hy; apply H; right; exact Hy). reflexivity.
Qed.
Lemma seq_front {A} (g : nat -> A) n : map g (seq 0 (n + 1)) = g 0%nat :: map g (seq 1 n).
Proof. rewrite Nat.add_1_r. reflexivity. Qed.

Section AtR.
Variable eps : R.
Local Hint Extern 0 (Num R) => exact (NumR eps) : typeclass_instances.

Lemma jet_ok g u n (a : nat -> pt R) : (forall d, (d <= n)%nat -> g_value g u d = Ok (a d)) ->
  jet g u n = Ok (map a (seq 0 (n + 1))).
Proof. intros H. apply mapM_fun. intros d Hd. apply in_seq in Hd. apply H. lia. Qed.

Lemma two_params dist root (p q : pt R) : curve_parametrization dist root [p; q] ChordLength false = Ok [0; dist q p].
Proof.
  unfold curve_parametrization, accumulate. cbn [length filled set upd Nat.eqb for_ bind get nth_error Nat.sub].
  cbn. nsimp. rewrite Rplus_0_l. reflexivity.
Qed.

Lemma chord_ok sparse dist root dim nc (a0 b0 : pt R) (ta tb : list (pt R)) : complete_solver sparse -> 0 <= eps ->
  (1 <= nc <= 12)%nat -> length (a0 :: ta) = nc -> length (b0 :: tb) = nc -> 0 < dist b0 a0 ->
  exists c, hermite_chord sparse dist root dim nc [a0 :: ta; b0 :: tb] = Ok c /\ c_deg c = (2 * nc - 1)%nat /\
    bounds c = (0, dist b0 a0) /\
    forall d, (d < nc)%nat -> passes eps dim c 0 d (nth d (a0 :: ta) (fun _ => 0)) /\
      passes eps dim c (dist b0 a0) d (nth d (b0 :: tb) (fun _ => 0)).
Proof.
  intros Hco He Hnc La Lb Hd. unfold hermite_chord. cbn [mapM front bind]. rewrite two_params. cbn [bind].
  destruct (hermite_returns eps sparse dim nc (a0 :: ta) (b0 :: tb) 0 (dist b0 a0) Hco He Hnc La Lb Hd) as (c & E).
  exists c. split; [exact E|].
  assert (Hs : strictly_increasing [0; dist b0 a0]).
  { intros i j Hij Hj. simpl in Hj. destruct i as [|[|i]], j as [|[|j]]; try lia; unfold kn; simpl; lra. }
  destruct (hermite_ok eps sparse dim nc [a0 :: ta; b0 :: tb] [0; dist b0 a0] c (proj1 Hco) He (proj1 Hnc)) as (H1 & H2 & H3);
    [apply le_n|reflexivity| |exact Hs|exact E|left; lia|].
  { intros q [<-|[<-|[]]]; assumption. }
  split; [exact H1|]. split; [exact H2|]. intros d Hdn. split.
  - apply (H3 0%nat d); [simpl; lia|exact Hdn].
  - apply (H3 1%nat d); [simpl; lia|exact Hdn].
Qed.

Lemma nth_jet (a : nat -> pt R) n d z : (d <= n)%nat -> nth d (map a (seq 0 (n + 1))) z = a d.
Proof. intros H. apply nth_map_seq. lia. Qed.

Lemma connect_ok sparse dist root dim n (g1 g2 : gcurve R) (a b : nat -> pt R) : complete_solver sparse -> 0 <= eps -> (n <= 11)%nat ->
  (forall d, (d <= n)%nat -> g_value g1 (g_hi g1) d = Ok (a d)) -> (forall d, (d <= n)%nat -> g_value g2 (g_lo g2) d = Ok (b d)) ->
  0 < dist (b 0%nat) (a 0%nat) ->
  exists c, connect sparse dist root dim n g1 g2 = Ok c /\ c_deg c = (2 * n + 1)%nat /\
    bounds c = (0, dist (b 0%nat) (a 0%nat)) /\
    forall d, (d <= n)%nat -> passes eps dim c 0 d (a d) /\ passes eps dim c (dist (b 0%nat) (a 0%nat)) d (b d).
Proof.
  intros Hco He Hn Ha Hb Hd. unfold connect. rewrite (jet_ok _ _ n a Ha), (jet_ok _ _ n b Hb). cbn [bind].
  rewrite !seq_front.
  destruct (chord_ok sparse dist root dim (n + 1) (a 0%nat) (b 0%nat) (map a (seq 1 n)) (map b (seq 1 n)) Hco He) as (c & E & H1 & H2 & H3);
    [lia|cbn [length]; rewrite map_length, seq_length; lia|cbn [length]; rewrite map_length, seq_length; lia|exact Hd|].
  exists c. split; [exact E|]. split; [rewrite H1; lia|]. split; [exact H2|]. intros d Hdn. specialize (H3 d ltac:(lia)).
  rewrite <- !seq_front, !nth_jet in H3 by exact Hdn. exact H3.
Qed.

Lemma connect_scaled_ok sparse dist root dim (g1 g2 : gcurve R) (a b : nat -> pt R) t1 t2 : complete_solver sparse -> 0 <= eps ->
  (forall d, (d <= 3)%nat -> g_value g1 (g_hi g1) d = Ok (a d)) -> (forall d, (d <= 3)%nat -> g_value g2 (g_lo g2) d = Ok (b d)) ->
  0 < dist (b 0%nat) (a 0%nat) ->
  exists c, c2_connect_scaled sparse dist root dim g1 g2 t1 t2 = Ok c /\ c_deg c = 7%nat /\
    bounds c = (0, dist (b 0%nat) (a 0%nat)) /\
    (forall d, (d <= 2)%nat -> passes eps dim c 0 d (a d) /\ passes eps dim c (dist (b 0%nat) (a 0%nat)) d (b d)) /\
    passes eps dim c 0 3 (fun i => t1 * a 3%nat i) /\ passes eps dim c (dist (b 0%nat) (a 0%nat)) 3 (fun i => t2 * b 3%nat i).
Proof.
  intros Hco He Ha Hb Hd. unfold c2_connect_scaled.
  rewrite (jet_ok g1 _ 2 a) by (intros; apply Ha; lia). rewrite (jet_ok g2 _ 2 b) by (intros; apply Hb; lia).
  rewrite (Ha 3%nat), (Hb 3%nat) by lia. cbn [bind Nat.add seq map app].
  destruct (chord_ok sparse dist root dim 4 (a 0%nat) (b 0%nat) [a 1%nat; a 2%nat; pscal t1 (a 3%nat)] [b 1%nat; b 2%nat; pscal t2 (b 3%nat)] Hco He)
    as (c & E & H1 & H2 & H3); [lia|reflexivity|reflexivity|exact Hd|].
  exists c. split; [exact E|]. split; [exact H1|]. split; [exact H2|]. split; [|split].
  - intros d Hdn. specialize (H3 d ltac:(lia)). destruct d as [|[|[|d]]]; [exact H3|exact H3|exact H3|lia].
  - exact (proj1 (H3 3%nat ltac:(lia))).
  - exact (proj2 (H3 3%nat ltac:(lia))).
Qed.

(** ** Conditions at the two ends, in any order *)
Lemma fold_params (cstr : list (@cpoint R)) (x y : R) A B : x < y ->
  Permutation (map cp_u cstr ++ [x; y]) (repeat x A ++ repeat y B) ->
  fold_left (fun u c => insert_ordered u (cp_u c)) cstr [x; y] = repeat x A ++ repeat y B.
Proof.
  intros Hxy Hp. destruct (insert_all eps cstr [x; y]) as (H1 & H2).
  { intros i j Hij Hj. simpl in Hj. destruct i as [|[|i]], j as [|[|j]]; try lia; unfold kn; simpl; lra. }
  apply two_perm; [exact Hxy|exact H1|]. etransitivity; [exact H2|exact Hp].
Qed.

Lemma two_ends_ok lu dim (x y : R) qx qy (cstr : list (@cpoint R)) p A B : complete_solver lu -> 0 <= eps -> x < y ->
  (1 <= A)%nat -> (1 <= B)%nat -> (1 <= p <= 24)%nat -> (A + B = length cstr + 2)%nat -> (p + 1 <= A + B)%nat ->
  (A + B = p + 1)%nat \/ (A <= p /\ B <= p)%nat ->
  Permutation (map cp_u cstr ++ [x; y]) (repeat x A ++ repeat y B) ->
  (forall d, (1 <= d < A)%nat -> exists q, In q cstr /\ cp_u q = x /\ cp_d q = d) ->
  (forall d, (1 <= d < B)%nat -> exists q, In q cstr /\ cp_u q = y /\ cp_d q = d) \/
  (B = 2%nat /\ (2 <= p)%nat /\ exists q, In q cstr /\ cp_u q = y /\ cp_d q = 2%nat) ->
  exists k X, let c := mk p (poles_of_columns (A + B) X) k x y in
    interpolate_constraints lu dim x qx y qy cstr p = Ok c /\ length X = dim /\ clamped_vector k (A + B) p x y /\
    (forall i, (p < i < A + B)%nat -> x + (y - x) / INR p <= kn k i <= y - (y - x) / INR p) /\
    passes eps dim c x 0 qx /\ passes eps dim c y 0 qy /\
    forall q, In q cstr -> passes eps dim c (cp_u q) (cp_d q) (cp_v q).
Proof.
  intros Hco He Hxy HA HB Hp Hn Hpn Hc Hperm Hfirst Hlast.
  destruct (two_knots eps x y A B p Hxy HA HB (proj1 Hp) Hpn Hc) as (k & Ek & Hcl & Hgap).
  assert (Hk : knots_ok k (A + B) p) by (apply (clamped_ok k (A + B) p x y Hcl Hxy); lia).
  pose proof (inside_a k _ p Hk x y Hcl Hxy) as Hix. pose proof (inside_b k _ p Hk x y Hcl Hxy) as Hiy.
  assert (Hu : forall q, In q cstr -> cp_u q = x \/ cp_u q = y).
  { intros q Hq. assert (I : In (cp_u q) (repeat x A ++ repeat y B)).
    { apply (Permutation_in _ Hperm). apply in_or_app. left. apply in_map. exact Hq. }
    apply in_app_or in I as [I|I]; apply repeat_spec in I; auto. }
  assert (Hev : evaluable eps k (A + B) p) by (left; lia).
  destruct (icons_returns eps lu dim x qx y qy cstr p k) as (X & EX & LX); rewrite <- ?Hn.
  - exact Hco.
  - exact Hpn.
  - rewrite (fold_params cstr x y A B Hxy Hperm). exact Ek.
  - exact Hk.
  - exact Hev.
  - exact Hix.
  - exact Hiy.
  - intros q Hq. destruct (Hu q Hq) as [-> | ->]; assumption.
  - intros z Z0 Z1 Zq.
    assert (HAp : (A <= p + 1)%nat) by lia.
    assert (F : forall j, (j < A)%nat -> z j = 0).
    { apply (first_determines eps k _ p Hk x y Hcl Hxy A z HAp). intros d Hd. destruct d as [|d]; [exact Z0|].
      destruct (Hfirst (S d) ltac:(lia)) as (q & Hq & Uq & Dq). specialize (Zq q Hq). rewrite Uq, Dq in Zq. exact Zq. }
    intros j Hj. destruct (Nat.lt_ge_cases j A) as [H|H]; [apply F; exact H|].
    destruct Hlast as [Hlast|(HB2 & Hp2 & q & Hq & Uq & Dq)].
    + apply (last_determines eps k _ p Hk x y Hcl Hxy B z); [lia| |exact Hj|lia].
      intros d Hd. destruct d as [|d]; [exact Z1|].
      destruct (Hlast (S d) ltac:(lia)) as (q & Hq & Uq & Dq). specialize (Zq q Hq). rewrite Uq, Dq in Zq. exact Zq.
    + specialize (Zq q Hq). rewrite Uq, Dq in Zq.
      apply (natural_determines eps k _ p Hk x y Hcl Hxy z Hp2); [|exact Z1|exact Zq|exact Hj].
      intros i Hi. apply F. lia.
  - rewrite <- Hn in EX. pose proof Hcl as (Lk & Hnd & K0 & K1 & _).
    rewrite (K0 0%nat), (K1 (length k - 1)%nat) in EX by lia.
    exists k, X. cbn zeta. split; [exact EX|]. split; [exact LX|]. split; [exact Hcl|]. split; [exact Hgap|].
    destruct (icons_ok eps lu dim x qx y qy cstr p _ (proj1 Hco) He (proj1 Hp) ltac:(lra) EX) as (_ & H1 & H2 & H3);
      cbn [c_knots]; rewrite <- ?Hn; auto.
Qed.

Lemma pairs_perm (x y : R) (f g : nat -> @cpoint R) l : (forall i, cp_u (f i) = x) -> (forall i, cp_u (g i) = y) ->
  Permutation (map cp_u (concat (map (fun i => [f i; g i]) l)) ++ [x; y]) (repeat x (length l + 1) ++ repeat y (length l + 1)).
Proof.
  intros Hf Hg. induction l as [|i l IH]; [apply Permutation_refl|].
  cbn [map concat app length Nat.add repeat]. rewrite Hf, Hg. apply perm_skip.
  etransitivity; [apply perm_skip; exact IH|]. apply Permutation_middle.
Qed.

Lemma cn_connect_ok lu dim (g1 g2 : gcurve R) du p n (a b : nat -> pt R) : complete_solver lu -> 0 <= eps -> 0 < du ->
  (n < p <= 24)%nat -> 
  (forall d, (d <= n)%nat -> g_value g1 (g_hi g1) d = Ok (a d)) -> (forall d, (d <= n)%nat -> g_value g2 (g_lo g2) d = Ok (b d)) ->
  exists c, cn_connect lu dim g1 g2 du p n = Ok c /\ c_deg c = min p (2 * n + 1) /\ bounds c = (0, du) /\
    forall d, (d <= n)%nat -> passes eps dim c 0 d (a d) /\ passes eps dim c du d (b d).
Proof.
  intros Hco He Hdu Hnp Ha Hb. unfold cn_connect. rewrite (Ha 0%nat), (Hb 0%nat) by lia. cbn [bind].
  set (f := fun i => mkcp (a i) 0 i). set (g := fun i => mkcp (b i) du i).
  rewrite (mapM_fun _ (fun i => [f i; g i])).
  2:{ intros i Hi. apply in_seq in Hi. rewrite (Ha i), (Hb i) by lia. reflexivity. }
  cbn [bind]. set (cstr := concat (map (fun i => [f i; g i]) (seq 1 n))).
  assert (Lc : length cstr = (2 * n)%nat).
  { assert (G : forall m s, length (concat (map (fun i => [f i; g i]) (seq s m))) = (2 * m)%nat).
    { clear. induction m as [|m IH]; intros s; [reflexivity|]. cbn [seq map concat app length]. rewrite IH. lia. }
    apply G. }
  assert (Hin : forall d, (1 <= d <= n)%nat -> In (f d) cstr /\ In (g d) cstr).
  { intros d Hd. unfold cstr. split; apply in_concat; exists [f d; g d]; (split; [apply in_map_iff; exists d; split; [reflexivity|apply in_seq; lia]|simpl; auto]). }
  destruct (two_ends_ok lu dim 0 du (a 0%nat) (b 0%nat) cstr (min p (2 * n + 1)) (n + 1) (n + 1) Hco He Hdu)
    as (k & X & E & LX & Hcl & _ & P0 & P1 & Pq).
  - lia.
  - lia.
  - lia.
  - lia.
  - lia.
  - lia.
  - unfold cstr. replace (n + 1)%nat with (length (seq 1 n) + 1)%nat by (rewrite seq_length; reflexivity).
    apply pairs_perm; reflexivity.
  - intros d Hd. exists (f d). split; [apply Hin; lia|split; reflexivity].
  - left. intros d Hd. exists (g d). split; [apply Hin; lia|split; reflexivity].
  - eexists. split; [exact E|]. split; [reflexivity|]. split; [reflexivity|].
    intros d Hd. destruct d as [|d]; [split; assumption|]. destruct (Hin (S d) ltac:(lia)) as (I1 & I2).
    split; [exact (Pq _ I1)|exact (Pq _ I2)].
Qed.
End AtR.
