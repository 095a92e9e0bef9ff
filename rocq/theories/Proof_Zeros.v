(** Counting zeros: between zeros that a function does not vanish between, its derivative has
    zeros of the same kind.  A piecewise affine function has at most one per piece. *)
From Coq Require Import Arith Reals Lia Lra.
Local Open Scope R_scope.

(** Zeros t 0 < ... < t (N-1) of f in [a, b], f not null between two neighbours. *)
Definition zeros (f : R -> R) (a b : R) (N : nat) (t : nat -> R) : Prop :=
  (forall i, (i < N)%nat -> f (t i) = 0 /\ a <= t i <= b) /\
  (forall i, (S i < N)%nat -> t i < t (S i) /\ exists w, t i < w < t (S i) /\ f w <> 0).

Lemma rolle f g a b : a < b -> (forall x, a <= x <= b -> continuity_pt f x) ->
  (forall x, a < x < b -> derivable_pt_lim f x (g x)) -> f a = 0 -> f b = 0 -> (exists w, a < w < b /\ f w <> 0) ->
  exists v, a < v < b /\ f v <> 0 /\ g v = 0.
Proof.
  intros Hab Hc Hd Ha Hb (w & Hw & Fw).
  assert (Hz : forall x (pr : derivable_pt f x), a < x < b -> derive_pt f x pr = 0 -> g x = 0).
  { intros x pr Hx E. rewrite <- E. symmetry. apply derive_pt_eq_0. apply Hd. exact Hx. }
  destruct (Rtotal_order (f w) 0) as [H|[H|H]]; [|contradiction|].
  - destruct (continuity_ab_min f a b ltac:(lra) Hc) as (m & Hm & Im). exists m.
    pose proof (Hm w ltac:(lra)). assert (a < m < b) by (split; [destruct (Req_dec m a) as [->|]; lra|destruct (Req_dec m b) as [->|]; lra]).
    split; [assumption|]. split; [lra|]. assert (pr : derivable_pt f m) by (exists (g m); apply Hd; assumption).
    apply (Hz m pr); [assumption|]. apply (deriv_minimum f a b m pr); try lra. intros x X1 X2. apply Hm. lra.
  - destruct (continuity_ab_maj f a b ltac:(lra) Hc) as (m & Hm & Im). exists m.
    pose proof (Hm w ltac:(lra)). assert (a < m < b) by (split; [destruct (Req_dec m a) as [->|]; lra|destruct (Req_dec m b) as [->|]; lra]).
    split; [assumption|]. split; [lra|]. assert (pr : derivable_pt f m) by (exists (g m); apply Hd; assumption).
    apply (Hz m pr); [assumption|]. apply (deriv_maximum f a b m pr); try lra. intros x X1 X2. apply Hm. lra.
Qed.

(** A derivative that is not null between a zero and a point where f is not null. *)
Lemma slope f g a b : a < b -> (forall x, a <= x <= b -> derivable_pt_lim f x (g x)) -> f a <> f b ->
  exists w, a < w < b /\ g w <> 0.
Proof.
  intros Hab Hd Hne. destruct (MVT_cor2 f g a b Hab Hd) as (c & E & Hc). exists c. split; [exact Hc|].
  intros Z. rewrite Z in E. lra.
Qed.

(** Finite choice. *)
Lemma choice_nat (Q : nat -> R -> Prop) N : (forall i, (i < N)%nat -> exists v, Q i v) -> exists v, forall i, (i < N)%nat -> Q i (v i).
Proof.
  induction N as [|N IH]; intros H; [exists (fun _ => 0); intros; lia|].
  destruct IH as (v & Hv); [intros; apply H; lia|]. destruct (H N ltac:(lia)) as (x & Hx).
  exists (fun i => if Nat.eqb i N then x else v i). intros i Hi. destruct (Nat.eqb_spec i N) as [->|]; [exact Hx|apply Hv; lia].
Qed.

Lemma zeros_mono f a b N t : zeros f a b N t -> forall i j, (i <= j)%nat -> (j < N)%nat -> t i <= t j.
Proof.
  intros (_ & H) i j Hij Hj. induction Hij as [|j Hij IH]; [lra|]. specialize (IH ltac:(lia)). destruct (H j ltac:(lia)) as (H1 & _). lra.
Qed.

(** One derivation: [el], [er] say that the ends are among the zeros, [el'], [er'] that the
    derivative is null there. *)
Lemma derive_zeros f g a b N t (el er el' er' : bool) : a < b -> (forall x, a <= x <= b -> derivable_pt_lim f x (g x)) ->
  zeros f a b N t -> (0 < N)%nat -> (el = true -> t 0%nat = a) -> (er = true -> t (N - 1)%nat = b) ->
  (el' = true -> el = true /\ g a = 0) -> (er' = true -> er = true /\ g b = 0) ->
  let N' := (N - 1 + (if el' then 1 else 0) + (if er' then 1 else 0))%nat in
  exists t', zeros g a b N' t' /\ (el' = true -> t' 0%nat = a) /\ (er' = true -> t' (N' - 1)%nat = b).
Proof.
  intros Hab Hd HZ HN Hl Hr Hl' Hr' N'. pose proof (zeros_mono _ _ _ _ _ HZ) as Hm. destruct HZ as (Z1 & Z2).
  assert (Hc : forall x, a <= x <= b -> continuity_pt f x) by (intros x Hx; apply derivable_continuous_pt; exists (g x); apply Hd; exact Hx).
  destruct (choice_nat (fun i v => t i < v < t (S i) /\ f v <> 0 /\ g v = 0) (N - 1)) as (v & Hv).
  { intros i Hi. destruct (Z2 i ltac:(lia)) as (Hlt & Hw). destruct (Z1 i ltac:(lia)) as (F1 & I1). destruct (Z1 (S i) ltac:(lia)) as (F2 & I2).
    apply rolle; auto; intros x Hx; [apply Hc|apply Hd]; lra. }
  assert (Hgap : forall i, (S i < N - 1)%nat -> v i < v (S i) /\ exists w, v i < w < v (S i) /\ g w <> 0).
  { intros i Hi. destruct (Hv i ltac:(lia)) as (A1 & A2 & A3). destruct (Hv (S i) ltac:(lia)) as (B1 & B2 & B3). split; [lra|].
    destruct (Z1 i ltac:(lia)) as (_ & I1). destruct (Z1 (S i) ltac:(lia)) as (F1 & I2).
    destruct (slope f g (v i) (t (S i))) as (w & W1 & W2); [lra|intros x Hx; apply Hd; lra|lra|]. exists w. split; [lra|exact W2]. }
  assert (Hin : forall i, (i < N - 1)%nat -> a < v i < b).
  { intros i Hi. destruct (Hv i Hi) as (A1 & _). destruct (Z1 i ltac:(lia)) as (_ & I1). destruct (Z1 (S i) ltac:(lia)) as (_ & I2). lra. }
  set (e := if el' then 1%nat else 0%nat).
  set (t' := fun i => if (i <? e)%nat then a else if (i - e <? N - 1)%nat then v (i - e)%nat else b).
  assert (He : (e <= 1)%nat) by (unfold e; destruct el'; lia).
  assert (Hee : e = 1%nat -> el' = true) by (unfold e; destruct el'; [reflexivity|discriminate]).
  assert (HN' : N' = (N - 1 + e + (if er' then 1 else 0))%nat) by reflexivity.
  assert (Hrr : (N - 1 + e < N')%nat -> er' = true) by (rewrite HN'; destruct er'; [reflexivity|lia]).
  assert (HN2 : el' = true -> er' = true -> (2 <= N)%nat).
  { intros A B. destruct (Hl' A) as (A' & _). destruct (Hr' B) as (B' & _). specialize (Hl A'). specialize (Hr B').
    destruct N as [|[|N0]]; [lia| |lia]. cbn in Hr. lra. }
  exists t'. split; [split|split].
  - intros i Hi. unfold t'. destruct (Nat.ltb_spec i e) as [H1|H1].
    + split; [apply Hl'; apply Hee; lia|lra].
    + destruct (Nat.ltb_spec (i - e) (N - 1)) as [H2|H2].
      * destruct (Hv _ H2) as (_ & _ & G0). pose proof (Hin _ H2). split; [exact G0|lra].
      * split; [apply Hr', Hrr; lia|lra].
  - intros i Hi. unfold t'.
    destruct (Nat.ltb_spec i e) as [H1|H1].
    + destruct (Nat.ltb_spec (S i) e) as [H2|H2]; [lia|]. destruct (Hl' (Hee ltac:(lia))) as (El & Ga). specialize (Hl El).
      destruct (Nat.ltb_spec (S i - e) (N - 1)) as [H3|H3].
      * replace (S i - e)%nat with 0%nat by lia. pose proof (Hin 0%nat ltac:(lia)) as Hin0. split; [lra|].
        destruct (Hv 0%nat ltac:(lia)) as (A1 & A2 & _). destruct (Z1 0%nat ltac:(lia)) as (F0 & _). rewrite Hl in F0.
        apply slope with (f := f); [lra|intros x Hx; apply Hd; lra|lra].
      * exfalso. pose proof (HN2 (Hee ltac:(lia)) (Hrr ltac:(lia))). lia.
    + destruct (Nat.ltb_spec (S i) e) as [H2|H2]; [lia|]. destruct (Nat.ltb_spec (i - e) (N - 1)) as [H3|H3].
      * destruct (Nat.ltb_spec (S i - e) (N - 1)) as [H4|H4].
        { replace (S i - e)%nat with (S (i - e)) by lia. apply Hgap. lia. }
        { pose proof (Hin _ H3) as Hi3. split; [lra|]. destruct (Hr' (Hrr ltac:(lia))) as (Er & _). specialize (Hr Er).
          destruct (Hv _ H3) as (A1 & A2 & _). destruct (Z1 (N - 1)%nat ltac:(lia)) as (F0 & _). rewrite Hr in F0.
          apply slope with (f := f); [lra|intros x Hx; apply Hd; lra|lra]. }
      * exfalso. rewrite HN' in Hi. destruct er'; lia.
  - intros E. unfold t', e. rewrite E. reflexivity.
  - intros E. unfold t'. rewrite HN', E. destruct (Nat.ltb_spec (N - 1 + e + 1 - 1) e) as [H|H].
    + assert (e = 1%nat) by lia. pose proof (HN2 (Hee ltac:(lia)) E). lia.
    + destruct (Nat.ltb_spec (N - 1 + e + 1 - 1 - e) (N - 1)); [lia|reflexivity].
Qed.

(** At most one zero of this kind per affine piece. *)
Lemma zeros_affine f M N t (kap : nat -> R) : zeros f (kap 0%nat) (kap M) N t ->
  (forall i, (i < M)%nat -> kap i < kap (S i)) ->
  (forall i x y w, (i < M)%nat -> kap i <= x -> x < w < y -> y <= kap (S i) -> f x = 0 -> f y = 0 -> f w = 0) ->
  (0 < M)%nat -> (N <= M)%nat.
Proof.
  intros (Z1 & Z2) Hk Hf HM.
  assert (Hloc : forall x i, (i <= M)%nat -> kap i <= x <= kap M -> exists j, (i <= j < M \/ (i = M /\ j = M - 1))%nat /\ kap j <= x <= kap (S j)).
  { intros x i Hi. remember (M - i)%nat as r eqn:Er. revert i Hi Er. induction r as [|r IH]; intros i Hi Er Hx.
    - assert (i = M) by lia. subst i. exists (M - 1)%nat. split; [right; lia|]. replace (S (M - 1)) with M by lia.
      pose proof (Hk (M - 1)%nat ltac:(lia)) as H. replace (S (M - 1)) with M in H by lia. lra.
    - destruct (Rle_lt_dec x (kap (S i))) as [H|H]; [exists i; split; [left; lia|lra]|].
      destruct (IH (S i) ltac:(lia) ltac:(lia) ltac:(lra)) as (j & Hj & Hjx). exists j. split; [lia|exact Hjx]. }
  assert (HP : forall i, (i < N)%nat -> exists j, (i <= j < M)%nat /\ kap j <= t i <= kap (S j)).
  { induction i as [|i IH]; intros Hi.
    - destruct (Z1 0%nat Hi) as (_ & H). destruct (Hloc (t 0%nat) 0%nat ltac:(lia) H) as (j & Hj & Hjx). exists j. split; [lia|exact Hjx].
    - destruct (IH ltac:(lia)) as (j & Hj & Hjx). destruct (Z2 i ltac:(lia)) as (Hlt & w & Hw & Fw). destruct (Z1 (S i) Hi) as (F1 & H1). destruct (Z1 i ltac:(lia)) as (F0 & H0).
      destruct (Rle_lt_dec (t (S i)) (kap (S j))) as [H|H].
      + exfalso. apply Fw. apply (Hf j (t i) (t (S i)) w); try lra; lia.
      + destruct (Hloc (t (S i)) (S j) ltac:(lia) ltac:(lra)) as (j' & [Hj'|(E & E')] & Hjx'); [exists j'; split; [lia|exact Hjx']|].
        exfalso. rewrite E in H. lra. }
  destruct N as [|N]; [lia|]. destruct (HP N ltac:(lia)) as (j & Hj & _). lia.
Qed.
