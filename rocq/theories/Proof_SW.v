(** Schoenberg-Whitney: a spline null at parameters inside the supports of its basis functions
    is null. *)
From Coq Require Import List Arith ZArith Reals Lia Lra Permutation Bool.
From Verif Require Import Model_Base Spec_Base Spec_Basis Spec_Eval Proof_Base Proof_Blossom Proof_Basis Proof_Eval
  Proof_PropBasis Proof_Refine Proof_Continuity Proof_Trim Proof_Unique Proof_Curve Proof_Smooth Proof_Zeros.
Import ListNotations.
Local Open Scope R_scope.

Lemma NH_left k l c r i : (r <= l)%nat -> (forall j, (l - r < j <= l)%nat -> k j = c) -> (l - r < i)%nat ->
  NH k l (repeat (c, 1) r) i = 0.
Proof.
  revert i. induction r as [|r IH]; intros i Hr Hk Hi; cbn [repeat NH].
  - destruct (Nat.eqb_spec i l); [lia|reflexivity].
  - rewrite repeat_length. rewrite (IH (S i)) by (try (intros; apply Hk); lia).
    destruct (Nat.eq_dec i (l - r)) as [E|E].
    + rewrite (Hk i) by lia. unfold Rdiv. ring.
    + rewrite (IH i) by (try (intros; apply Hk); lia). ring.
Qed.
Lemma NH_right k l c r i : (forall j, (l < j <= l + r)%nat -> k j = c) -> (i < l)%nat ->
  NH k l (repeat (c, 1) r) i = 0.
Proof.
  revert i. induction r as [|r IH]; intros i Hk Hi; cbn [repeat NH].
  - destruct (Nat.eqb_spec i l); [lia|reflexivity].
  - rewrite repeat_length. rewrite (IH i) by (try (intros; apply Hk); lia).
    destruct (Nat.eq_dec (S i) l) as [E|E].
    + rewrite (Hk (i + S (S r))%nat) by lia. unfold Rdiv. ring.
    + rewrite (IH (S i)) by (try (intros; apply Hk); lia). ring.
Qed.
Lemma NH_left_d k l c d r i : (r <= l)%nat -> (forall j, (l - r < j <= l)%nat -> k j = c) -> (l - r < i)%nat ->
  NH k l (repeat (1, 0) d ++ repeat (c, 1) r) i = 0.
Proof.
  intros Hr Hk. revert i. induction d as [|d IH]; intros i Hi; cbn [repeat app NH].
  - apply NH_left; auto.
  - rewrite (IH i), (IH (S i)) by lia. ring.
Qed.
Lemma NH_right_d k l c d r i : (forall j, (l < j <= l + r)%nat -> k j = c) -> (i + d < l)%nat ->
  NH k l (repeat (1, 0) d ++ repeat (c, 1) r) i = 0.
Proof.
  intros Hk. revert i. induction d as [|d IH]; intros i Hi; cbn [repeat app NH].
  - apply NH_right; auto; lia.
  - rewrite (IH i), (IH (S i)) by lia. ring.
Qed.

Lemma least_dec (Q : nat -> Prop) : (forall i, {Q i} + {~ Q i}) -> forall i, Q i -> exists j, (j <= i)%nat /\ Q j /\ forall a, (a < j)%nat -> ~ Q a.
Proof.
  intros Hdec i. induction i as [i IH] using lt_wf_ind. intros Hi.
  assert (H : {exists j, (j < i)%nat /\ Q j} + {forall j, (j < i)%nat -> ~ Q j}).
  { clear - Hdec. induction i as [|i [IH|IH]]; [right; intros; lia|left; destruct IH as (j & Hj & H); exists j; split; [lia|exact H]|].
    destruct (Hdec i) as [H|H]; [left; exists i; split; [lia|exact H]|right].
    intros j Hj. destruct (Nat.eq_dec j i) as [->|]; [exact H|apply IH; lia]. }
  destruct H as [(j & Hj & Qj)|H].
  - destruct (IH j Hj Qj) as (j' & A & B & C). exists j'. split; [lia|auto].
  - exists i. split; [lia|auto].
Qed.

Section SW.
Variables (k : list R) (n p : nat).
Hypothesis Hk : knots_ok k n p.
Hypothesis Hp : (1 <= p)%nat.
Hypothesis Hs : forall i, (p <= i < n)%nat -> kn k i < kn k (S i).
Hypothesis HA : forall i, (i <= p)%nat -> kn k i = kn k p.
Hypothesis HB : forall i, (n <= i <= n + p)%nat -> kn k i = kn k n.

Let Hlen : length k = (n + p + 1)%nat. Proof. apply Hk. Qed.
Let Hpn : (p < n)%nat. Proof. apply Hk. Qed.
Let Hnd : nondecreasing k. Proof. apply Hk. Qed.

Lemma kn_inc i j : (p <= i)%nat -> (i < j)%nat -> (j <= n)%nat -> kn k i < kn k j.
Proof.
  intros Hi Hij Hj. induction Hij as [|j Hij IH]; [apply Hs; lia|]. specialize (IH ltac:(lia)). pose proof (Hs j ltac:(lia)). lra.
Qed.

Lemma locate x : kn k p <= x <= kn k n -> exists l, (p <= l < n)%nat /\ kn k l <= x <= kn k (S l) /\ (x < kn k (S l) \/ x = kn k n).
Proof.
  intros Hx. destruct (span_at_ex 0 n p x k Hk Hx) as (l & Hl & [S1|(S1 & ->)] & _).
  - exists l. split; [exact Hl|]. split; [lra|left; lra].
  - exists (n - 1)%nat. split; [lia|]. replace (S (n - 1)) with n by lia. pose proof (Hs (n - 1)%nat ltac:(lia)) as H. replace (S (n - 1)) with n in H by lia. split; [lra|right; exact S1].
Qed.

Section Coef.
Variable P : nat -> R.

Definition G (d : nat) (x : R) : R :=
  if Rlt_dec x (kn k p) then PS k p p d P x else if Rlt_dec (kn k n) x then PS k p (n - 1) d P x else CV k n p d P x.

Lemma G_span d x l : (p <= l < n)%nat -> kn k l <= x < kn k (S l) -> G d x = PS k p l d P x.
Proof.
  intros Hl Hx. unfold G. pose proof (Hnd p l ltac:(lia) ltac:(lia)). pose proof (Hnd (S l) n ltac:(lia) ltac:(lia)).
  destruct (Rlt_dec x (kn k p)); [lra|]. destruct (Rlt_dec (kn k n) x); [lra|]. apply CV_at; auto. left. exact Hx.
Qed.
Lemma G_low d x : x < kn k (S p) -> G d x = PS k p p d P x.
Proof.
  intros Hx. destruct (Rlt_dec x (kn k p)) as [H|H]; [unfold G; destruct (Rlt_dec x (kn k p)); [reflexivity|lra]|].
  apply G_span; [lia|lra].
Qed.
Lemma G_high d x : kn k (n - 1) <= x -> G d x = PS k p (n - 1) d P x.
Proof.
  intros Hx. pose proof (Hs (n - 1)%nat ltac:(lia)) as H. replace (S (n - 1)) with n in H by lia.
  destruct (Rlt_dec x (kn k n)) as [H1|H1]; [apply G_span; [lia|]; replace (S (n - 1)) with n by lia; lra|].
  unfold G. pose proof (Hnd p (n - 1)%nat ltac:(lia) ltac:(lia)). destruct (Rlt_dec x (kn k p)); [lra|]. destruct (Rlt_dec (kn k n) x); [reflexivity|].
  assert (E : x = kn k n) by lra. apply CV_at; [exact Hk|lia|right; split; [exact E|reflexivity]].
Qed.
(** On the closed span, up to the order p - 1. *)
Lemma G_closed d x l : (d + 1 <= p)%nat -> (p <= l < n)%nat -> kn k l <= x <= kn k (S l) -> G d x = PS k p l d P x.
Proof.
  intros Hd Hl Hx. destruct (Rlt_dec x (kn k (S l))) as [H|H]; [apply G_span; [exact Hl|lra]|].
  assert (E : x = kn k (S l)) by lra. subst x. destruct (Nat.eq_dec (S l) n) as [En|En].
  - rewrite G_high by (apply Hnd; lia). f_equal. lia.
  - pose proof (Hs (S l) ltac:(lia)). rewrite (G_span d _ (S l)) by (try lia; lra).
    apply (PS_continuous_d k n p l (S l)); auto; try lia; try (apply Hs; lia).
    intros y Hy. replace y with (S l) by lia. reflexivity.
Qed.

Lemma PSd l d u : (p <= l < n)%nat -> (d < p)%nat -> derivable_pt_lim (PS k p l d P) u (PS k p l (S d) P u).
Proof. intros Hl Hd. apply PS_deriv; auto; lia. Qed.

Lemma local_deriv (f g : R -> R) x e v : 0 < e -> (forall y, x - e < y < x + e -> f y = g y) -> derivable_pt_lim g x v -> derivable_pt_lim f x v.
Proof.
  intros He E D. apply (glue_deriv f g g x e v He); auto; intros y Hy; apply E; lra.
Qed.

Lemma G_deriv d x : (d + 2 <= p)%nat -> kn k p <= x <= kn k n -> derivable_pt_lim (G d) x (G (S d) x).
Proof.
  intros Hd Hx. destruct (locate x Hx) as (l & Hl & Hxl & Hc).
  rewrite (G_closed (S d) x l) by (try lia; exact Hxl).
  destruct Hc as [Hc|Hc].
  - destruct (Rlt_dec (kn k l) x) as [H|H].
    + apply (local_deriv _ (PS k p l d P) x (Rmin (x - kn k l) (kn k (S l) - x))); [apply Rmin_pos; lra| |apply PSd; lia].
      intros y Hy. pose proof (Rmin_l (x - kn k l) (kn k (S l) - x)). pose proof (Rmin_r (x - kn k l) (kn k (S l) - x)). apply G_span; [exact Hl|lra].
    + assert (E : x = kn k l) by lra. destruct (Nat.eq_dec l p) as [->|Hlp].
      * apply (local_deriv _ (PS k p p d P) x (kn k (S p) - x)); [lra| |apply PSd; lia]. intros y Hy. apply G_low. lra.
      * pose proof (Hs (l - 1)%nat ltac:(lia)) as H1. replace (S (l - 1)) with l in H1 by lia.
        apply (glue_deriv _ (PS k p (l - 1) d P) (PS k p l d P) x (Rmin (x - kn k (l - 1)) (kn k (S l) - x))).
        -- apply Rmin_pos; lra.
        -- intros y Hy. pose proof (Rmin_l (x - kn k (l - 1)) (kn k (S l) - x)). apply G_span; [lia|]. replace (S (l - 1)) with l by lia. lra.
        -- intros y Hy. pose proof (Rmin_r (x - kn k (l - 1)) (kn k (S l) - x)). apply G_span; [lia|]. lra.
        -- symmetry. apply (PS_continuous_d k n p (l - 1) l); auto; try lia; try lra; [replace (S (l - 1)) with l by lia; lra|]. intros y Hy. replace y with l by lia. auto.
        -- replace (PS k p l (S d) P x) with (PS k p (l - 1) (S d) P x); [apply PSd; lia|].
           symmetry. apply (PS_continuous_d k n p (l - 1) l); auto; try lia; try lra; [replace (S (l - 1)) with l by lia; lra|]. intros y Hy. replace y with l by lia. auto.
        -- apply PSd; lia.
  - assert (El : l = (n - 1)%nat).
    { destruct (Nat.eq_dec (S l) n); [lia|]. pose proof (kn_inc (S l) n ltac:(lia) ltac:(lia) ltac:(lia)). lra. }
    subst l. replace (S (n - 1)) with n in * by lia. pose proof (Hs (n - 1)%nat ltac:(lia)) as H1. replace (S (n - 1)) with n in H1 by lia.
    apply (local_deriv _ (PS k p (n - 1) d P) x (x - kn k (n - 1))); [lra| |apply PSd; lia]. intros y Hy. apply G_high. lra.
Qed.

(** Affine at the order p - 1. *)
Lemma G_affine l x y w : (p <= l < n)%nat -> kn k l <= x -> x < w < y -> y <= kn k (S l) -> G (p - 1) x = 0 -> G (p - 1) y = 0 -> G (p - 1) w = 0.
Proof.
  intros Hl Hx Hw Hy Ex Ey. rewrite (G_closed _ x l) in Ex by (try lia; lra). rewrite (G_closed _ y l) in Ey by (try lia; lra). rewrite (G_closed _ w l) by (try lia; lra).
  assert (HC : forall a b, PS k p l p P a = PS k p l p P b).
  { intros a b. unfold PS. rewrite Nat.sub_diag. reflexivity. }
  assert (HD : forall z, derivable_pt_lim (PS k p l (p - 1) P) z (PS k p l p P 0)).
  { intros z. rewrite (HC 0 z). replace (PS k p l p P z) with (PS k p l (S (p - 1)) P z) by (f_equal; lia). apply PSd; lia. }
  destruct (MVT_cor2 (PS k p l (p - 1) P) (fun _ => PS k p l p P 0) x y ltac:(lra) ltac:(intros; apply HD)) as (c & E & _).
  destruct (MVT_cor2 (PS k p l (p - 1) P) (fun _ => PS k p l p P 0) x w ltac:(lra) ltac:(intros; apply HD)) as (c' & E' & _).
  rewrite Ex, Ey in E. rewrite Ex in E'. assert (Z : PS k p l p P 0 = 0) by nra. rewrite Z in E'. lra.
Qed.

(** Null on a piece of a span: null coefficients there. *)
Lemma null_coefs l a b : (p <= l < n)%nat -> a < b -> kn k l <= a -> b <= kn k (S l) -> (forall x, a < x < b -> G 0 x = 0) ->
  forall i, (l - p <= i <= l)%nat -> P i = 0.
Proof.
  intros Hl Hab Ha Hb E i Hi. pose proof (Hs l Hl) as Hsl.
  rewrite <- (blo_dual k n p l P i) by (auto; lia).
  assert (E0 : forall x, a < x < b -> PS k p l 0 P x = PS k p l 0 (fun _ => 0) x).
  { intros x Hx. rewrite <- (G_closed 0 x l) by (try lia; lra). rewrite E by lra. unfold PS. symmetry. apply sumn_zero. intros. ring. }
  rewrite (blo_unique k n k n p l l P (fun _ => 0) a b Hk Hk Hl Hl Hsl Hsl Hab E0) by apply Proof_Blossom.kargs_length.
  unfold blo. apply sumn_zero. intros. ring.
Qed.

(** Not null between any two points, if each span has a coefficient that is not null. *)
Lemma not_null_between lc ld : (p <= lc)%nat -> (lc < ld)%nat -> (ld <= n)%nat ->
  (forall l, (lc <= l < ld)%nat -> exists i, (l - p <= i <= l)%nat /\ P i <> 0) ->
  forall x y, kn k lc <= x -> x < y -> y <= kn k ld -> exists w, x < w < y /\ G 0 w <> 0.
Proof.
  intros H1 H2 H3 Hc x y Hx Hxy Hy.
  assert (Hy' : y <= kn k n) by (pose proof (Hnd ld n ltac:(lia) ltac:(lia)); lra).
  assert (Hx' : kn k p <= x) by (pose proof (Hnd p lc ltac:(lia) ltac:(lia)); lra).
  destruct (locate x ltac:(lra)) as (l & Hl & Hxl & [Hlt|E]); [|lra].
  assert (Hlc : (lc <= l)%nat).
  { destruct (Nat.le_gt_cases lc l); [assumption|]. pose proof (Hnd (S l) lc ltac:(lia) ltac:(lia)). lra. }
  assert (Hld : (l < ld)%nat).
  { destruct (Nat.le_gt_cases ld l); [|assumption]. pose proof (Hnd ld l ltac:(lia) ltac:(lia)). lra. }
  set (b := Rmin y (kn k (S l))). assert (Hb : x < b) by (apply Rmin_glb_lt; lra).
  pose proof (Rmin_l y (kn k (S l))) as B1. pose proof (Rmin_r y (kn k (S l))) as B2. fold b in B1, B2.
  destruct (Hc l ltac:(lia)) as (i & Hi & Hne).
  set (x' := (2 * x + b) / 3). set (b' := (x + 2 * b) / 3). assert (X : x < x' /\ x' < b' /\ b' < b) by (unfold x', b'; lra).
  assert (HC : forall z, x' <= z <= b' -> continuity_pt (PS k p l 0 P) z).
  { intros z _. apply derivable_continuous_pt. exists (PS k p l 1 P z). apply PSd; lia. }
  assert (HG : forall z, x' <= z <= b' -> G 0 z = PS k p l 0 P z) by (intros z Hz; apply G_span; [lia|lra]).
  destruct (continuity_ab_maj _ x' b' ltac:(lra) HC) as (M & HM & IM). destruct (continuity_ab_min _ x' b' ltac:(lra) HC) as (m & Hm & Im).
  destruct (Req_EM_T (G 0 M) 0) as [E1|E1]; [|exists M; split; [lra|exact E1]].
  destruct (Req_EM_T (G 0 m) 0) as [E2|E2]; [|exists m; split; [lra|exact E2]].
  exfalso. apply Hne. apply (null_coefs l x' b'); auto; try lra.
  intros z Hz. specialize (HM z ltac:(lra)). specialize (Hm z ltac:(lra)). rewrite HG in E1, E2 by lra. rewrite HG by lra. lra.
Qed.

(** Orders at the ends of the support. *)
Lemma G_left_end alpha d : (forall i, (i < alpha)%nat -> P i = 0) -> (alpha < n)%nat -> (d < Nat.min alpha p)%nat ->
  G d (kn k (Nat.max alpha p)) = 0.
Proof.
  intros HP Ha Hd. set (l := Nat.max alpha p). pose proof (Hs l ltac:(lia)) as Hsl.
  rewrite (G_span d _ l) by (try lia; lra). unfold PS. apply sumn_zero. intros i Hi.
  destruct (Nat.lt_ge_cases i alpha) as [H|H]; [rewrite HP by exact H; ring|].
  destruct (Nat.le_gt_cases p alpha) as [Hpa|Hpa].
  - assert (El : l = alpha) by lia. replace (p - d)%nat with (p - d - 1 + 1)%nat by lia. rewrite repeat_app, app_assoc.
    assert (Z : NH (kn k) l ((repeat (1, 0) d ++ repeat (kn k l, 1) (p - d - 1)) ++ repeat (kn k l, 1) 1) i = 0); [|rewrite Z; ring].
    assert (HZ : forall pre j, (l - 1 < j)%nat -> NH (kn k) l (pre ++ repeat (kn k l, 1) 1) j = 0).
    { induction pre as [|(a0, w0) pre IH]; intros j Hj; cbn [app].
      - apply NH_left; [lia| |lia]. intros y Hy. f_equal. lia.
      - cbn [NH]. rewrite (IH j), (IH (S j)) by lia. ring. }
    apply HZ. lia.
  - assert (El : l = p) by lia. rewrite El. rewrite NH_left_d; [ring|lia| |lia]. intros j Hj. apply HA. lia.
Qed.
Lemma G_right_end beta d : (forall i, (beta < i)%nat -> P i = 0) -> (beta < n)%nat -> (d < Nat.min (n - 1 - beta) p)%nat ->
  G d (kn k (Nat.min (beta + p + 1) n)) = 0.
Proof.
  intros HP Hb Hd. destruct (Nat.lt_ge_cases (beta + p + 1) n) as [H|H].
  - rewrite Nat.min_l by lia. set (l := (beta + p + 1)%nat) in *. pose proof (Hs l ltac:(lia)) as Hsl. rewrite (G_span d _ l) by (try lia; lra).
    unfold PS. apply sumn_zero. intros i Hi. destruct (Nat.le_gt_cases i beta) as [H1|H1]; [|rewrite HP by exact H1; ring].
    rewrite NH_out; [ring|]. right. rewrite app_length, !repeat_length. lia.
  - rewrite Nat.min_r by lia. rewrite G_high by (apply Hnd; lia). unfold PS. apply sumn_zero. intros i Hi.
    destruct (Nat.le_gt_cases i beta) as [H1|H1]; [|rewrite HP by exact H1; ring].
    rewrite NH_right_d; [ring| |lia]. intros j Hj. apply HB. lia.
Qed.

Lemma count_zeros alpha beta (u : nat -> R) : (alpha <= beta)%nat -> (beta < n)%nat ->
  (forall i, (i < alpha)%nat -> P i = 0) -> (forall i, (beta < i)%nat -> P i = 0) ->
  (forall l, (Nat.max alpha p <= l < Nat.min (beta + p + 1) n)%nat -> exists i, (l - p <= i <= l)%nat /\ P i <> 0) ->
  (forall i, (alpha <= i <= beta)%nat -> G 0 (u i) = 0) ->
  (forall i, (alpha <= i < beta)%nat -> u i < u (S i)) ->
  (forall i, (alpha <= i <= beta)%nat -> (kn k (Nat.max alpha p) <= u i <= kn k (Nat.min (beta + p + 1) n))) ->
  ((0 < alpha)%nat -> kn k (Nat.max alpha p) < u alpha) -> ((beta < n - 1)%nat -> u beta < kn k (Nat.min (beta + p + 1) n)) ->
  False.
Proof.
  intros Hab Hbn HP0 HP1 Hsp Hz Hinc Hin Hc Hd.
  set (lc := Nat.max alpha p) in *. set (ld := Nat.min (beta + p + 1) n) in *.
  assert (Hlc : (p <= lc)%nat) by lia. assert (Hcd : (lc < ld)%nat) by lia. assert (Hldn : (ld <= n)%nat) by lia.
  set (c := kn k lc) in *. set (d := kn k ld) in *. assert (Hltcd : c < d) by (apply kn_inc; lia).
  set (L := Nat.min alpha p). set (Rr := Nat.min (n - 1 - beta) p). set (m := (beta - alpha + 1)%nat).
  assert (HM : (ld - lc + p = m + L + Rr)%nat) by (unfold m, L, Rr, lc, ld; lia).
  assert (HAc : kn k p <= c) by (apply Hnd; lia). assert (HdB : d <= kn k n) by (apply Hnd; lia).
  pose proof (not_null_between lc ld Hlc Hcd Hldn Hsp) as NN. fold c d in NN.
  assert (Hmono : forall i j, (alpha <= i)%nat -> (i <= j)%nat -> (j <= beta)%nat -> u i <= u j).
  { intros i j Hi Hij Hj. induction Hij as [|j Hij IH]; [lra|]. specialize (IH ltac:(lia)). pose proof (Hinc j ltac:(lia)). lra. }
  assert (ZL : forall e, (e < L)%nat -> G e c = 0) by (intros e He; apply G_left_end; auto; lia).
  assert (ZR : forall e, (e < Rr)%nat -> G e d = 0) by (intros e He; apply G_right_end; auto; lia).
  assert (HI : forall e, (e + 1 <= p)%nat -> exists N t, zeros (G e) c d N t /\ (N + e = m + Nat.min L (e + 1) + Nat.min Rr (e + 1))%nat /\
     ((e < L)%nat -> t 0%nat = c) /\ ((e < Rr)%nat -> t (N - 1)%nat = d)).
  { induction e as [|e IH]; intros He.
    - set (e1 := Nat.min L 1). set (N := (m + Nat.min L 1 + Nat.min Rr 1)%nat).
      set (t := fun i => if (i <? e1)%nat then c else if (i - e1 <? m)%nat then u (alpha + (i - e1))%nat else d).
      exists N, t. split; [split|split; [|split]].
      + intros i Hi. unfold t. destruct (Nat.ltb_spec i e1) as [H1|H1]; [split; [apply ZL; unfold e1 in *; lia|lra]|].
        destruct (Nat.ltb_spec (i - e1) m) as [H2|H2]; [split; [apply Hz; lia|apply Hin; lia]|].
        split; [apply ZR; unfold N, e1 in *; lia|lra].
      + intros i Hi.
        assert (Hlt : t i < t (S i)).
        { unfold t. destruct (Nat.ltb_spec i e1) as [H1|H1].
          - destruct (Nat.ltb_spec (S i) e1) as [H2|H2]; [unfold e1 in *; lia|]. destruct (Nat.ltb_spec (S i - e1) m) as [H3|H3]; [|exact Hltcd].
            replace (alpha + (S i - e1))%nat with alpha by (unfold e1 in *; lia). apply Hc. unfold e1, L in *; lia.
          - destruct (Nat.ltb_spec (S i) e1) as [H2|H2]; [lia|]. destruct (Nat.ltb_spec (i - e1) m) as [H3|H3].
            + destruct (Nat.ltb_spec (S i - e1) m) as [H4|H4].
              * replace (alpha + (S i - e1))%nat with (S (alpha + (i - e1))) by lia. apply Hinc. lia.
              * replace (alpha + (i - e1))%nat with beta by lia. apply Hd. unfold N, Rr, e1 in *. lia.
            + exfalso. unfold N, e1 in *. lia. }
        split; [exact Hlt|]. apply NN; [| exact Hlt |]; unfold t.
        * destruct (i <? e1)%nat; [lra|]. destruct (Nat.ltb_spec (i - e1) m); [|lra]. apply Hin. lia.
        * destruct (S i <? e1)%nat; [lra|]. destruct (Nat.ltb_spec (S i - e1) m); [|lra]. apply Hin. lia.
      + unfold N. lia.
      + intros H. unfold t, e1. destruct (Nat.ltb_spec 0 (Nat.min L 1)); [reflexivity|lia].
      + intros H. unfold t. destruct (Nat.ltb_spec (N - 1) e1); [unfold N, e1 in *; lia|]. destruct (Nat.ltb_spec (N - 1 - e1) m); [unfold N, e1 in *; lia|reflexivity].
    - destruct (IH ltac:(lia)) as (N & t & HZ & HN & HL & HR).
      destruct (derive_zeros (G e) (G (S e)) c d N t (e <? L)%nat (e <? Rr)%nat (S e <? L)%nat (S e <? Rr)%nat Hltcd) as (t' & Z' & L' & R').
      + intros x Hx. apply G_deriv; [lia|lra].
      + exact HZ.
      + lia.
      + intros H. apply Nat.ltb_lt in H. auto.
      + intros H. apply Nat.ltb_lt in H. auto.
      + intros H. apply Nat.ltb_lt in H. split; [apply Nat.ltb_lt; lia|apply ZL; lia].
      + intros H. apply Nat.ltb_lt in H. split; [apply Nat.ltb_lt; lia|apply ZR; lia].
      + eexists _, t'. split; [exact Z'|]. split; [|split].
        * destruct (Nat.ltb_spec (S e) L), (Nat.ltb_spec (S e) Rr); lia.
        * intros H. apply L', Nat.ltb_lt, H.
        * intros H. apply R', Nat.ltb_lt, H. }
  destruct (HI (p - 1)%nat ltac:(lia)) as (N & t & HZ & HN & _).
  pose proof (zeros_affine (G (p - 1)) (ld - lc) N t (fun i => kn k (lc + i))) as HZA.
  assert (N <= ld - lc)%nat; [|lia].
  apply HZA.
  - rewrite Nat.add_0_r. replace (lc + (ld - lc))%nat with ld by lia. exact HZ.
  - intros i Hi. replace (lc + S i)%nat with (S (lc + i)) by lia. apply Hs. lia.
  - intros i x y w Hi Hx Hw Hy. replace (lc + S i)%nat with (S (lc + i)) in Hy by lia. apply (G_affine (lc + i)); auto. lia.
  - lia.
Qed.
End Coef.

Theorem schoenberg_whitney (P u : nat -> R) :
  (forall i, (S i < n)%nat -> u i < u (S i)) -> u 0%nat = kn k p -> u (n - 1)%nat = kn k n ->
  (forall i, (0 < i < n - 1)%nat -> kn k i < u i < kn k (i + p + 1)) ->
  (forall i, (i < n)%nat -> CV k n p 0 P (u i) = 0) -> forall i, (i < n)%nat -> P i = 0.
Proof.
  intros Hinc U0 U1 HSW HZ.
  assert (Hmono : forall i j, (i < j)%nat -> (j < n)%nat -> u i < u j).
  { intros i j Hij Hj. induction Hij as [|j Hij IH]; [apply Hinc; lia|]. specialize (IH ltac:(lia)). pose proof (Hinc j ltac:(lia)). lra. }
  assert (HuA : forall i, (i < n)%nat -> kn k p <= u i <= kn k n).
  { intros i Hi. rewrite <- U0, <- U1. split.
    - destruct i; [lra|]. pose proof (Hmono 0%nat (S i) ltac:(lia) Hi). lra.
    - destruct (Nat.eq_dec i (n - 1)) as [->|]; [lra|]. pose proof (Hmono i (n - 1)%nat ltac:(lia) ltac:(lia)). lra. }
  intros i0 Hi0. destruct (Req_EM_T (P i0) 0) as [E|E]; [exact E|exfalso].
  set (Pn := fun i => if (i <? n)%nat then P i else 0).
  (* the first coefficient that is not null *)
  destruct (least_dec (fun i => Pn i <> 0)) with (i := i0) as (alpha & Ha0 & Ha & Hamin).
  { intros i. destruct (Req_EM_T (Pn i) 0) as [e|e]; [right; auto|left; exact e]. }
  { unfold Pn. destruct (Nat.ltb_spec i0 n); [exact E|lia]. }
  assert (Han : (alpha < n)%nat) by lia.
  (* the first one followed by p null ones *)
  set (Q := fun b => Pn b <> 0 /\ forall j, (b < j <= b + p)%nat -> Pn j = 0).
  assert (Qdec : forall b, {Q b} + {~ Q b}).
  { intros b. unfold Q. destruct (Req_EM_T (Pn b) 0) as [e|e]; [right; tauto|].
    assert (H : forall r, {forall j, (b < j <= b + r)%nat -> Pn j = 0} + {~ forall j, (b < j <= b + r)%nat -> Pn j = 0}).
    { induction r as [|r [IH|IH]]; [left; intros; lia| |right; intros H; apply IH; intros; apply H; lia].
      destruct (Req_EM_T (Pn (b + S r)%nat) 0) as [e'|e']; [left; intros j Hj; destruct (Nat.eq_dec j (b + S r)) as [->|]; [exact e'|apply IH; lia]|right; intros H; apply e', H; lia]. }
    destruct (H p); [left; tauto|right; tauto]. }
  assert (Qex : exists b, (b < n)%nat /\ Q b).
  { (* the last coefficient that is not null *)
    destruct (least_dec (fun i => Pn (n - 1 - i)%nat <> 0)) with (i := (n - 1 - i0)%nat) as (g & Hg0 & Hg & Hgmin).
    { intros i. destruct (Req_EM_T (Pn (n - 1 - i)%nat) 0) as [e|e]; [right; auto|left; exact e]. }
    { replace (n - 1 - (n - 1 - i0))%nat with i0 by lia. unfold Pn. destruct (Nat.ltb_spec i0 n); [exact E|lia]. }
    exists (n - 1 - g)%nat. split; [lia|]. split; [exact Hg|]. intros j Hj. unfold Pn. destruct (Nat.ltb_spec j n) as [Hjn|]; [|reflexivity].
    destruct (Req_EM_T (P j) 0) as [e|e]; [exact e|exfalso]. apply (Hgmin (n - 1 - j)%nat ltac:(lia)).
    replace (n - 1 - (n - 1 - j))%nat with j by lia. unfold Pn. destruct (Nat.ltb_spec j n); [exact e|lia]. }
  destruct Qex as (b0 & Hb0 & Qb0). destruct (least_dec Q Qdec b0 Qb0) as (beta & Hb & (Qb & Qz) & Qmin).
  assert (Hab : (alpha <= beta)%nat) by (destruct (Nat.le_gt_cases alpha beta); [assumption|]; exfalso; apply (Hamin beta); assumption).
  assert (Hbn : (beta < n)%nat) by lia.
  set (P' := fun i => if (i <=? beta)%nat then Pn i else 0).
  assert (PP : forall i, (i <= beta + p)%nat -> (i < n)%nat -> P' i = P i).
  { intros i Hi Hin. unfold P'. destruct (Nat.leb_spec i beta); [unfold Pn; destruct (Nat.ltb_spec i n); [reflexivity|lia]|].
    rewrite <- (Qz i ltac:(lia)). unfold Pn. destruct (Nat.ltb_spec i n); [reflexivity|lia]. }
  assert (HuLow : forall i, (0 < i < n)%nat -> kn k p < u i) by (intros i Hi; rewrite <- U0; apply Hmono; lia).
  assert (HuHigh : forall i, (i < n - 1)%nat -> u i < kn k n) by (intros i Hi; rewrite <- U1; apply Hmono; lia).
  assert (Hlow : forall i, (alpha <= i <= beta)%nat -> (0 < i)%nat -> kn k (Nat.max alpha p) < u i).
  { intros i Hi Hi1. destruct (Nat.le_gt_cases p alpha) as [H|H]; [|rewrite Nat.max_r by lia; apply HuLow; lia].
    rewrite Nat.max_l by lia. destruct (Nat.eq_dec i (n - 1)) as [->|Hne]; [rewrite U1; apply kn_inc; lia|].
    pose proof (HSW i ltac:(lia)). pose proof (Hnd alpha i ltac:(lia) ltac:(lia)). lra. }
  assert (Hhigh : forall i, (alpha <= i <= beta)%nat -> (i < n - 1)%nat -> u i < kn k (Nat.min (beta + p + 1) n)).
  { intros i Hi Hi1. destruct (Nat.le_gt_cases n (beta + p + 1)) as [H|H]; [rewrite Nat.min_r by lia; apply HuHigh; lia|].
    rewrite Nat.min_l by lia. destruct (Nat.eq_dec i 0) as [->|Hne]; [rewrite U0; apply kn_inc; lia|].
    pose proof (HSW i ltac:(lia)). pose proof (Hnd (i + p + 1)%nat (beta + p + 1)%nat ltac:(lia) ltac:(lia)). lra. }
  apply (count_zeros P' alpha beta u Hab Hbn).
  - intros i Hi. unfold P'. destruct (Nat.leb_spec i beta); [|reflexivity]. destruct (Req_EM_T (Pn i) 0) as [e|e]; [exact e|exfalso; apply (Hamin i Hi e)].
  - intros i Hi. unfold P'. destruct (Nat.leb_spec i beta); [lia|reflexivity].
  - intros l Hl.
    assert (Hdec : (exists i, (l - p <= i <= l)%nat /\ P' i <> 0) \/ (forall i, (l - p <= i <= l)%nat -> P' i = 0)).
    { assert (H : forall r, {exists i, (l - p <= i < l - p + r)%nat /\ P' i <> 0} + {forall i, (l - p <= i < l - p + r)%nat -> P' i = 0}).
      { induction r as [|r [IH|IH]]; [right; intros; lia|left; destruct IH as (i & Hi & e); exists i; split; [lia|exact e]|].
        destruct (Req_EM_T (P' (l - p + r)%nat) 0) as [e|e]; [right|left; exists (l - p + r)%nat; split; [lia|exact e]].
        intros i Hi. destruct (Nat.eq_dec i (l - p + r)) as [->|]; [exact e|apply IH; lia]. }
      destruct (H (p + 1)%nat) as [(i & Hi & e)|H1]; [left; exists i; split; [lia|exact e]|right; intros; apply H1; lia]. }
    destruct Hdec as [H|H]; [exact H|exfalso].
    assert (Pb : P' beta <> 0) by (unfold P'; rewrite Nat.leb_refl; exact Qb).
    assert (Pa : P' alpha <> 0) by (unfold P'; destruct (Nat.leb_spec alpha beta); [exact Ha|lia]).
    destruct (Nat.le_gt_cases (l - p) alpha) as [H1|H1]; [apply Pa, H; lia|].
    destruct (Nat.le_gt_cases beta l) as [H2|H2]; [apply Pb, H; lia|].
    (* the last coefficient that is not null before the window *)
    destruct (least_dec (fun i => P' (l - p - 1 - i)%nat <> 0)) with (i := (l - p - 1 - alpha)%nat) as (g & Hg0 & Hg & Hgmin).
    { intros i. destruct (Req_EM_T (P' (l - p - 1 - i)%nat) 0) as [e|e]; [right; auto|left; exact e]. }
    { replace (l - p - 1 - (l - p - 1 - alpha))%nat with alpha by lia. exact Pa. }
    set (gam := (l - p - 1 - g)%nat) in *.
    assert (PnP : forall i, (i <= beta)%nat -> P' i = Pn i) by (intros i Hi; unfold P'; destruct (Nat.leb_spec i beta); [reflexivity|lia]).
    apply (Qmin gam ltac:(unfold gam; lia)). split; [rewrite <- PnP by (unfold gam; lia); exact Hg|].
    intros j Hj. destruct (Nat.le_gt_cases (l - p) j) as [H3|H3]; [rewrite <- PnP by (unfold gam in *; lia); apply H; unfold gam in *; lia|].
    rewrite <- PnP by lia. destruct (Req_EM_T (P' j) 0) as [e|e]; [exact e|exfalso]. apply (Hgmin (l - p - 1 - j)%nat ltac:(unfold gam in *; lia)).
    replace (l - p - 1 - (l - p - 1 - j))%nat with j by lia. exact e.
  - intros i Hi. rewrite <- (HZ i ltac:(lia)). pose proof (HuA i ltac:(lia)) as Hui. unfold G.
    destruct (Rlt_dec (u i) (kn k p)); [lra|]. destruct (Rlt_dec (kn k n) (u i)); [lra|].
    destruct (span_at_ex 0 n p (u i) k Hk Hui) as (l & Hl & Sx & _). rewrite !(CV_at k n p 0 _ (u i) l Hk Hl Sx).
    unfold PS. apply sumn_ext. intros j Hj. destruct (Nat.le_gt_cases (l - p) j) as [H1|H1].
    + f_equal. apply PP; [|lia]. destruct (Nat.le_gt_cases n (beta + p + 1)) as [H2|H2]; [lia|].
      destruct (Nat.le_gt_cases l (beta + p)) as [H3|H3]; [lia|exfalso].
      pose proof (Hhigh i Hi ltac:(lia)) as H4. rewrite Nat.min_l in H4 by lia.
      destruct Sx as [Sx|(Sx & _)].
      * pose proof (Hnd (beta + p + 1)%nat l ltac:(lia) ltac:(lia)). lra.
      * pose proof (Hnd (beta + p + 1)%nat n ltac:(lia) ltac:(lia)). lra.
    + rewrite NH_out; [ring|]. right. rewrite app_length, !repeat_length. lia.
  - intros i Hi. apply Hinc. lia.
  - intros i Hi. split.
    + destruct (Nat.eq_dec i 0) as [->|H]; [|left; apply Hlow; lia]. replace (Nat.max alpha p) with p by lia. rewrite U0. lra.
    + destruct (Nat.eq_dec i (n - 1)) as [->|H]; [|left; apply Hhigh; lia]. replace (Nat.min (beta + p + 1) n) with n by lia. rewrite U1. lra.
  - intros H. apply Hlow; lia.
  - intros H. apply Hhigh; lia.
Qed.
End SW.
