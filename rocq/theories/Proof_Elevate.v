(** Bernstein polynomials: a piece between knots of full multiplicity, elevation. *)
From Coq Require Import List Arith ZArith Reals Lia Lra Bool Permutation.
From Verif Require Import Model_Base Model_Rational Model_Elevate Spec_Base Spec_Basis Spec_Eval Spec_Rational Spec_Elevate
  Proof_Base Proof_Blossom Proof_Basis Proof_Ders Proof_Eval Proof_Refine Proof_Unique Proof_Rational Proof_Continuity.
Import ListNotations.
Local Open Scope R_scope.

(** Multi-affine expansion *)
Lemma binom_0 n : binom n 0 = 1%nat.
Proof. destruct n; reflexivity. Qed.
Lemma binom_big n : forall k, (n < k)%nat -> binom n k = 0%nat.
Proof. induction n as [|n IH]; intros [|k] H; cbn; try lia. rewrite !IH by lia. reflexivity. Qed.
Lemma binom_pos n : forall k, (k <= n)%nat -> (0 < binom n k)%nat.
Proof. induction n as [|n IH]; intros [|k] H; cbn; try lia. specialize (IH k). lia. Qed.

Lemma symml_expand f a b s w : forall m p rest, symml p f -> (m + length rest = p)%nat ->
  f (repeat (lc s a w b) m ++ rest) =
  sumn (m + 1) (fun j => INR (binom m j) * s ^ (m - j) * w ^ j * f (repeat a (m - j) ++ repeat b j ++ rest)).
Proof.
  induction m as [|m IH]; intros p rest Hf HL.
  - cbn. ring.
  - pose proof Hf as (Sym & Lin). cbn [repeat app]. rewrite Lin by (rewrite app_length, repeat_length; lia).
    assert (E : forall z, f (z :: repeat (lc s a w b) m ++ rest) = f (repeat (lc s a w b) m ++ z :: rest)).
    { intros z. apply Sym; [simpl; rewrite app_length, repeat_length; lia|]. apply Permutation_middle. }
    rewrite !E, !(IH p) by (auto; cbn [length]; lia).
    replace (S m + 1)%nat with (S (m + 1)) by lia.
    rewrite sumn_shift. cbn [sumn].
    (* first term j = 0 and the shifted ones *)
    assert (E1 : forall j, (j <= m)%nat -> f (repeat a (m - j) ++ repeat b j ++ a :: rest) = f (repeat a (S m - j) ++ repeat b j ++ rest)).
    { intros j Hj. apply Sym. { rewrite !app_length, !repeat_length. cbn [length]. lia. }
      replace (S m - j)%nat with (S (m - j)) by lia. cbn [repeat app].
      rewrite !app_assoc. symmetry. apply Permutation_middle. }
    assert (E2 : forall j, (j <= m)%nat -> f (repeat a (m - j) ++ repeat b j ++ b :: rest) = f (repeat a (m - j) ++ repeat b (S j) ++ rest)).
    { intros j Hj. apply Sym. { rewrite !app_length, !repeat_length. cbn [length]. lia. }
      cbn [repeat app]. apply Permutation_app_head. symmetry. apply Permutation_middle. }
    rewrite (sumn_ext (m + 1) _ (fun j => INR (binom m j) * s ^ (m - j) * w ^ j * f (repeat a (S m - j) ++ repeat b j ++ rest))).
    2:{ intros j Hj. rewrite E1 by lia. reflexivity. }
    rewrite (sumn_ext (m + 1) (fun j => _ * f (repeat a (m - j) ++ repeat b j ++ b :: rest))
      (fun j => INR (binom m j) * s ^ (m - j) * w ^ j * f (repeat a (m - j) ++ repeat b (S j) ++ rest))).
    2:{ intros j Hj. rewrite E2 by lia. reflexivity. }
    rewrite (sumn_ext (m + 1) (fun j => INR (binom (S m) (S j)) * _ * _ * _)
      (fun j => w * (INR (binom m j) * s ^ (m - j) * w ^ j * f (repeat a (m - j) ++ repeat b (S j) ++ rest))
         + s * (INR (binom m (S j)) * s ^ (m - S j) * w ^ (S j) * f (repeat a (S m - S j) ++ repeat b (S j) ++ rest)))).
    2:{ intros j Hj. cbn [binom]. rewrite plus_INR. change (S m - S j)%nat with (m - j)%nat.
        set (X := f _). cbn [pow].
        destruct (Nat.eq_dec j m) as [->|N].
        - rewrite (binom_big m (S m)) by lia. change (INR 0) with 0. ring.
        - assert (Ep : s ^ (m - j) = s * s ^ (m - S j)) by (replace (m - j)%nat with (S (m - S j)) by lia; reflexivity).
          rewrite Ep. ring. }
    rewrite sumn_plus, !sumn_scal. rewrite binom_0.
    replace (m + 1)%nat with (S m) by lia.
    rewrite (sumn_shift m (fun j => INR (binom m j) * s ^ (m - j) * w ^ j * f (repeat a (S m - j) ++ repeat b j ++ rest))).
    cbn [sumn]. rewrite (binom_big m (S m)) by lia. rewrite binom_0. rewrite !Nat.sub_0_r. simpl INR. cbn [pow repeat app]. ring.
Qed.

Lemma kargs_consts (k : nat -> R) i q a : (forall j, (i < j <= i + q)%nat -> k j = a) -> kargs k i q = repeat (a, 1) q.
Proof.
  revert i; induction q as [|q IH]; intros i H; [reflexivity|]. rewrite kargs_S. cbn [repeat]. rewrite H by lia. f_equal.
  apply IH. intros j Hj. apply H. lia.
Qed.

Lemma kargs_split (k : nat -> R) i q r : kargs k i (q + r) = kargs k i q ++ kargs k (i + q) r.
Proof. unfold kargs. rewrite seq_app, map_app. reflexivity. Qed.

(** A piece between knots of multiplicity at least p is a Bezier polynomial. *)
Lemma bezier_piece k n p l P u a b : knots_ok k n p -> (p <= l < n)%nat -> a < b ->
  (forall i, (l - p < i <= l)%nat -> kn k i = a) -> (forall i, (l < i <= l + p)%nat -> kn k i = b) -> kn k l < kn k (S l) ->
  PS k p l 0 P u = bernstein p (fun j => P (l - p + j)%nat) ((u - a) / (b - a)).
Proof.
  intros Hk Hl Hab Ka Kb Hs. set (t := (u - a) / (b - a)).
  pose proof (blo_symml k n p l P Hk Hl Hs) as Hf.
  rewrite PS_blo. cbn [repeat app ffall]. rewrite Nat.sub_0_r, Rmult_1_l.
  replace (u, 1) with (lc (1 - t) (a, 1) t (b, 1)).
  2:{ unfold lc, t. cbn [fst snd]. f_equal; field; lra. }
  rewrite <- (app_nil_r (repeat _ p)). rewrite (symml_expand _ _ _ _ _ p p []) by (auto; simpl; lia).
  unfold bernstein. apply sumn_ext. intros j Hj. f_equal. rewrite app_nil_r.
  rewrite <- (blo_dual k n p l P (l - p + j) Hk Hl Hs) by lia. f_equal.
  replace p with ((p - j) + j)%nat at 3 by lia. rewrite kargs_split. f_equal; symmetry; apply kargs_consts.
  - intros i Hi. apply Ka. lia.
  - intros i Hi. apply Kb. lia.
Qed.

(** ** Elevation *)
Definition elevated (p t : nat) (B : nat -> R) (i : nat) : R :=
  sumn (p + 1) (fun j => if ((i - t <=? j) && (j <=? i))%nat
    then INR (binom p j) * INR (binom t (i - j)) / INR (binom (p + t) i) * B j else 0).

Lemma newton y x n : (y + x) ^ n = sumn (n + 1) (fun j => INR (binom n j) * y ^ (n - j) * x ^ j).
Proof.
  pose proof (symml_expand (fun l => fold_right Rmult 1 (map fst l)) (1, 0) (1, 0) y x n n []) as H.
  rewrite app_nil_r in H. 
  assert (E : forall m (v : R * R), fold_right Rmult 1 (map fst (repeat v m)) = fst v ^ m).
  { clear. induction m as [|m IH]; intros v; [reflexivity|]. cbn. rewrite IH. reflexivity. }
  rewrite E in H. unfold lc in H. cbn [fst] in H. replace (y + x) with (y * 1 + x * 1) by ring. rewrite H.
  - apply sumn_ext. intros j Hj. rewrite app_nil_r, map_app, fold_right_app, !E. cbn [fst]. rewrite pow1.
    assert (E1 : forall m v, fold_right Rmult v (map fst (repeat (1, 0) m : list (R * R))) = v).
    { clear. induction m as [|m IH]; intros v; [reflexivity|]. cbn. rewrite IH. ring. }
    rewrite E1. ring.
  - split.
    + intros a b _ Hp. induction Hp; cbn; try ring; congruence.
    + intros c d v w r _. unfold lc. cbn. ring.
  - simpl. lia.
Qed.

Lemma elevate_same p t B x : bernstein (p + t) (elevated p t B) x = bernstein p B x.
Proof.
  unfold bernstein, elevated.
  transitivity (sumn (p + t + 1) (fun i => sumn (p + 1) (fun j => if ((i - t <=? j) && (j <=? i))%nat then
     INR (binom p j) * INR (binom t (i - j)) * (1 - x) ^ (p + t - i) * x ^ i * B j else 0))).
  { apply sumn_ext. intros i Hi. rewrite <- sumn_scal. apply sumn_ext. intros j Hj.
    destruct (_ && _)%bool; [|ring]. pose proof (binom_pos (p + t) i ltac:(lia)) as H. apply lt_INR in H. simpl in H. field. lra. }
  rewrite sumn_swap. apply sumn_ext. intros j Hj.
  rewrite (sumn_window (p + t + 1) j (t + 1)); [|lia|].
  2:{ intros i Hi Hout. destruct (Nat.leb_spec (i - t) j); destruct (Nat.leb_spec j i); cbn [andb]; try reflexivity; lia. }
  transitivity (INR (binom p j) * (1 - x) ^ (p - j) * x ^ j * B j * ((1 - x) + x) ^ t).
  2:{ replace (1 - x + x) with 1 by ring. rewrite pow1. ring. }
  rewrite newton, <- sumn_scal. apply sumn_ext. intros r Hr.
  destruct (Nat.leb_spec (j + r - t) j); [|lia]. destruct (Nat.leb_spec j (j + r)); [|lia]. cbn [andb].
  replace (j + r - j)%nat with r by lia. replace (p + t - (j + r))%nat with ((p - j) + (t - r))%nat by lia.
  rewrite !pow_add. ring.
Qed.

Lemma elevated_first p t B : elevated p t B 0 = B 0%nat.
Proof.
  unfold elevated. rewrite (sumn_single (p + 1) _ 0); [|lia|].
  - cbn [Nat.leb Nat.sub andb]. rewrite !binom_0. simpl INR. field.
  - intros j Hj Nj. destruct (Nat.leb_spec j 0); [lia|]. rewrite andb_false_r. reflexivity.
Qed.
Lemma binom_n n : binom n n = 1%nat.
Proof. induction n as [|n IH]; [reflexivity|]. cbn. rewrite IH, binom_big by lia. reflexivity. Qed.
Lemma elevated_last p t B : elevated p t B (p + t) = B p.
Proof.
  unfold elevated. rewrite (sumn_single (p + 1) _ p); [|lia|].
  - destruct (Nat.leb_spec (p + t - t) p); [|lia]. destruct (Nat.leb_spec p (p + t)); [|lia]. cbn [andb].
    replace (p + t - p)%nat with t by lia. rewrite !binom_n. simpl INR. field.
  - intros j Hj Nj. destruct (Nat.leb_spec (p + t - t) j); [lia|]. reflexivity.
Qed.

Section AtR.
Variable eps : R.
Local Hint Extern 0 (Num R) => exact (NumR eps) : typeclass_instances.

Lemma increase_bezier_ok (P : list (pt R)) p t : (p + t <= 12)%nat -> length P = (p + 1)%nat ->
  exists Q, increase_bezier_degree P p t = Ok Q /\ length Q = (p + t + 1)%nat /\
    forall c i, (i < p + t + 1)%nat -> pole Q c i = elevated p t (pole P c) i.
Proof.
  intros H12 HL. unfold increase_bezier_degree.
  set (I := fun i (Q : list (pt R)) => length Q = (p + t + 1)%nat /\ forall c a, (a < i)%nat -> pole Q c a = elevated p t (pole P c) a).
  match goal with |- exists Q, for_ 0 ?n ?b ?s = _ /\ _ => destruct (for_inv I b 0 n s) as (Q & EQ & LQ & HQ) end.
  { split; [rewrite filled_length; lia|intros; lia]. }
  { intros i Q Hi (LQ & HQ). cbn beta.
      assert (IA : exists a, for_ (i - t) (min p i + 1 - (i - t)) (fun j a =>
        let* b1 := binomial_law mul_int p j in
        let* b2 := binomial_law mul_int t (i - j) in
        let* b3 := binomial_law mul_int (p + t) i in
        let* C := divc (nmul b1 b2) b3 in
        let* q := get P j in
        Ok (padd a (pscal C q))) pzero = Ok a /\ forall c, a c = elevated p t (pole P c) i).
      { set (F := fun c j => INR (binom p j) * INR (binom t (i - j)) / INR (binom (p + t) i) * pole P c j).
        destruct (for_inv (fun j (a : pt R) => forall c, a c = sumn (j - (i - t)) (fun r => F c (i - t + r)%nat))
          (fun j a =>
            let* b1 := binomial_law mul_int p j in
            let* b2 := binomial_law mul_int t (i - j) in
            let* b3 := binomial_law mul_int (p + t) i in
            let* C := divc (nmul b1 b2) b3 in
            let* q := get P j in
            Ok (padd a (pscal C q))) (i - t) (min p i + 1 - (i - t)) pzero) as (a & Ea & Ha).
        - intros c. rewrite Nat.sub_diag. reflexivity.
        - intros j a Hj Ha. rewrite !(binomial_int eps) by lia. cbn [bind].
          pose proof (binom_pos (p + t) i ltac:(lia)) as Hb. apply lt_INR in Hb. simpl in Hb.
          rewrite (divc_ok eps) by lra. cbn [bind]. rewrite get_pole by lia. cbn [bind].
          eexists. split; [reflexivity|]. intros c. unfold padd, pscal. nsimp. rewrite Ha.
          replace (S j - (i - t))%nat with (S (j - (i - t))) by lia. cbn [sumn]. f_equal.
          unfold F, pole. replace (i - t + (j - (i - t)))%nat with j by lia. reflexivity.
        - exists a. split; [exact Ea|]. intros c. rewrite Ha. unfold elevated.
          rewrite (sumn_window (p + 1) (i - t) (min p i + 1 - (i - t))); [|lia|].
          + replace (i - t + (min p i + 1 - (i - t)) - (i - t))%nat with (min p i + 1 - (i - t))%nat by lia.
            apply sumn_ext. intros r Hr. destruct (Nat.leb_spec (i - t) (i - t + r)); [|lia].
            destruct (Nat.leb_spec (i - t + r) i); [|lia]. reflexivity.
          + intros j Hj Hout. destruct (Nat.leb_spec (i - t) j); destruct (Nat.leb_spec j i); cbn [andb]; try reflexivity; lia. }
      destruct IA as (a & -> & Ha). cbn [bind]. rewrite set_ok by (rewrite LQ; lia). eexists. split; [reflexivity|].
      split; [rewrite upd_length; exact LQ|]. intros c b Hb. unfold pole at 1. rewrite nth_upd.
      destruct (Nat.eqb_spec i b) as [->|N]; cbn [andb]; [|apply HQ; lia].
      destruct (Nat.ltb_spec b (length Q)); [apply Ha|lia]. }
  exists Q. split; [exact EQ|]. split; [exact LQ|]. intros c i Hi. apply HQ. lia.
Qed.
End AtR.
