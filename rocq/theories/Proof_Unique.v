(** A piece of a curve determines its blossom, hence its poles. *)
From Coq Require Import List Arith ZArith Reals Lia Lra Permutation.
From Verif Require Import Model_Base Spec_Base Spec_Basis Spec_Eval Model_Basis Model_Knots
  Proof_Base Proof_Blossom Proof_Basis Proof_Ders Proof_Eval Proof_PropBasis Proof_Refine Proof_Insert
  Proof_Boehm Proof_PropInsert Proof_Continuity Proof_Trim.
Import ListNotations.
Local Open Scope R_scope.

Lemma ffall_pos p d : (d <= p)%nat -> 0 < ffall p d.
Proof.
  revert p; induction d as [|d IH]; intros p Hd; cbn [ffall]; [lra|].
  apply Rmult_lt_0_compat; [apply IH; lia|]. apply (lt_INR 0). lia.
Qed.

Lemma PS_blo k p l d P u : PS k p l d P u = ffall p d * blo (kn k) l P (repeat (1, 0) d ++ repeat (u, 1) (p - d)).
Proof. unfold PS, blo. rewrite <- sumn_scal. apply sumn_ext. intros; ring. Qed.

(** Agreement of all derivatives at one point is agreement of the forms. *)
Lemma symml_taylor p f g x :
  symml p f -> symml p g ->
  (forall d, (d <= p)%nat -> f (repeat (1, 0) d ++ repeat (x, 1) (p - d)) = g (repeat (1, 0) d ++ repeat (x, 1) (p - d))) ->
  forall args, length args = p -> f args = g args.
Proof.
  intros Hf Hg H.
  assert (G : forall m d args, length args = m -> (d + m <= p)%nat ->
    f (args ++ repeat (1, 0) d ++ repeat (x, 1) (p - m - d)) = g (args ++ repeat (1, 0) d ++ repeat (x, 1) (p - m - d))).
  { induction m as [|m IH]; intros d args HL Hd.
    - destruct args; [|discriminate]. rewrite Nat.sub_0_r. apply H. lia.
    - destruct args as [|(a, w) args]; [discriminate|]. injection HL as HL.
      assert (E : (a, w) = lc (a - x * w) (1, 0) w (x, 1)).
      { unfold lc; cbn [fst snd]. f_equal; ring. }
      rewrite E. cbn [app].
      assert (LL : S (length (args ++ repeat (1, 0) d ++ repeat (x, 1) (p - S m - d))) = p).
      { rewrite !app_length, !repeat_length. lia. }
      destruct Hf as (F1 & F2). destruct Hg as (G1 & G2).
      rewrite F2, G2 by exact LL. f_equal; f_equal.
      + rewrite (F1 _ (args ++ repeat (1, 0) (S d) ++ repeat (x, 1) (p - m - S d))).
        * rewrite (G1 _ (args ++ repeat (1, 0) (S d) ++ repeat (x, 1) (p - m - S d))).
          -- apply IH; lia.
          -- simpl. exact LL.
          -- cbn [repeat app]. replace (p - m - S d)%nat with (p - S m - d)%nat by lia. apply Permutation_middle.
        * simpl. exact LL.
        * cbn [repeat app]. replace (p - m - S d)%nat with (p - S m - d)%nat by lia. apply Permutation_middle.
      + assert (EQ : Permutation ((x, 1) :: args ++ repeat (1, 0) d ++ repeat (x, 1) (p - S m - d))
                (args ++ repeat (1, 0) d ++ repeat (x, 1) (p - m - d))).
        { replace (p - m - d)%nat with (S (p - S m - d)) by lia. cbn [repeat].
          rewrite !app_assoc. apply Permutation_middle. }
        change (length ((x, 1) :: args ++ repeat (1, 0) d ++ repeat (x, 1) (p - S m - d)) = p) in LL.
        rewrite (F1 _ _ LL EQ), (G1 _ _ LL EQ). apply IH; lia. }
  intros args HL. specialize (G p 0%nat args HL ltac:(lia)).
  rewrite Nat.sub_diag in G. cbn [repeat app Nat.sub] in G. rewrite app_nil_r in G. exact G.
Qed.

Lemma deriv_unique_on f g a b x lf lg : a < x < b -> (forall y, a < y < b -> f y = g y) ->
  derivable_pt_lim f x lf -> derivable_pt_lim g x lg -> lf = lg.
Proof.
  intros Hx E Hf Hg. apply (uniqueness_limite f x); auto.
  intros e He. destruct (Hg e He) as (dl & Hd).
  assert (Hm : 0 < Rmin dl (Rmin (x - a) (b - x))).
  { apply Rmin_pos; [apply cond_pos|apply Rmin_pos; lra]. }
  exists (mkposreal _ Hm). intros h Hh Hhd. simpl in Hhd.
  pose proof (Rmin_l dl (Rmin (x - a) (b - x))). pose proof (Rmin_r dl (Rmin (x - a) (b - x))).
  pose proof (Rmin_l (x - a) (b - x)). pose proof (Rmin_r (x - a) (b - x)).
  assert (Rabs h < x - a) by lra. assert (Rabs h < b - x) by lra.
  pose proof (Rabs_def2 h (x - a) ltac:(lra)). pose proof (Rabs_def2 h (b - x) ltac:(lra)).
  rewrite !E by lra. apply Hd; [auto|lra].
Qed.

Lemma PS_all_ders k n k' n' p l l' P P' a b :
  knots_ok k n p -> knots_ok k' n' p -> (p <= l < n)%nat -> (p <= l' < n')%nat ->
  kn k l < kn k (S l) -> kn k' l' < kn k' (S l') -> 
  (forall x, a < x < b -> PS k p l 0 P x = PS k' p l' 0 P' x) ->
  forall d x, (d <= p)%nat -> a < x < b -> PS k p l d P x = PS k' p l' d P' x.
Proof.
  intros Hk Hk' Hl Hl' Hs Hs' E. induction d as [|d IH]; intros x Hd Hx; [auto|].
  pose proof Hk as (L & _ & N & _). pose proof Hk' as (L' & _ & N' & _).
  apply (deriv_unique_on (PS k p l d P) (PS k' p l' d P') a b x); auto.
  - intros y Hy. apply IH; auto; lia.
  - apply PS_deriv; auto; lia.
  - apply PS_deriv; auto; lia.
Qed.

Lemma blo_unique k n k' n' p l l' P P' a b :
  knots_ok k n p -> knots_ok k' n' p -> (p <= l < n)%nat -> (p <= l' < n')%nat ->
  kn k l < kn k (S l) -> kn k' l' < kn k' (S l') -> a < b ->
  (forall x, a < x < b -> PS k p l 0 P x = PS k' p l' 0 P' x) ->
  forall args, length args = p -> blo (kn k) l P args = blo (kn k') l' P' args.
Proof.
  intros Hk Hk' Hl Hl' Hs Hs' Hab E.
  apply (symml_taylor p _ _ ((a + b) / 2)).
  - apply (blo_symml k n); auto.
  - apply (blo_symml k' n'); auto.
  - intros d Hd. pose proof (PS_all_ders k n k' n' p l l' P P' a b Hk Hk' Hl Hl' Hs Hs' E d ((a + b) / 2) Hd ltac:(lra)) as H.
    rewrite !PS_blo in H. pose proof (ffall_pos p d Hd). apply Rmult_eq_reg_l in H; [auto|lra].
Qed.

Lemma kargs_length k i q : length (kargs k i q) = q.
Proof. unfold kargs. rewrite map_length, seq_length. reflexivity. Qed.

(** Same curve on the domain: same poles wherever the basis function is not null there. *)
Lemma poles_unique k n p P Q : knots_ok k n p ->
  (forall x, kn k p <= x <= kn k n -> CV k n p 0 P x = CV k n p 0 Q x) ->
  forall l i, (p <= l < n)%nat -> kn k l < kn k (S l) -> (l - p <= i <= l)%nat -> P i = Q i.
Proof.
  intros Hk E l i Hl Hs Hi.
  rewrite <- (blo_dual k n p l P i), <- (blo_dual k n p l Q i); auto; try lia.
  pose proof (knots_mono k n p Hk) as mono.
  assert (kn k p <= kn k l) by (apply mono; lia). assert (kn k (S l) <= kn k n) by (apply mono; lia).
  apply (blo_unique k n k n p l l P Q (kn k l) (kn k (S l))); auto; [|apply kargs_length].
  intros x Hx. rewrite <- !(CV_at k n p) by (auto; left; lra). apply E. lra.
Qed.
