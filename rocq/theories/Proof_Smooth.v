(** Smoothness at the knots; the poles from the values. *)
From Coq Require Import List Arith ZArith Reals Lia Lra Permutation Bool.
From Verif Require Import Model_Base Spec_Base Spec_Basis Spec_Eval Spec_Curve Model_Basis Model_Knots Model_Removal Model_Curve
  Proof_Base Proof_Blossom Proof_Basis Proof_Ders Proof_Eval Proof_PropBasis Proof_Refine Proof_Insert
  Proof_Boehm Proof_PropInsert Proof_Continuity Proof_Trim Proof_Remove Proof_Remove2 Proof_Unique Proof_PropRemove Proof_PropRemove2 Proof_Curve.
Import ListNotations.
Local Open Scope R_scope.

Lemma glue_deriv (f g h : R -> R) u d v : 0 < d -> (forall x, u - d < x < u -> f x = g x) -> (forall x, u <= x < u + d -> f x = h x) ->
  g u = h u -> derivable_pt_lim g u v -> derivable_pt_lim h u v -> derivable_pt_lim f u v.
Proof.
  intros Hd Fg Fh E Dg Dh e He. destruct (Dg e He) as (d1 & D1). destruct (Dh e He) as (d2 & D2).
  assert (P : 0 < Rmin d (Rmin d1 d2)) by (repeat apply Rmin_pos; auto; apply cond_pos). exists (mkposreal _ P). intros y Hy Ay. cbn in Ay.
  pose proof (Rmin_l d (Rmin d1 d2)). pose proof (Rmin_r d (Rmin d1 d2)). pose proof (Rmin_l d1 d2). pose proof (Rmin_r d1 d2).
  rewrite (Fh u) by lra. destruct (Rlt_le_dec y 0) as [L|L].
  - rewrite Rabs_left in Ay by auto. rewrite Fg by lra. rewrite <- E. apply D1; auto. rewrite Rabs_left; lra.
  - rewrite Rabs_pos_eq in Ay by auto. rewrite Fh by lra. apply D2; auto. rewrite Rabs_pos_eq; lra.
Qed.
Lemma glue_cont (f g h : R -> R) u d v w : 0 < d -> (forall x, u - d < x < u -> f x = g x) -> (forall x, u <= x < u + d -> f x = h x) ->
  g u = h u -> derivable_pt_lim g u v -> derivable_pt_lim h u w -> continuity_pt f u.
Proof.
  intros Hd Fg Fh E Dg Dh. assert (Cg : continuity_pt g u) by (apply derivable_continuous_pt; exists v; exact Dg).
  assert (Ch : continuity_pt h u) by (apply derivable_continuous_pt; exists w; exact Dh).
  intros e He. destruct (Cg e He) as (d1 & P1 & D1). destruct (Ch e He) as (d2 & P2 & D2).
  exists (Rmin d (Rmin d1 d2)). split; [apply Rlt_gt; repeat apply Rmin_pos; auto|]. intros x ((_ & N) & Ax). cbn in Ax. unfold R_dist in Ax.
  pose proof (Rmin_l d (Rmin d1 d2)). pose proof (Rmin_r d (Rmin d1 d2)). pose proof (Rmin_l d1 d2). pose proof (Rmin_r d1 d2).
  rewrite (Fh u) by lra. destruct (Rlt_le_dec x u) as [L|L].
  - rewrite Rabs_left in Ax by lra. rewrite Fg by lra. rewrite <- E. apply D1. split; [split; [exact I|lra]|]. cbn. unfold R_dist. rewrite Rabs_left; lra.
  - rewrite Rabs_pos_eq in Ax by lra. rewrite Fh by lra. apply D2. split; [split; [exact I|lra]|]. cbn. unfold R_dist. rewrite Rabs_pos_eq; lra.
Qed.

Section AtR.
Variable eps : R.
Local Hint Extern 0 (Num R) => exact (NumR eps) : typeclass_instances.

Lemma smooth_at k n p poles u d c : knots_ok k n p -> length poles = n -> evaluable eps k n p -> kn k p < u < kn k n ->
  (d + count_occ Req_EM_T k u <= p)%nat ->
  continuity_pt (fun x => val (eval_value x k poles p d) c) u /\
  ((d + 1 + count_occ Req_EM_T k u <= p)%nat ->
     derivable_pt_lim (fun x => val (eval_value x k poles p d) c) u (val (eval_value u k poles p (d + 1)) c)).
Proof.
  intros Hk HP He Hu Hm. replace (d + 1)%nat with (S d) by lia. pose proof Hk as (Hlen & Hpn & Hnd & Hlast). destruct (Nat.eq_dec (count_occ Req_EM_T k u) 0) as [Z|NZ].
  - destruct (find_span_in eps n p u k Hlen Hpn ltac:(lra) ltac:(lra)) as (l & _ & Hl & Hkl).
    assert (N : kn k l <> u).
    { intros E. apply count_occ_not_In in Z. apply Z. rewrite <- E. unfold kn. apply nth_In. lia. }
    pose proof (eval_deriv_inside eps k n p poles d c l u Hk HP He Hl ltac:(lra)) as D. split; [|auto].
    apply derivable_continuous_pt. eexists. exact D.
  - destruct (rpos_ex eps k n p u Hk Hu ltac:(lia)) as (r & s & Es & _ & _ & Hrp & Hrn & Heq & Hlt & Hgt). rewrite <- Es in *.
    assert (Kr : kn k r = u) by (apply Heq; lia). assert (Kr' : kn k (S (r - s)) = u) by (apply Heq; lia).
    set (F := fun l d x => if (d <=? p)%nat then PS k p l d (pole poles c) x else 0).
    assert (DF : forall l d, (p <= l < n)%nat -> kn k l < kn k (S l) -> derivable_pt_lim (F l d) u (F l (S d) u)).
    { intros l d0 Hl Hs. apply PS_deriv_all; auto. lia. }
    assert (EF : forall d, (d + s <= p)%nat -> F (r - s)%nat d u = F r d u).
    { intros d0 Hd0. unfold F. destruct (Nat.leb_spec d0 p); auto. symmetry. apply (PS_continuous_d k n p (r - s) r); auto; try lia; try lra.
      }
    set (w := Rmin (u - kn k (r - s)) (kn k (S r) - u)). assert (W : 0 < w) by (apply Rmin_pos; lra).
    assert (Wl : w <= u - kn k (r - s)) by apply Rmin_l. assert (Wr : w <= kn k (S r) - u) by apply Rmin_r.
    assert (FL : forall d x, u - w < x < u -> val (eval_value x k poles p d) c = F (r - s)%nat d x).
    { intros d0 x Hx. apply (eval_val_span eps k n p); auto; [lia|]. left. rewrite Kr'. lra. }
    assert (FR : forall d x, u <= x < u + w -> val (eval_value x k poles p d) c = F r d x).
    { intros d0 x Hx. apply (eval_val_span eps k n p); auto; [lia|]. left. rewrite Kr. lra. }
    assert (D1 := fun d => DF (r - s)%nat d ltac:(lia) ltac:(lra)). assert (D2 := fun d => DF r d ltac:(lia) ltac:(lra)). split.
    + apply (glue_cont _ (F (r - s)%nat d) (F r d) u w (F (r - s)%nat (S d) u) (F r (S d) u)); auto.
    + intros Hm1. rewrite (FR (S d) u) by lra.
      apply (glue_deriv _ (F (r - s)%nat d) (F r d) u w); auto. rewrite <- EF by lia. apply D1.
Qed.
Lemma same_values_same_poles k n p (P Q : list (pt R)) : knots_ok k n p -> length P = n -> length Q = n -> evaluable eps k n p -> full_support k n p ->
  same_on eps p k P k Q (fun x => kn k p <= x <= kn k n) (fun d => d = 0%nat) -> forall i c, (i < n)%nat -> polec P c i = polec Q c i.
Proof.
  intros Hk HP HQ He Hf S. apply (full_poles_unique k n p); auto. intros x c Hx. destruct (S x 0%nat Hx eq_refl) as (q & q' & E & E' & Qq).
  destruct (CV_eval eps k n p P x 0 Hk HP He Hx ltac:(lia)) as (a & A1 & A2). destruct (CV_eval eps k n p Q x 0 Hk HQ He Hx ltac:(lia)) as (b & B1 & B2).
  rewrite E in A1. rewrite E' in B1. injection A1 as <-. injection B1 as <-. now rewrite <- A2, <- B2.
Qed.
End AtR.
(** Without that support the poles are not determined: the pole 2 of this curve has no effect. *)
Lemma poles_not_determined : exists eps k n p (P Q : list (pt R)), knots_ok k n p /\ length P = n /\ length Q = n /\ evaluable eps k n p /\
  same_on eps p k P k Q (fun x => kn k p <= x <= kn k n) (fun d => d = 0%nat) /\ exists i c, (i < n)%nat /\ polec P c i <> polec Q c i.
Proof.
  exists (1/1000), [0; 0; 1; 1; 1; 2; 2], 5%nat, 1%nat.
  exists [fun _ => 0; fun _ => 0; fun _ => 0; fun _ => 0; fun _ => 0], [fun _ => 0; fun _ => 0; fun _ => 1; fun _ => 0; fun _ => 0].
  assert (HK : knots_ok [0; 0; 1; 1; 1; 2; 2] 5 1) by knots_lit.
  assert (HE : evaluable (1/1000) [0; 0; 1; 1; 1; 2; 2] 5 1) by (left; lia).
  split; [exact HK|]. split; [reflexivity|]. split; [reflexivity|]. split; [exact HE|]. split; [|exists 2%nat, 0%nat; split; [lia|unfold polec; cbn; lra]].
  apply (CV_same_on _ _ _ 5 _ _ 5); auto. intros x d c Hx -> _.
  destruct (span_at_ex (1/1000) 5 1 x _ HK Hx) as (l & Hl & Sx & Hs). rewrite !(CV_at _ _ _ _ _ _ l HK Hl Sx).
  assert (L : (l = 1 \/ l = 4)%nat) by (assert (l = 1 \/ l = 2 \/ l = 3 \/ l = 4)%nat as [-> |[-> |[-> | ->]]] by lia; auto; unfold kn in Hs; cbn in Hs; lra).
  unfold PS. apply sumn_ext. intros i Hi. destruct L as [-> | ->].
  - destruct i as [|[|i]]; [reflexivity|reflexivity|lia].
  - destruct (Nat.eq_dec i 2) as [-> |N]; [rewrite NH_out by (cbn; lia); ring|]. f_equal. destruct i as [|[|[|[|[|i]]]]]; try lia; reflexivity.
Qed.
Lemma smooth_case : let k := [0;0;0;0;1;1;2;2;2;2] in
  knots_ok k 6 3 /\ evaluable (1/1000) k 6 3 /\ kn k 3 < 1 < kn k 6 /\ (0 + 1 + count_occ Req_EM_T k 1%R <= 3)%nat.
Proof.
  intros k. split; [unfold k; knots_lit|]. split; [left; lia|]. split; [unfold kn, k; cbn; lra|]. unfold k. cbn [count_occ].
  repeat (destruct (Req_EM_T _ _); try lra); lia.
Qed.
Lemma support_case : knots_ok [0;0;0;1;1;2;2;2] 5 2 /\ full_support [0;0;0;1;1;2;2;2] 5 2.
Proof. split; [knots_lit|]. split; [unfold kn; cbn; lra|]. intros i Hi. destruct i as [|[|[|[|[|i]]]]]; try lia; unfold kn; cbn; lra. Qed.
