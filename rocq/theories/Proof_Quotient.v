(** Values and derivatives of weighted curves. *)
From Coq Require Import List Arith ZArith QArith Reals Lia Lra Bool.
From Verif Require Import Model_Base Model_Basis Model_Rational Spec_Base Spec_Basis Spec_Eval
  Spec_Rational Proof_Base Proof_Blossom Proof_Basis Proof_Ders Proof_Eval Proof_PropBasis Proof_Rational.
Import ListNotations.
Local Open Scope R_scope.

(** ** The quotient rule as a recursion on the homogeneous derivatives [A] and [W]. *)
Fixpoint rqf (f : nat) (A W : nat -> R) (d : nat) : R :=
  match f with
  | O => 0
  | S f => (A d - sumn d (fun i => INR (binom d (S i)) * W (S i) * rqf f A W (d - 1 - i))) / W 0%nat
  end.
Definition rq (A W : nat -> R) (d : nat) : R := rqf (S d) A W d.

Lemma rqf_indep A W : forall d f, (d < f)%nat -> rqf f A W d = rq A W d.
Proof.
  induction d as [d IH] using lt_wf_ind. intros [|f] Hf; [lia|]. unfold rq. cbn [rqf]. f_equal. f_equal.
  apply sumn_ext. intros i Hi. f_equal. rewrite !IH by lia. reflexivity.
Qed.
Lemma rq_eq A W d : rq A W d =
  (A d - sumn d (fun i => INR (binom d (S i)) * W (S i) * rq A W (d - 1 - i))) / W 0%nat.
Proof.
  unfold rq at 1. cbn [rqf]. f_equal. f_equal. apply sumn_ext. intros i Hi. f_equal. apply rqf_indep. lia.
Qed.
Lemma rq_ext A A' W W' d : (forall i, (i <= d)%nat -> A i = A' i) -> (forall i, (i <= d)%nat -> W i = W' i) ->
  rq A W d = rq A' W' d.
Proof.
  revert A A'. induction d as [d IH] using lt_wf_ind. intros A A' HA HW. rewrite !rq_eq.
  rewrite HA, (HW 0%nat) by lia. f_equal. f_equal. apply sumn_ext. intros i Hi.
  rewrite HW by lia. f_equal. apply IH; [lia| |]; intros; [apply HA|apply HW]; lia.
Qed.
(** A constant denominator. *)
Lemma rq_const A W d : (forall i, (1 <= i <= d)%nat -> W i = 0) -> rq A W d = A d / W 0%nat.
Proof.
  intros H. rewrite rq_eq. rewrite sumn_zero; [f_equal; ring|]. intros i Hi. rewrite H by lia. ring.
Qed.

(** ** Derivatives within a domain (Rderiv) *)
Lemma D_in_ext f g f' g' (D : R -> Prop) x : (forall y, D y -> f y = g y) -> f x = g x -> f' x = g' x ->
  D_in f f' D x -> D_in g g' D x.
Proof.
  unfold D_in, limit1_in, limit_in. intros H H0 H1 L e He. destruct (L e He) as (a & Ha & L').
  exists a. split; [exact Ha|]. intros y Hy. rewrite <- H1, <- H0.
  rewrite <- (H y) by (destruct Hy as ((? & ?) & ?); assumption). apply L'. exact Hy.
Qed.

Lemma D_in_sumn n (f f' : nat -> R -> R) D x : (forall i, (i < n)%nat -> D_in (f i) (f' i) D x) ->
  D_in (fun y => sumn n (fun i => f i y)) (fun y => sumn n (fun i => f' i y)) D x.
Proof.
  induction n as [|n IH]; intros H; cbn [sumn].
  - apply Dconst.
  - apply Dadd; [apply IH; intros; apply H; lia|apply H; lia].
Qed.

Lemma D_in_div G G' W W' r (D : R -> Prop) x : D_in G G' D x -> D_in W W' D x -> W x <> 0 -> (forall y, D y -> W y <> 0) ->
  (forall y, D y -> r y = G y / W y) -> r x = G x / W x ->
  D_in r (fun y => (G' y - r y * W' y) / W y) D x.
Proof.
  intros HG HW Hx HD Hr Hrx.
  pose proof (cont_deriv _ _ _ _ HW) as C. unfold continue_in in C.
  assert (I : limit1_in (fun y => / W y) (D_x D x) (/ W x) x) by (apply limit_inv; auto).
  unfold D_in in *.
  assert (K : limit1_in (fun y => r x * ((W y - W x) / (y - x))) (D_x D x) (r x * W' x) x).
  { apply limit_mul; [|exact HW]. intros e He. exists 1. split; [lra|]. intros y _. unfold R_met, dist, R_dist; cbn. rewrite Rminus_diag_eq, Rabs_R0; auto. }
  pose proof (limit_mul _ _ _ _ _ _ (limit_minus _ _ _ _ _ _ HG K) I) as M.
  unfold limit1_in, limit_in in M |- *. intros e He. destruct (M e He) as (a & Ha & M').
  exists a. split; [exact Ha|]. intros y Hy. specialize (M' y Hy).
  destruct Hy as ((Dy & Hxy) & _).
  replace ((r y - r x) / (y - x)) with (((G y - G x) / (y - x) - r x * ((W y - W x) / (y - x))) * / W y).
  - exact M'.
  - rewrite (Hr y Dy), Hrx. field. repeat split; auto; lra.
Qed.

Lemma D_in_right f f' x b : x < b -> D_in f f' (fun y => x < y <= b) x <-> right_deriv f x (f' x).
Proof.
  intros Hb. unfold D_in, limit1_in, limit_in, right_deriv. cbn. unfold R_dist. split; intros H e He.
  - destruct (H e He) as (a & Ha & H'). exists (Rmin a (b - x)). split; [apply Rmin_pos; lra|].
    intros h Hh. pose proof (Rmin_l a (b - x)). pose proof (Rmin_r a (b - x)).
    specialize (H' (x + h)). replace (x + h - x) with h in H' by ring. apply H'.
    split; [split; lra|]. rewrite Rabs_right; lra.
  - destruct (H e He) as (a & Ha & H'). exists a. split; [exact Ha|]. intros y (((Hy & _) & _) & Hd).
    rewrite Rabs_right in Hd by lra. specialize (H' (y - x) ltac:(lra)).
    replace (x + (y - x)) with y in H' by ring. exact H'.
Qed.
Lemma D_in_left f f' x b : b < x -> D_in f f' (fun y => b <= y < x) x <-> left_deriv f x (f' x).
Proof.
  intros Hb. unfold D_in, limit1_in, limit_in, left_deriv. cbn. unfold R_dist. split; intros H e He.
  - destruct (H e He) as (a & Ha & H'). exists (Rmin a (x - b)). split; [apply Rmin_pos; lra|].
    intros h Hh. pose proof (Rmin_l a (x - b)). pose proof (Rmin_r a (x - b)).
    specialize (H' (x - h)). replace (x - h - x) with (- h) in H' by ring. apply H'.
    split; [split; lra|]. rewrite Rabs_left; lra.
  - destruct (H e He) as (a & Ha & H'). exists a. split; [exact Ha|]. intros y (((_ & Hy) & _) & Hd).
    rewrite Rabs_left in Hd by lra. specialize (H' (x - y) ltac:(lra)).
    replace (x - (x - y)) with y in H' by ring. replace (- (x - y)) with (y - x) in H' by ring. exact H'.
Qed.
Lemma D_in_both f f' x a b : a < x < b -> D_in f f' (fun y => a < y < b) x <-> derivable_pt_lim f x (f' x).
Proof.
  intros Hb. unfold D_in, limit1_in, limit_in, derivable_pt_lim. cbn. unfold R_dist. split; intros H e He.
  - destruct (H e He) as (d & Hd & H').
    assert (P : 0 < Rmin d (Rmin (x - a) (b - x))) by (repeat apply Rmin_pos; lra).
    exists (mkposreal _ P). cbn. intros h Hh0 Hh.
    pose proof (Rmin_l d (Rmin (x - a) (b - x))). pose proof (Rmin_r d (Rmin (x - a) (b - x))).
    pose proof (Rmin_l (x - a) (b - x)). pose proof (Rmin_r (x - a) (b - x)).
    specialize (H' (x + h)). replace (x + h - x) with h in H' by ring. apply H'.
    apply Rabs_def2 in Hh. split; [split; [lra|intros E; apply Hh0; lra]|]. apply Rabs_def1; lra.
  - destruct (H e He) as (d & H'). exists d. split; [apply cond_pos|]. intros y ((_ & Hy) & Hd).
    specialize (H' (y - x) ltac:(intros E; apply Hy; lra) Hd).
    replace (x + (y - x)) with y in H' by ring. exact H'.
Qed.

(** The quotient rule differentiates. *)
Lemma rq_D_in (A W : nat -> R -> R) (D : R -> Prop) x :
  (forall d, D_in (A d) (A (S d)) D x) -> (forall d, D_in (W d) (W (S d)) D x) ->
  W 0%nat x <> 0 -> (forall y, D y -> W 0%nat y <> 0) ->
  forall d, D_in (fun y => rq (fun i => A i y) (fun i => W i y) d)
                 (fun y => rq (fun i => A i y) (fun i => W i y) (S d)) D x.
Proof.
  intros HA HW Hx HD. set (r := fun d y => rq (fun i => A i y) (fun i => W i y) d).
  change (forall d, D_in (r d) (r (S d)) D x).
  assert (E : forall d y, r d y = (A d y - sumn d (fun i => INR (binom d (S i)) * W (S i) y * r (d - 1 - i)%nat y)) / W 0%nat y)
    by (intros; apply rq_eq).
  induction d as [d IH] using lt_wf_ind.
  set (G := fun y => A d y - sumn d (fun i => INR (binom d (S i)) * W (S i) y * r (d - 1 - i)%nat y)).
  set (G' := fun y => A (S d) y - sumn d (fun i => INR (binom d (S i)) * (W (S (S i)) y * r (d - 1 - i)%nat y + W (S i) y * r (d - i)%nat y))).
  assert (DG : D_in G G' D x).
  { unfold G, G'. apply Dminus; [apply HA|].
    apply (D_in_sumn d (fun i y => INR (binom d (S i)) * W (S i) y * r (d - 1 - i)%nat y)
       (fun i y => INR (binom d (S i)) * (W (S (S i)) y * r (d - 1 - i)%nat y + W (S i) y * r (d - i)%nat y))).
    intros i Hi. pose proof (IH (d - 1 - i)%nat ltac:(lia)) as Hr.
    replace (S (d - 1 - i)) with (d - i)%nat in Hr by lia.
    pose proof (Dmult D _ _ _ _ x (HW (S i)) Hr) as M.
    pose proof (Dmult D _ _ _ _ x (Dconst D (INR (binom d (S i))) x) M) as M2.
    eapply D_in_ext; [| | |exact M2]; cbn beta; intros; ring. }
  pose proof (D_in_div G G' (W 0%nat) (W 1%nat) (r d) D x DG (HW 0%nat) Hx HD (fun y _ => E d y) (E d x)) as F.
  eapply D_in_ext; [| | |exact F]; auto. cbn beta. rewrite (E (S d) x). f_equal. unfold G'.
  assert (K : sumn (S d) (fun i => INR (binom (S d) (S i)) * W (S i) x * r (S d - 1 - i)%nat x) =
    sumn d (fun i => INR (binom d (S i)) * (W (S (S i)) x * r (d - 1 - i)%nat x + W (S i) x * r (d - i)%nat x)) + r d x * W 1%nat x).
  { transitivity (sumn (S d) (fun i => INR (binom d i) * W (S i) x * r (d - i)%nat x) +
                  sumn (S d) (fun i => INR (binom d (S i)) * W (S i) x * r (d - i)%nat x)).
    - rewrite <- sumn_plus. apply sumn_ext. intros i Hi. cbn [binom]. rewrite plus_INR.
      replace (S d - 1 - i)%nat with (d - i)%nat by lia. ring.
    - rewrite sumn_shift. rewrite binom_0, Nat.sub_0_r. cbn [sumn]. rewrite (binom_gt d (S d)) by lia.
      cbn [INR].
      rewrite (sumn_ext d (fun i => INR (binom d (S i)) * (W (S (S i)) x * r (d - 1 - i)%nat x + W (S i) x * r (d - i)%nat x))
        (fun i => INR (binom d (S i)) * W (S (S i)) x * r (d - S i)%nat x + INR (binom d (S i)) * W (S i) x * r (d - i)%nat x)).
      + rewrite sumn_plus. ring.
      + intros i Hi. replace (d - S i)%nat with (d - 1 - i)%nat by lia. ring. }
  rewrite K. ring.
Qed.

Section AtR.
Variable eps : R.
Local Hint Extern 0 (Num R) => exact (NumR eps) : typeclass_instances.

(** Subtracting the lower terms. *)
Lemma rat_loop (b w : nat -> R) (C : nat -> pt R) (body : nat -> pt R -> result (pt R)) dim d (s : pt R)
    (r : nat -> nat -> R) :
  (forall i s, (1 <= i <= d)%nat -> exists q, body i s = Ok (rat_sub s (b i) (w i) q) /\
     forall c, (c < dim)%nat -> q c = r (d - i)%nat c) ->
  exists s', for_ 1 d body s = Ok s' /\ forall c, (c < dim)%nat ->
    s' c = s c - sumn d (fun i => b (S i) * w (S i) * r (d - 1 - i)%nat c).
Proof.
  intros Hb.
  destruct (for_inv (fun m s' => forall c, (c < dim)%nat ->
     s' c = s c - sumn (m - 1) (fun i => b (S i) * w (S i) * r (d - 1 - i)%nat c)) body 1 d s) as (s' & E & V).
  - intros c Hc. cbn [Nat.sub sumn]. ring.
  - intros i st Hi Hst. destruct (Hb i st ltac:(lia)) as (q & E & V).
    eexists. split; [exact E|]. intros c Hc. unfold rat_sub. nsimp. rewrite (V c Hc), (Hst c Hc).
    destruct i as [|i]; [lia|]. replace (S (S i) - 1)%nat with (S i) by lia. cbn [sumn].
    replace (S i - 1)%nat with i by lia. replace (d - 1 - i)%nat with (d - S i)%nat by lia. ring.
  - exists s'. split; [exact E|]. intros c Hc. rewrite (V c Hc). replace (1 + d - 1)%nat with d by lia. reflexivity.
Qed.

Lemma rational_rec_spec dim (u : R) (k : list R) (P : list (pt R)) p (H : nat -> pt R) :
  (forall i, (i <= 20)%nat -> eval_value u k P p i = Ok (H i)) -> H 0%nat dim <> 0 ->
  forall d f, (d <= 20)%nat -> (d < f)%nat -> exists q, eval_rational_rec f dim u k P p d = Ok q /\
    forall c, (c < dim)%nat -> q c = rq (fun i => H i c) (fun i => H i dim) d.
Proof.
  intros HH Hw. induction d as [d IH] using lt_wf_ind. intros [|f] Hd Hf; [lia|].
  cbn [eval_rational_rec]. destruct (Nat.eqb_spec d 0) as [->|Hd0].
  - rewrite HH by lia. cbn [bind]. eexists. split; [reflexivity|]. intros c Hc. unfold weight_projection.
    rewrite (proj2 (neqb_R_false eps _ _)) by exact Hw. nsimp. rewrite rq_eq. cbn [sumn]. f_equal. ring.
  - rewrite !HH by lia. cbn [bind].
    destruct (rat_loop (fun i => INR (binom d i)) (fun i => H i dim) H
      (fun i s => let* qi := eval_value u k P p i in
        let* C := eval_rational_rec f dim u k P p (d - i) in
        let* b := binomial_law mul_size d i in Ok (rat_sub s b (weight dim qi) C)) dim d
      (weight_projection dim (fun c => if (c =? dim)%nat then n1 else H d c))
      (fun d c => rq (fun i => H i c) (fun i => H i dim) d)) as (s & E & V).
    + intros i s Hi. rewrite HH by lia. cbn [bind].
      destruct (IH (d - i)%nat ltac:(lia) f ltac:(lia) ltac:(lia)) as (q & Eq & Vq).
      rewrite Eq. cbn [bind]. rewrite (binomial_size eps) by lia. cbn [bind]. exists q. split; [reflexivity|exact Vq].
    + cbv zeta. cbv zeta in E. rewrite E. cbn [bind]. unfold weight at 1.
      rewrite (proj2 (neqb_R_false eps _ _)) by exact Hw.
      eexists. split; [reflexivity|]. intros c Hc. cbv beta. rewrite (V c Hc). unfold weight_projection.
      rewrite Nat.eqb_refl. rewrite (proj2 (neqb_R_false eps _ _)) by (nsimp; lra).
      destruct (Nat.eqb_spec c dim); [lia|]. rewrite rq_eq. nsimp. unfold weight. f_equal. f_equal. field.
Qed.

Lemma rational_spec dim (u : R) (k : list R) (P : list (pt R)) p (H : nat -> pt R) :
  (forall i, (i <= 20)%nat -> eval_value u k P p i = Ok (H i)) -> H 0%nat dim <> 0 ->
  forall d, (d <= 20)%nat -> exists q, eval_rational_value dim u k P p d = Ok q /\
    forall c, (c < dim)%nat -> q c = rq (fun i => H i c) (fun i => H i dim) d.
Proof. intros HH Hw d Hd. apply rational_rec_spec; auto. Qed.

Lemma rational_ders_spec dim (u : R) (k : list R) (P : list (pt R)) p n (A : list (pt R)) :
  (n <= 20)%nat -> eval_ders u k P p n = Ok A -> length A = (n + 1)%nat -> polec A dim 0 <> 0 ->
  exists CK, eval_rational_ders dim u k P p n = Ok CK /\ length CK = (n + 1)%nat /\
    forall d c, (d <= n)%nat -> (c < dim)%nat ->
      polec CK c d = rq (fun i => polec A c i) (fun i => polec A dim i) d.
Proof.
  intros Hn EA LA Hw. unfold eval_rational_ders.
  destruct (Nat.ltb_spec stack_max n) as [Hs|_]; [unfold stack_max in Hs; lia|].
  rewrite EA. cbn [bind]. rewrite (get_nth A 0 (fun _ => 0)) by (unfold pt in *; lia). cbn [bind]. cbv zeta.
  assert (Hw0 : weight dim (nth 0 A (fun _ => 0)) = polec A dim 0) by reflexivity. rewrite Hw0.
  match goal with |- context [for_ 0 (n + 1) ?b _] => set (body := b) end.
  destruct (for_inv (fun m (CK : list (pt R)) => length CK = (n + 1)%nat /\ forall d c, (d < m)%nat -> (c < dim)%nat ->
      polec CK c d = rq (fun i => polec A c i) (fun i => polec A dim i) d) body 0 (n + 1)
      (filled (n + 1) pzero)) as (CK & E & L & V).
  - split; [apply filled_length|]. intros; lia.
  - intros kk CK Hk (L & V). unfold body. rewrite (get_nth A kk (fun _ => 0)) by (unfold pt in *; lia). cbn [bind].
    destruct (rat_loop (fun i => INR (binom kk i)) (fun i => polec A dim i) (fun _ _ => 0)
      (fun i v => let* Ai := get A i in let* b := binomial_law mul_size kk i in
        let* C := get CK (kk - i) in Ok (rat_sub v b (weight dim Ai) C)) dim kk (nth kk A (fun _ => 0))
      (fun d c => rq (fun i => polec A c i) (fun i => polec A dim i) d)) as (s & Es & Vs).
    + intros i s Hi. rewrite (get_nth A i (fun _ => 0)) by (unfold pt in *; lia). cbn [bind].
      rewrite (binomial_size eps) by lia. cbn [bind].
      rewrite (get_nth CK (kk - i) (fun _ => 0)) by (unfold pt in *; lia). cbn [bind].
      eexists. split; [reflexivity|]. intros c Hc. apply (V (kk - i)%nat c); lia.
    + rewrite Es. cbn [bind]. rewrite (proj2 (neqb_R_false eps _ _)) by exact Hw.
      rewrite set_ok by (unfold pt in *; lia). eexists. split; [reflexivity|]. split; [rewrite upd_length; exact L|].
      intros d c Hd Hc. unfold polec at 1. rewrite nth_upd. rewrite L.
      destruct (Nat.eqb_spec kk d) as [<-|].
      * destruct (Nat.ltb_spec kk (n + 1)); [|lia]. cbn [andb]. rewrite (Vs c Hc). rewrite rq_eq. nsimp. reflexivity.
      * cbn [andb]. apply V; lia.
  - exists CK. split; [exact E|]. split; [exact L|]. intros d c Hd Hc. apply V; lia.
Qed.
End AtR.
