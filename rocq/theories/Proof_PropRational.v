(** Lemmas behind Prop_Rational.v. *)
From Coq Require Import List Arith ZArith QArith Reals Lia Lra Bool.
From Verif Require Import Model_Base Model_Basis Model_Rational Spec_Base Spec_Basis Spec_Eval
  Spec_Rational Proof_Base Proof_Blossom Proof_Basis Proof_Ders Proof_Eval Proof_PropBasis Proof_ExBasis Proof_PropRemove2
  Proof_Rational Proof_Quotient.
Import ListNotations.
Local Open Scope R_scope.

Section AtR.
Variable eps : R.
Local Hint Extern 0 (Num R) => exact (NumR eps) : typeclass_instances.

Section Curve.
Variables (k : list R) (n p dim : nat) (poles : list (pt R)) (ws : list R) (pw : list (pt R)).
Hypothesis (Hk : knots_ok k n p) (Hev : evaluable eps k n p) (HP : length poles = n)
  (HW : length ws = n) (Hpw : add_weights_coord dim poles ws = Ok pw).

Lemma pw_spec : length pw = n /\ forall i, (i < n)%nat -> polec pw dim i = kn ws i /\
        forall c, (c < dim)%nat -> polec pw c i = kn ws i * polec poles c i.
Proof using HP HW Hpw.
  destruct (proj2 (weights_spec eps dim poles ws) ltac:(unfold pt in *; lia)) as (pw' & E & L & V).
  rewrite E in Hpw. injection Hpw as <-. split; [unfold pt in *; lia|]. intros i Hi. apply V. unfold pt in *; lia.
Qed.

Lemma hom_values u : kn k p <= u <= kn k n -> exists H : nat -> pt R,
  (forall i, eval_value u k pw p i = Ok (H i)) /\
  H 0%nat dim = denom k n p ws u /\ (forall c, (c < dim)%nat -> H 0%nat c = numer k n p poles ws c u).
Proof using Hk Hev HP HW Hpw.
  intros Hu. destruct pw_spec as (L & V).
  exists (fun i => val (eval_value u k pw p i)). split.
  - intros i. destruct (eval_value_total eps k n p pw u i Hk L Hev Hu) as (q & E). rewrite E. reflexivity.
  - destruct (eval_value_correct eps k n p pw u Hk L Hev Hu) as (q & E & Q). rewrite E. cbn [val]. split.
    + rewrite Q. unfold denom, spline. apply sumn_ext. intros i Hi. f_equal. apply V. exact Hi.
    + intros c Hc. rewrite Q. unfold numer, spline. apply sumn_ext. intros i Hi. f_equal. apply V; auto.
Qed.

Lemma rational_value_correct u : kn k p <= u <= kn k n -> denom k n p ws u <> 0 ->
  exists q, eval_rational_value dim u k pw p 0 = Ok q /\
    forall c, (c < dim)%nat -> q c = numer k n p poles ws c u / denom k n p ws u.
Proof using Hk Hev HP HW Hpw.
  intros Hu Hd. destruct (hom_values u Hu) as (H & E & Hw & Hn).
  destruct (rational_spec eps dim u k pw p H (fun i _ => E i) ltac:(rewrite Hw; exact Hd) 0%nat ltac:(lia)) as (q & Eq & Q).
  exists q. split; [exact Eq|]. intros c Hc. rewrite (Q c Hc), rq_eq. cbn [sumn]. rewrite Hw, (Hn c Hc). f_equal. ring.
Qed.

Lemma rational_total u d : kn k p <= u <= kn k n -> denom k n p ws u <> 0 -> (d <= 20)%nat ->
  exists q, eval_rational_value dim u k pw p d = Ok q.
Proof using Hk Hev HP HW Hpw.
  intros Hu Hd H20. destruct (hom_values u Hu) as (H & E & Hw & Hn).
  destruct (rational_spec eps dim u k pw p H (fun i _ => E i) ltac:(rewrite Hw; exact Hd) d H20) as (q & Eq & _). eauto.
Qed.

Lemma rational_hull u : kn k p <= u <= kn k n -> (forall i, (i < n)%nat -> 0 < kn ws i) ->
  0 < denom k n p ws u /\
  exists i q w, find_span n p u k = Ok i /\ eval_rational_value dim u k pw p 0 = Ok q /\
    (forall r, (r <= p)%nat -> 0 <= w r) /\ sumn (p + 1) w = 1 /\
    forall c, (c < dim)%nat -> q c = sumn (p + 1) (fun r => w r * polec poles c (i - p + r)).
Proof using Hk Hev HP HW Hpw.
  intros Hu Hpos. destruct pw_spec as (L & V).
  destruct (eval_value_hull eps k n p pw u Hk L Hev Hu) as (i & q & w & Ei & Eq & Hw & Hs & Q).
  destruct (hom_values u Hu) as (H & EH & HD & HN). pose proof (EH 0%nat) as E0. rewrite Eq in E0. injection E0 as E0. subst q.
  assert (Hi : (p <= i < n)%nat).
  { pose proof Hk as (Hlen & Hpn & Hnd & Hlast).
    destruct (find_span_total eps k n p u Hlen Hpn Hnd) as (l & E & Hr & _). rewrite E in Ei. injection Ei as <-. exact Hr. }
  assert (Dq : denom k n p ws u = sumn (p + 1) (fun r => w r * kn ws (i - p + r))).
  { rewrite <- HD, Q. apply sumn_ext. intros r Hr. f_equal. apply V. lia. }
  assert (Dp : 0 < denom k n p ws u).
  { rewrite Dq. assert (G : forall m, (m <= p + 1)%nat -> 0 <= sumn m (fun r => w r * kn ws (i - p + r)) /\
       (sumn m (fun r => w r * kn ws (i - p + r)) = 0 -> sumn m w = 0)).
    { induction m as [|m IH]; intros Hm; cbn [sumn]; [split; [lra|auto]|].
      destruct (IH ltac:(lia)) as (A & B). pose proof (Hw m ltac:(lia)) as C.
      pose proof (Hpos (i - p + m)%nat ltac:(lia)) as D.
      assert (0 <= w m * kn ws (i - p + m)) by (apply Rmult_le_pos; lra).
      split; [lra|]. intros E. assert (E1 : w m * kn ws (i - p + m) = 0) by lra.
      apply Rmult_integral in E1. rewrite B by lra. destruct E1; lra. }
    destruct (G (p + 1)%nat ltac:(lia)) as (A & B). destruct (Req_dec (sumn (p + 1) (fun r => w r * kn ws (i - p + r))) 0) as [E|]; [|lra].
    rewrite (B E) in Hs. lra. }
  split; [exact Dp|].
  destruct (rational_value_correct u Hu ltac:(lra)) as (q' & Eq' & Q').
  exists i, q', (fun r => w r * kn ws (i - p + r) / denom k n p ws u).
  split; [exact Ei|]. split; [exact Eq'|]. split; [|split].
  - intros r Hr. apply Rmult_le_pos; [apply Rmult_le_pos; [apply Hw, Hr|apply Rlt_le, Hpos; lia]|].
    apply Rlt_le, Rinv_0_lt_compat, Dp.
  - rewrite (sumn_ext _ _ (fun r => / denom k n p ws u * (w r * kn ws (i - p + r)))) by (intros; field; lra).
    rewrite sumn_scal, <- Dq. field. lra.
  - intros c Hc. rewrite (Q' c Hc), <- (HN c Hc), Q.
    rewrite (sumn_ext _ (fun r => w r * kn ws (i - p + r) / denom k n p ws u * polec poles c (i - p + r))
      (fun r => / denom k n p ws u * (w r * polec pw c (i - p + r)))).
    + rewrite sumn_scal. field. lra.
    + intros r Hr. destruct (V (i - p + r)%nat ltac:(lia)) as (_ & V'). rewrite (V' c Hc). field. lra.
Qed.

(** *** Derivatives *)
Lemma rational_val_rq x d c : kn k p <= x <= kn k n -> denom k n p ws x <> 0 -> (d <= 20)%nat -> (c < dim)%nat ->
  val (eval_rational_value dim x k pw p d) c =
  rq (fun i => val (eval_value x k pw p i) c) (fun i => val (eval_value x k pw p i) dim) d.
Proof using Hk Hev HP HW Hpw.
  intros Hx Hd H20 Hc. destruct (hom_values x Hx) as (H & E & Hw & Hn).
  destruct (rational_spec eps dim x k pw p H (fun i _ => E i) ltac:(rewrite Hw; exact Hd) d H20) as (q & Eq & Q).
  rewrite Eq. cbn [val]. rewrite (Q c Hc). apply rq_ext; intros i Hi; rewrite E; reflexivity.
Qed.

Lemma denom_val x : kn k p <= x <= kn k n -> val (eval_value x k pw p 0) dim = denom k n p ws x.
Proof using Hk Hev HP HW Hpw.
  intros Hx. destruct (hom_values x Hx) as (H & E & Hw & Hn). rewrite E. exact Hw.
Qed.

Lemma rational_D_in (D : R -> Prop) u d c :
  (forall x, D x -> kn k p <= x <= kn k n) -> kn k p <= u <= kn k n ->
  (forall x, kn k p <= x <= kn k n -> denom k n p ws x <> 0) -> (d < 20)%nat -> (c < dim)%nat ->
  (forall d c, D_in (fun x => val (eval_value x k pw p d) c) (fun x => val (eval_value x k pw p (S d)) c) D u) ->
  D_in (fun x => val (eval_rational_value dim x k pw p d) c)
       (fun x => val (eval_rational_value dim x k pw p (S d)) c) D u.
Proof using Hk Hev HP HW Hpw.
  intros HD Hu Hden Hd Hc HH.
  eapply D_in_ext; [| | |apply (rq_D_in (fun i x => val (eval_value x k pw p i) c)
      (fun i x => val (eval_value x k pw p i) dim) D u (fun d => HH d c) (fun d => HH d dim)) with (d := d)].
  - intros y Hy. symmetry. apply rational_val_rq; auto; lia.
  - symmetry. apply rational_val_rq; auto; lia.
  - symmetry. apply rational_val_rq; auto; lia.
  - rewrite denom_val by exact Hu. apply Hden, Hu.
  - intros y Hy. rewrite denom_val by (apply HD, Hy). apply Hden, HD, Hy.
Qed.

Hypothesis Hden : forall x, kn k p <= x <= kn k n -> denom k n p ws x <> 0.

Lemma rational_deriv_inside d c l u : (d < 20)%nat -> (c < dim)%nat -> (p <= l < n)%nat -> kn k l < u < kn k (S l) ->
  derivable_pt_lim (fun x => val (eval_rational_value dim x k pw p d) c) u
    (val (eval_rational_value dim u k pw p (S d)) c).
Proof using All.
  intros Hd Hc Hl Hu. destruct pw_spec as (L & _). pose proof Hk as (Hlen & Hpn & Hnd & Hlast).
  assert (A : kn k p <= kn k l) by (apply Hnd; lia). assert (B : kn k (S l) <= kn k n) by (apply Hnd; lia).
  apply (D_in_both _ (fun x => val (eval_rational_value dim x k pw p (S d)) c) u (kn k l) (kn k (S l)) Hu).
  apply rational_D_in; auto; try (intros; lra).
  intros d' c'. apply D_in_both; [exact Hu|]. apply (eval_deriv_inside eps k n p pw d' c' l u); auto.
Qed.

Lemma rational_deriv_right d c u : (d < 20)%nat -> (c < dim)%nat -> kn k p <= u < kn k n ->
  right_deriv (fun x => val (eval_rational_value dim x k pw p d) c) u
    (val (eval_rational_value dim u k pw p (S d)) c).
Proof using All.
  intros Hd Hc Hu. destruct pw_spec as (L & _).
  apply (D_in_right _ (fun x => val (eval_rational_value dim x k pw p (S d)) c) u (kn k n)); [lra|].
  apply rational_D_in; auto; try (intros; lra).
  intros d' c'. apply D_in_right; [lra|]. apply (eval_deriv_right eps k n p pw d' c' u); auto.
Qed.

Lemma rational_deriv_left_end d c : (d < 20)%nat -> (c < dim)%nat ->
  left_deriv (fun x => val (eval_rational_value dim x k pw p d) c) (kn k n)
    (val (eval_rational_value dim (kn k n) k pw p (S d)) c).
Proof using All.
  intros Hd Hc. destruct pw_spec as (L & _). pose proof Hk as (Hlen & Hpn & Hnd & Hlast).
  assert (A : kn k p <= kn k (n - 1)) by (apply Hnd; lia).
  apply (D_in_left _ (fun x => val (eval_rational_value dim x k pw p (S d)) c) (kn k n) (kn k p)); [lra|].
  apply rational_D_in; auto; try (intros; lra).
  intros d' c'. apply D_in_left; [lra|]. apply (eval_deriv_left_end eps k n p pw d' c'); auto.
Qed.

Lemma rational_ders_agree m u : (m <= 20)%nat -> kn k p <= u <= kn k n ->
  exists CK, eval_rational_ders dim u k pw p m = Ok CK /\ length CK = (m + 1)%nat /\
    forall d, (d <= m)%nat -> exists q q', get CK d = Ok q /\ eval_rational_value dim u k pw p d = Ok q' /\
      forall c, (c < dim)%nat -> q c = q' c.
Proof using All.
  intros Hm Hu. destruct pw_spec as (L & _).
  destruct (eval_ders_agree eps k n p pw u m Hk L Hev Hu) as (A & EA & LA & VA).
  destruct (hom_values u Hu) as (H & EH & HD & HN).
  assert (G : forall i c, (i <= m)%nat -> polec A c i = H i c).
  { intros i c Hi. destruct (VA i Hi) as (q & q' & G & E & Q). rewrite EH in E. injection E as <-.
    unfold polec. rewrite (get_ok_nth _ _ _ _ G). apply Q. }
  destruct (rational_ders_spec eps dim u k pw p m A Hm EA LA) as (CK & E & LC & V).
  { rewrite G by lia. rewrite HD. apply Hden, Hu. }
  exists CK. split; [exact E|]. split; [exact LC|]. intros d Hd.
  destruct (rational_spec eps dim u k pw p H (fun i _ => EH i) ltac:(rewrite HD; apply Hden, Hu) d ltac:(lia)) as (q & Eq & Q).
  exists (nth d CK (fun _ => 0)), q. split; [apply get_nth; unfold pt in *; lia|]. split; [exact Eq|].
  intros c Hc. change (polec CK c d = q c). rewrite (V d c Hd Hc), (Q c Hc). apply rq_ext; intros; apply G; lia.
Qed.
End Curve.

(** Equal weights. *)
Lemma rational_equal_weights k n p dim (poles : list (pt R)) pw w u d :
  knots_ok k n p -> evaluable eps k n p -> length poles = n -> w <> 0 ->
  add_weights_coord dim poles (repeat w n) = Ok pw -> kn k p <= u <= kn k n -> (d <= 20)%nat ->
  exists q q', eval_rational_value dim u k pw p d = Ok q /\ eval_value u k poles p d = Ok q' /\
    forall c, (c < dim)%nat -> q c = q' c.
Proof.
  intros Hk Hev HP Hw Hpw Hu Hd. pose proof Hk as (Hlen & Hpn & Hnd & Hlast).
  assert (HW : length (repeat w n) = n) by apply repeat_length.
  destruct (pw_spec n dim poles (repeat w n) pw HP HW Hpw) as (L & V).
  destruct (span_pack eps k n p u Hk Hu) as (l & _ & Hl & Hs & Hst).
  assert (VV : forall (Q : list (pt R)) i c, length Q = n ->
    val (eval_value u k Q p i) c = (if (i <=? p)%nat then PS k p l i (pole Q c) u else 0)).
  { intros Q i c LQ. apply (eval_val_span eps k n p Q u i l c); auto. }
  assert (K : forall i, (i < n)%nat -> kn (repeat w n) i = w).
  { intros i Hi. unfold kn. apply nth_repeat_lt || (rewrite (nth_indep _ _ w) by (rewrite repeat_length; lia); apply nth_repeat). }
  assert (PW : forall i, PS k p l i (pole pw dim) u = w * PS k p l i (fun _ => 1) u).
  { intros i. unfold PS. rewrite <- sumn_scal. apply sumn_ext. intros j Hj.
    destruct (V j ltac:(lia)) as (A & _). unfold polec in A. unfold pole. rewrite A, (K j ltac:(lia)). ring. }
  assert (PA : forall i c, (c < dim)%nat -> PS k p l i (pole pw c) u = w * PS k p l i (pole poles c) u).
  { intros i c Hc. unfold PS. rewrite <- sumn_scal. apply sumn_ext. intros j Hj.
    destruct (V j ltac:(lia)) as (_ & A). specialize (A c Hc). unfold polec in A. unfold pole. rewrite A, (K j ltac:(lia)). ring. }
  assert (P1 : forall i, (i <= p)%nat -> PS k p l i (fun _ => 1) u = if (i =? 0)%nat then 1 else 0).
  { intros i Hi. unfold PS.
    rewrite (sumn_ext _ _ (fun j => ffall p i * NH (kn k) l (repeat (1, 0) i ++ repeat (u, 1) (p - i)) j)) by (intros; ring).
    rewrite sumn_scal. rewrite (NH_sum (kn k) l (n + p)); [|intros a b H1 H2; apply Hnd; lia|exact Hst| |];
      rewrite ?app_length, ?repeat_length; try lia.
    rewrite map_app, fold_right_app. destruct i as [|i].
    - cbn [repeat map fold_right Nat.eqb]. rewrite Nat.sub_0_r. unfold ffall.
      replace (fold_right Rmult 1 (map snd (repeat (u, 1) p))) with 1; [simpl; ring|].
      clear. induction p as [|m IH]; simpl; [reflexivity|]. rewrite <- IH. ring.
    - cbn [repeat map fold_right Nat.eqb snd]. ring. }
  destruct (hom_values k n p dim poles (repeat w n) pw Hk Hev HP HW Hpw u Hu) as (H & E & HD & HN).
  assert (W0 : H 0%nat dim = w).
  { pose proof (VV pw 0%nat dim L) as X. rewrite E in X. cbn [val Nat.leb] in X. rewrite X, PW, P1 by lia. cbn [Nat.eqb]. ring. }
  destruct (rational_spec eps dim u k pw p H (fun i _ => E i) ltac:(rewrite W0; exact Hw) d Hd) as (q & Eq & Q).
  destruct (eval_value_total eps k n p poles u d Hk HP Hev Hu) as (q' & Eq').
  exists q, q'. split; [exact Eq|]. split; [exact Eq'|]. intros c Hc. rewrite (Q c Hc).
  rewrite rq_const.
  - rewrite W0. pose proof (VV pw d c L) as X. rewrite E in X. cbn [val] in X. rewrite X.
    pose proof (VV poles d c HP) as Y. rewrite Eq' in Y. cbn [val] in Y. rewrite Y.
    destruct (d <=? p)%nat; [rewrite PA by exact Hc|]; field; exact Hw.
  - intros i Hi. pose proof (VV pw i dim L) as X. rewrite E in X. cbn [val] in X. rewrite X.
    destruct (Nat.leb_spec i p) as [Hip|]; [|reflexivity]. rewrite PW, P1 by lia.
    destruct (Nat.eqb_spec i 0); [lia|ring].
Qed.
End AtR.

(** ** Witnesses *)
Definition q1 (x w : Q) : pt Q := fun c => match c with O => x | _ => w end.
(** x(u) = 2u/(1+u), whose 21st derivative at 0 is 2 * 21!. *)
Lemma order21 : exists CK q, @eval_rational_ders Q NumQ 1 0%Q [0;0;1;1]%Q [q1 0 1; q1 2 2] 1 21 = Ok CK /\
  get CK 21 = Ok q /\ ~ (q 0%nat == inject_Z (2 * zfact 21))%Q.
Proof.
  pose (CK := @eval_rational_ders Q NumQ 1 0%Q [0;0;1;1]%Q [q1 0 1; q1 2 2] 1 21).
  pose (r := let* L := CK in let* q := get L 21 in Ok (q 0%nat)).
  assert (E : match r with Ok x => Qeq_bool x (inject_Z (2 * zfact 21)) = false | _ => False end) by (vm_compute; reflexivity).
  unfold r in E. fold CK. destruct CK as [L| | |] eqn:EC; try contradiction. cbn [bind] in E.
  destruct (get L 21) as [q| | |] eqn:EG; try contradiction. cbn [bind] in E.
  exists L, q. split; [reflexivity|]. split; [exact EG|]. intros H. apply Qeq_eq_bool in H. congruence.
Qed.

Lemma binomial_wraps : exists x, @binomial_law Q NumQ mul_size 21 1 = Ok x /\ ~ (x == 21)%Q.
Proof. eexists. split; [vm_compute; reflexivity|]. intros H. discriminate H. Qed.
Lemma binomial_overflows : @binomial_law Q NumQ mul_int 13 1 = Undef IntOverflow.
Proof. vm_compute. reflexivity. Qed.

Lemma scaled_ignores_mean : exists l, @scaled_weights Q NumQ 1 [q1 0 1; q1 0 3] 5%Q = Ok l /\
  map (fun q => q 1%nat) l = [1 # 2; 3 # 2]%Q.
Proof. eexists. split; [reflexivity|]. vm_compute. reflexivity. Qed.

Lemma merge_long : exists l, @merge_weights Q NumQ 1 [q1 0 1] [1; 2]%Q = Ok l.
Proof. eexists. vm_compute. reflexivity. Qed.

(** Hypotheses of the curve theorems on a quarter circle and on a cubic with a double knot. *)
Definition ex_ws : list R := [1; 2; 1].
Definition ex_wp : list (pt R) := [fun c => match c with O => 1 | _ => 0 end; fun _ => 1;
                                   fun c => match c with O => 0 | _ => 1 end].
Lemma ex_rational : let k := [0;0;0;1;1;1] in
  knots_ok k 3 2 /\ evaluable 0 k 3 2 /\ length ex_wp = 3%nat /\ length ex_ws = 3%nat /\
  (exists pw, @add_weights_coord R (NumR 0) 2 ex_wp ex_ws = Ok pw) /\
  (forall i, (i < 3)%nat -> 0 < kn ex_ws i) /\
  (forall x, kn k 2 <= x <= kn k 3 -> denom k 3 2 ex_ws x <> 0).
Proof.
  intros k. assert (Hk : knots_ok k 3 2) by knots_lit.
  assert (Hev : evaluable 0 k 3 2) by (left; lia).
  assert (Hpos : forall i, (i < 3)%nat -> 0 < kn ex_ws i).
  { intros [|[|[|i]]] Hi; unfold kn, ex_ws; simpl; try lra. lia. }
  destruct (proj2 (weights_spec 0 2 ex_wp ex_ws) eq_refl) as (pw & E & _).
  do 4 (split; [first [exact Hk|exact Hev|reflexivity]|]). split; [eauto|]. split; [exact Hpos|].
  intros x Hx. destruct (rational_hull 0 k 3 2 2 ex_wp ex_ws pw Hk Hev eq_refl eq_refl E x Hx Hpos) as (A & _). lra.
Qed.

Lemma ex_weights : length ex_wp = length ex_ws /\ (forall i, (i < length ex_ws)%nat -> kn ex_ws i <> 0).
Proof.
  split; [reflexivity|]. intros [|[|[|i]]] Hi; unfold kn, ex_ws in *; simpl in *; try lra. lia.
Qed.
Lemma ex_scale : mean (map (fun q : pt R => q 0%nat) ex_wp) <> 0 /\ ex_wp <> [].
Proof. split; [unfold mean, ex_wp; simpl; lra|discriminate]. Qed.

Lemma factorial_size_all n : factorial mul_size n = Ok (zfact n mod 18446744073709551616)%Z /\
  (factorial mul_size n = Ok (zfact n) <-> (n <= 20)%nat).
Proof. split; [apply factorial_size|apply factorial_size_exact]. Qed.
