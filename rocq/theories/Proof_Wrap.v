(** Wrapper curves. *)
From Coq Require Import List Arith ZArith Reals Lia Lra.
From Verif Require Import Model_Base Model_Knots Model_Curve Model_Wrap Spec_Base Spec_Basis Spec_Wrap
  Proof_Base Proof_Insert Proof_Interp3 Proof_Eval.
Import ListNotations.
Local Open Scope R_scope.

Section AtR.
Variable eps : R.
Local Hint Extern 0 (Num R) => exact (NumR eps) : typeclass_instances.

(** Trimmed *)
Lemma trimmed_spec (g : gcurve R) u1 u2 u d :
  g_lo (trimmed g u1 u2) = u1 /\ g_hi (trimmed g u1 u2) = u2 /\
  (u1 - eps <= u <= u2 + eps -> g_value (trimmed g u1 u2) u d = g_value g u d) /\
  (u < u1 - eps \/ u2 + eps < u -> g_value (trimmed g u1 u2) u d = Throw OutOfBoundsEval).
Proof.
  split; [reflexivity|]. split; [reflexivity|]. unfold trimmed; cbn [g_value]. nsimp.
  destruct (Rltb_spec u (u1 - eps)); destruct (Rltb_spec (u2 + eps) u); cbn [orb]; split; intros; auto; exfalso; lra.
Qed.

(** Reversed *)
Lemma pow_m1_S d : (-1) ^ S d = - (-1) ^ d.
Proof. cbn [pow]. ring. Qed.
Lemma sign_even d : (if Nat.even d then 1 else - (1)) = (-1) ^ d.
Proof.
  induction d as [|d IH]; [cbn; ring|]. rewrite pow_m1_S, <- IH, Nat.even_succ.
  rewrite <- Nat.negb_even. destruct (Nat.even d); cbn; ring.
Qed.

Lemma reversed_represents g f D : g_lo g < g_hi g -> represents g f (g_lo g) (g_hi g) D ->
  g_lo (reversed g) = g_lo g /\ g_hi (reversed g) = g_hi g /\
  represents (reversed g) (fun d i u => (-1) ^ d * f d i (g_lo g + g_hi g - u)) (g_lo g) (g_hi g) D.
Proof.
  intros Hlt (V & Dv). split; [reflexivity|]. split; [reflexivity|]. split.
  - intros u d Hu Hd. destruct (V (g_lo g + g_hi g - u) d ltac:(lra) Hd) as (q & E & Q).
    unfold reversed; cbn [g_value]. nsimp. replace (g_hi g - (u - g_lo g)) with (g_lo g + g_hi g - u) by ring.
    rewrite E. cbn [bind]. eexists. split; [reflexivity|]. intros i. unfold pscal. nsimp. rewrite Q.
    rewrite <- sign_even. destruct (Nat.even d); reflexivity.
  - intros u d i Hu Hd. specialize (Dv (g_lo g + g_hi g - u) d i ltac:(lra) Hd).
    rewrite pow_m1_S. replace (- (-1) ^ d * f (S d) i (g_lo g + g_hi g - u)) with ((-1) ^ d * (f (S d) i (g_lo g + g_hi g - u) * (-1))) by ring.
    apply (derivable_pt_lim_scal (fun u => f d i (g_lo g + g_hi g - u))).
    apply (derivable_pt_lim_comp (fun u => g_lo g + g_hi g - u) (f d i) u (-1)); [|exact Dv].
    replace (-1) with (0 - 1) by ring. apply (derivable_pt_lim_minus (fun _ => g_lo g + g_hi g) (fun u => u)).
    + apply derivable_pt_lim_const. + apply derivable_pt_lim_id.
Qed.

(** Extended *)
Lemma extended_inside lowest highest g cl u d : g_lo g <= u <= g_hi g ->
  g_value (extended lowest highest g cl) u d = g_value g u d.
Proof.
  intros Hu. unfold extended; cbn [g_value]. nsimp.
  destruct (Rltb_spec u (g_lo g)); [exfalso; lra|]. destruct (Rltb_spec (g_hi g) u); [exfalso; lra|reflexivity].
Qed.

Definition ext_fun (f : nat -> nat -> R -> R) (a b : R) (d i : nat) (u : R) : R :=
  let tangent e := match d with O => f 0%nat i e + f 1%nat i e * (u - e) | 1%nat => f 1%nat i e | _ => 0 end in
  if Rlt_dec u a then tangent a else if Rlt_dec b u then tangent b else f d i u.

Lemma extended_value lowest highest g f D u d : (1 <= D)%nat -> (d <= D)%nat -> g_lo g <= g_hi g ->
  represents g f (g_lo g) (g_hi g) D ->
  exists q, g_value (extended lowest highest g false) u d = Ok q /\ forall i, q i = ext_fun f (g_lo g) (g_hi g) d i u.
Proof.
  intros H1 Hd Hlt (V & _). unfold ext_fun, extended; cbn [g_value]. nsimp.
  destruct (V (g_lo g) 0%nat ltac:(lra) ltac:(lia)) as (a0 & Ea0 & A0).
  destruct (V (g_lo g) 1%nat ltac:(lra) ltac:(lia)) as (a1 & Ea1 & A1).
  destruct (V (g_hi g) 0%nat ltac:(lra) ltac:(lia)) as (b0 & Eb0 & B0).
  destruct (V (g_hi g) 1%nat ltac:(lra) ltac:(lia)) as (b1 & Eb1 & B1).
  destruct (Rltb_spec u (g_lo g)); destruct (Rlt_dec u (g_lo g)); try (exfalso; lra).
  - destruct d as [|[|d]].
    + rewrite Ea0; cbn [bind]; rewrite Ea1; cbn [bind]. eexists. split; [reflexivity|]. intros i. cbn beta. rewrite A0, A1. reflexivity.
    + exists a1. auto.
    + exists pzero. split; [reflexivity|]. intros i. reflexivity.
  - destruct (Rltb_spec (g_hi g) u); destruct (Rlt_dec (g_hi g) u); try (exfalso; lra).
    + destruct d as [|[|d]].
      * rewrite Eb0; cbn [bind]; rewrite Eb1; cbn [bind]. eexists. split; [reflexivity|]. intros i. cbn beta. rewrite B0, B1. reflexivity.
      * exists b1. auto.
      * exists pzero. split; [reflexivity|]. intros i. reflexivity.
    + apply V; [lra|exact Hd].
Qed.

(** Two functions equal near u have the same derivative. *)
Lemma derivable_local (f g : R -> R) u l r : 0 < r -> (forall x, Rabs (x - u) < r -> f x = g x) ->
  derivable_pt_lim f u l -> derivable_pt_lim g u l.
Proof.
  intros Hr E H e He. destruct (H e He) as (d & Hd).
  assert (Hm : 0 < Rmin d r) by (apply Rmin_pos; [apply cond_pos|exact Hr]).
  exists (mkposreal _ Hm). intros h Hh Hlt. cbn [pos] in Hlt.
  rewrite <- !E.
  - apply Hd; auto. apply Rlt_le_trans with (1 := Hlt). apply Rmin_l.
  - rewrite Rminus_diag_eq by reflexivity. rewrite Rabs_R0. exact Hr.
  - replace (u + h - u) with h by ring. apply Rlt_le_trans with (1 := Hlt). apply Rmin_r.
Qed.

(** One-sided derivatives that agree make a derivative. *)
Lemma two_sided (f : R -> R) u l : left_deriv f u l -> right_deriv f u l -> derivable_pt_lim f u l.
Proof.
  intros HL HR e He. destruct (HL e He) as (d1 & Hd1 & L). destruct (HR e He) as (d2 & Hd2 & Rr).
  assert (Hm : 0 < Rmin d1 d2) by (apply Rmin_pos; auto).
  exists (mkposreal _ Hm). intros h Hh Hlt. cbn [pos] in Hlt.
  pose proof (Rmin_l d1 d2). pose proof (Rmin_r d1 d2).
  destruct (Rlt_le_dec 0 h) as [Hp|Hn].
  - apply Rr. rewrite Rabs_right in Hlt by lra. lra.
  - assert (h < 0) by lra. rewrite Rabs_left in Hlt by lra.
    specialize (L (- h) ltac:(lra)). replace ((f (u + h) - f u) / h) with ((f (u - - h) - f u) / - - h); [exact L|].
    replace (u - - h) with (u + h) by ring. field. lra.
Qed.

Lemma derivable_affine (p q e u : R) : derivable_pt_lim (fun x => p + q * (x - e)) u q.
Proof.
  assert (E : derivable_pt_lim (fun x => p + q * (x - e)) u (0 + q * (1 - 0)));
    [|replace (0 + q * (1 - 0)) with q in E by ring; exact E].
  apply (derivable_pt_lim_plus (fun _ => p) (fun x => q * (x - e)) u 0 (q * (1 - 0))).
  - apply derivable_pt_lim_const.
  - apply (derivable_pt_lim_scal (fun x => x - e)). apply (derivable_pt_lim_minus (fun x => x) (fun _ => e)).
    + apply derivable_pt_lim_id. + apply derivable_pt_lim_const.
Qed.

Lemma ext_out f a b d i u : a < b -> u < a \/ b < u -> derivable_pt_lim (ext_fun f a b d i) u (ext_fun f a b (S d) i u).
Proof.
  intros Hab Hu. set (e := if Rlt_dec u a then a else b).
  set (tg := fun x => match d with O => f 0%nat i e + f 1%nat i e * (x - e) | 1%nat => f 1%nat i e | _ => 0 end).
  apply (derivable_local tg _ u _ (if Rlt_dec u a then a - u else u - b)).
  - destruct (Rlt_dec u a); lra.
  - intros x Hx. unfold ext_fun, tg, e. destruct (Rlt_dec u a) as [Ha|Ha].
    + apply Rabs_def2 in Hx. destruct (Rlt_dec x a); [reflexivity|exfalso; lra].
    + apply Rabs_def2 in Hx. destruct (Rlt_dec x a); [exfalso; lra|]. destruct (Rlt_dec b x); [reflexivity|exfalso; lra].
  - replace (ext_fun f a b (S d) i u) with (match d with O => f 1%nat i e | _ => 0 end).
    + unfold tg. destruct d as [|[|d]]; [apply derivable_affine|apply derivable_pt_lim_const|apply derivable_pt_lim_const].
    + unfold ext_fun, e. destruct (Rlt_dec u a); [destruct d; reflexivity|]. destruct (Rlt_dec b u); [destruct d; reflexivity|exfalso; lra].
Qed.

Lemma ext_c1 f a b i u : a < b -> (forall x, a < x < b -> derivable_pt_lim (f 0%nat i) x (f 1%nat i x)) ->
  right_deriv (f 0%nat i) a (f 1%nat i a) -> left_deriv (f 0%nat i) b (f 1%nat i b) ->
  derivable_pt_lim (ext_fun f a b 0 i) u (ext_fun f a b 1 i u).
Proof.
  intros Hab Hin HR HL.
  destruct (Rlt_dec u a) as [H1|H1]; [apply ext_out; auto|]. destruct (Rlt_dec b u) as [H2|H2]; [apply ext_out; auto|].
  assert (E1 : ext_fun f a b 1 i u = f 1%nat i u).
  { unfold ext_fun. destruct (Rlt_dec u a); [exfalso; lra|]. destruct (Rlt_dec b u); [exfalso; lra|reflexivity]. }
  assert (In : forall x, a <= x <= b -> ext_fun f a b 0 i x = f 0%nat i x).
  { intros x Hx. unfold ext_fun. destruct (Rlt_dec x a); [exfalso; lra|]. destruct (Rlt_dec b x); [exfalso; lra|reflexivity]. }
  assert (Lo : forall x, x < a -> ext_fun f a b 0 i x = f 0%nat i a + f 1%nat i a * (x - a)).
  { intros x Hx. unfold ext_fun. destruct (Rlt_dec x a); [reflexivity|exfalso; lra]. }
  assert (Hi : forall x, b < x -> ext_fun f a b 0 i x = f 0%nat i b + f 1%nat i b * (x - b)).
  { intros x Hx. unfold ext_fun. destruct (Rlt_dec x a); [exfalso; lra|]. destruct (Rlt_dec b x); [reflexivity|exfalso; lra]. }
  rewrite E1. destruct (Req_dec u a) as [->|Na]; [|destruct (Req_dec u b) as [->|Nb]].
  - apply two_sided.
    + intros e He. exists 1. split; [lra|]. intros h Hh. rewrite Lo by lra. rewrite In by lra.
      replace ((f 0%nat i a + f 1%nat i a * (a - h - a) - f 0%nat i a) / - h - f 1%nat i a) with 0 by (field; lra).
      rewrite Rabs_R0. exact He.
    + intros e He. destruct (HR e He) as (d & Hd & K). exists (Rmin d (b - a)). split; [apply Rmin_pos; lra|].
      intros h Hh. pose proof (Rmin_l d (b - a)). pose proof (Rmin_r d (b - a)). rewrite !In by lra. apply K. lra.
  - apply two_sided.
    + intros e He. destruct (HL e He) as (d & Hd & K). exists (Rmin d (b - a)). split; [apply Rmin_pos; lra|].
      intros h Hh. pose proof (Rmin_l d (b - a)). pose proof (Rmin_r d (b - a)). rewrite !In by lra. apply K. lra.
    + intros e He. exists 1. split; [lra|]. intros h Hh. rewrite Hi by lra. rewrite In by lra.
      replace ((f 0%nat i b + f 1%nat i b * (b + h - b) - f 0%nat i b) / h - f 1%nat i b) with 0 by (field; lra).
      rewrite Rabs_R0. exact He.
  - apply (derivable_local (f 0%nat i) _ u _ (Rmin (u - a) (b - u))).
    + apply Rmin_pos; lra.
    + intros x Hx. symmetry. apply In. pose proof (Rmin_l (u - a) (b - u)). pose proof (Rmin_r (u - a) (b - u)).
      apply Rabs_def2 in Hx. lra.
    + apply Hin. lra.
Qed.

Lemma extended_prop lowest highest g f D : (1 <= D)%nat -> g_lo g < g_hi g ->
  represents g f (g_lo g) (g_hi g) D ->
  (forall i, right_deriv (f 0%nat i) (g_lo g) (f 1%nat i (g_lo g)) /\ left_deriv (f 0%nat i) (g_hi g) (f 1%nat i (g_hi g))) ->
  exists F : nat -> nat -> R -> R,
    (forall u d, (d <= D)%nat -> exists q, g_value (extended lowest highest g false) u d = Ok q /\ forall i, q i = F d i u) /\
    (forall u d i, g_lo g <= u <= g_hi g -> F d i u = f d i u) /\
    (forall u i, u < g_lo g -> F 0%nat i u = f 0%nat i (g_lo g) + (u - g_lo g) * f 1%nat i (g_lo g)) /\
    (forall u i, g_hi g < u -> F 0%nat i u = f 0%nat i (g_hi g) + (u - g_hi g) * f 1%nat i (g_hi g)) /\
    (forall u i, derivable_pt_lim (F 0%nat i) u (F 1%nat i u)) /\
    (forall u d i, u < g_lo g \/ g_hi g < u -> derivable_pt_lim (F d i) u (F (S d) i u)).
Proof.
  intros H1 Hlt Rp He. exists (ext_fun f (g_lo g) (g_hi g)). repeat split.
  - intros u d Hd. apply extended_value with D; auto. lra.
  - intros u d i Hu. unfold ext_fun. destruct (Rlt_dec u (g_lo g)); [exfalso; lra|]. destruct (Rlt_dec (g_hi g) u); [exfalso; lra|reflexivity].
  - intros u i Hu. unfold ext_fun. destruct (Rlt_dec u (g_lo g)); [ring|exfalso; lra].
  - intros u i Hu. unfold ext_fun. destruct (Rlt_dec u (g_lo g)); [exfalso; lra|]. destruct (Rlt_dec (g_hi g) u); [ring|exfalso; lra].
  - intros u i. destruct (He i) as (HR & HL). apply ext_c1; auto. intros x Hx. apply (proj2 Rp); [exact Hx|lia].
  - intros u d i Hu. apply ext_out; auto.
Qed.

(** Clamped: constant outside, with the derivatives of the end. *)
Lemma extended_clamped lowest highest g u d :
  (u < g_lo g -> g_value (extended lowest highest g true) u d = g_value g (g_lo g) d) /\
  (g_lo g <= u <= g_hi g -> g_value (extended lowest highest g true) u d = g_value g u d) /\
  (g_lo g <= g_hi g < u -> g_value (extended lowest highest g true) u d = g_value g (g_hi g) d).
Proof.
  split; [|split].
  - intros Hu. unfold extended; cbn [g_value]. nsimp. destruct (Rltb_spec u (g_lo g)); [reflexivity|exfalso; lra].
  - apply extended_inside.
  - intros Hu. unfold extended; cbn [g_value]. nsimp. destruct (Rltb_spec u (g_lo g)); [exfalso; lra|].
    destruct (Rltb_spec (g_hi g) u); [reflexivity|exfalso; lra].
Qed.

(** Reparametrized *)
Lemma reparametrized_prop g f c phi : represents g c (g_lo g) (g_hi g) 2 ->
  represents f phi (g_lo f) (g_hi f) 2 ->
  (forall m, g_lo f <= m <= g_hi f -> g_lo g <= phi 0%nat 0%nat m <= g_hi g) ->
  (forall m, g_lo f < m < g_hi f -> g_lo g < phi 0%nat 0%nat m < g_hi g) ->
  g_lo (reparametrized g f) = g_lo f /\ g_hi (reparametrized g f) = g_hi f /\
  exists F, (forall i m, F 0%nat i m = c 0%nat i (phi 0%nat 0%nat m)) /\
    represents (reparametrized g f) F (g_lo f) (g_hi f) 2.
Proof.
  intros (Vg & Dg) (Vf & Df) Hr Hi. split; [reflexivity|]. split; [reflexivity|].
  set (x := phi 0%nat 0%nat). set (x1 := phi 1%nat 0%nat). set (x2 := phi 2%nat 0%nat).
  exists (fun d i m => match d with
    | O => c 0%nat i (x m) | 1%nat => c 1%nat i (x m) * x1 m
    | _ => c 1%nat i (x m) * x2 m + c 2%nat i (x m) * x1 m * x1 m end).
  split; [reflexivity|]. split.
  - intros m d Hm Hd. destruct (Vf m 0%nat Hm ltac:(lia)) as (f0 & E0 & F0).
    destruct (Vf m 1%nat Hm ltac:(lia)) as (f1 & E1 & F1). destruct (Vf m 2%nat Hm ltac:(lia)) as (f2 & E2 & F2).
    specialize (Hr m Hm). fold x in Hr.
    destruct (Vg (x m) 0%nat Hr ltac:(lia)) as (c0 & G0 & C0). destruct (Vg (x m) 1%nat Hr ltac:(lia)) as (c1 & G1 & C1).
    destruct (Vg (x m) 2%nat Hr ltac:(lia)) as (c2 & G2 & C2).
    unfold reparametrized; cbn [g_value]. destruct d as [|[|[|d]]]; [| | |lia].
    + rewrite E0; cbn [bind]. rewrite F0. fold x. exists c0. auto.
    + rewrite E0; cbn [bind]. rewrite F0. fold x. rewrite G1; cbn [bind]. rewrite E1; cbn [bind].
      eexists. split; [reflexivity|]. intros i. unfold pscal. nsimp. rewrite C1, F1. unfold x1. ring.
    + rewrite E0; cbn [bind]. rewrite E1; cbn [bind]. rewrite E2; cbn [bind]. rewrite F0. fold x. rewrite G1; cbn [bind]. rewrite G2; cbn [bind].
      eexists. split; [reflexivity|]. intros i. unfold padd, pscal. nsimp. rewrite C1, C2, F1, F2. unfold x1, x2. ring.
  - intros m d i Hm Hd. specialize (Hi m Hm). fold x in Hi.
    assert (X1 : derivable_pt_lim x m (x1 m)) by (apply Df; [exact Hm|lia]).
    assert (X2 : derivable_pt_lim x1 m (x2 m)) by (apply Df; [exact Hm|lia]).
    assert (C : forall e, (e < 2)%nat -> derivable_pt_lim (fun m => c e i (x m)) m (c (S e) i (x m) * x1 m)).
    { intros e He'. apply (derivable_pt_lim_comp x (c e i) m (x1 m)); [exact X1|]. apply Dg; [exact Hi|lia]. }
    destruct d as [|[|d]]; [| |lia].
    + apply C; lia.
    + replace (c 1%nat i (x m) * x2 m + c 2%nat i (x m) * x1 m * x1 m)
        with (c 2%nat i (x m) * x1 m * x1 m + c 1%nat i (x m) * x2 m) by ring.
      apply (derivable_pt_lim_mult (fun m => c 1%nat i (x m)) x1); [apply C; lia|exact X2].
Qed.

Lemma reparametrized_high (g f : gcurve R) m d : (3 <= d)%nat -> g_value (reparametrized g f) m d = Throw RuntimeError.
Proof. intros H. destruct d as [|[|[|d]]]; [lia|lia|lia|reflexivity]. Qed.

(** Composite *)
Lemma offset_shift l : forall s t i, offset l (s + t) i = offset l s i + t.
Proof.
  induction l as [|g l IH]; intros s t i; destruct i; cbn [offset]; try ring.
  rewrite <- IH. f_equal. ring.
Qed.
Lemma offset_S l : forall s i g, nth_error l i = Some g -> offset l s (S i) = offset l s i + (g_hi g - g_lo g).
Proof.
  induction l as [|h l IH]; intros s i g E; destruct i; try discriminate.
  - injection E as <-. cbn [offset]. destruct l; reflexivity.
  - cbn [nth_error] in E. cbn [offset]. rewrite <- (IH _ i g E). reflexivity.
Qed.


Lemma composite_params_ok (l : list (gcurve R)) : (1 <= length l)%nat ->
  exists u_, composite_params l = Ok u_ /\ length u_ = (length l + 1)%nat /\
    forall i, (i <= length l)%nat -> nth i u_ 0 = piece_start l i.
Proof.
  intros Hl. unfold composite_params. destruct l as [|f l']; [cbn in Hl; lia|]. set (l := f :: l') in *. cbn [front l bind]. fold l.
  edestruct (for_inv (fun i u_ => length u_ = (length l + 1)%nat /\ forall j, (j <= i)%nat -> nth j u_ 0 = piece_start l j)) as (u_ & E & L & V).
  3: { rewrite E. exists u_. split; [reflexivity|]. split; [exact L|]. intros i Hi. apply V. lia. }
  - split; [apply filled_length|]. intros j Hj. replace j with 0%nat by lia. unfold filled. rewrite Nat.add_1_r. reflexivity.
  - intros i u_ Hi (L & V). destruct (nth_error l i) as [g|] eqn:Eg; [|apply nth_error_None in Eg; lia].
    apply get_some in Eg. rewrite Eg. cbn [bind]. rewrite (get_nth u_ i 0) by lia. cbn [bind].
    rewrite set_ok by lia. eexists. split; [reflexivity|]. split; [rewrite upd_length; exact L|].
    intros j Hj. rewrite nth_upd. replace (i + 1 <? length u_)%nat with true by (symmetry; apply Nat.ltb_lt; lia). rewrite Bool.andb_true_r.
    destruct (Nat.eqb_spec (i + 1) j) as [<-|Nj].
    + rewrite V by lia. apply get_some in Eg. rewrite Nat.add_1_r. nsimp. unfold piece_start, l. fold l.
      rewrite (offset_S l _ i g Eg). reflexivity.
    + apply V. lia.
Qed.

Lemma piece_start_S l i g : nth_error l i = Some g -> piece_start l (S i) = piece_start l i + (g_hi g - g_lo g).
Proof. intros E. unfold piece_start. destruct l as [|h l]; [destruct i; discriminate|]. apply offset_S. exact E. Qed.

Lemma piece_start_mono l : (forall g, In g l -> g_lo g < g_hi g) -> forall i j, (i < j)%nat -> (j <= length l)%nat ->
  piece_start l i < piece_start l j.
Proof.
  intros Hg i j Hij Hj. induction Hij as [|j Hij IH].
  - destruct (nth_error l i) as [g|] eqn:E; [|apply nth_error_None in E; lia].
    rewrite (piece_start_S l i g E). specialize (Hg g (nth_error_In _ _ E)). lra.
  - specialize (IH ltac:(lia)). destruct (nth_error l j) as [g|] eqn:E; [|apply nth_error_None in E; lia].
    rewrite (piece_start_S l j g E). specialize (Hg g (nth_error_In _ _ E)). lra.
Qed.

Lemma composite_prop (l : list (gcurve R)) : (1 <= length l)%nat -> (forall g, In g l -> g_lo g < g_hi g) ->
  exists c, composite l = Ok c /\ g_lo c = piece_start l 0 /\ g_hi c = piece_start l (length l) /\
    (forall i g u d, nth_error l i = Some g -> piece_start l i <= u -> u < piece_start l (S i) \/ (S i = length l /\ u = piece_start l (S i)) ->
       g_value c u d = g_value g (u - piece_start l i + g_lo g) d /\ g_lo g <= u - piece_start l i + g_lo g <= g_hi g) /\
    (forall u d, u < piece_start l 0 -> g_value c u d = Undef BadIterator).
Proof.
  intros Hl Hg. destruct (composite_params_ok l Hl) as (u_ & E & L & V). unfold composite. rewrite E. cbn [bind].
  rewrite (front_nth u_ 0) by lia. cbn [bind]. rewrite (back_nth u_ 0) by lia. cbn [bind].
  eexists. split; [reflexivity|]. cbn [g_lo g_hi g_value].
  split; [apply V; lia|]. split; [rewrite L, Nat.add_sub; apply V; lia|].
  assert (Nd : nondecreasing u_).
  { intros i j Hij Hj. unfold kn. rewrite !V by lia. destruct (Nat.eq_dec i j) as [->|N]; [lra|].
    apply Rlt_le, piece_start_mono; auto; lia. }
  split.
  - intros i g u d Eg H1 H2. pose proof (piece_start_S l i g Eg) as HS.
    assert (Hi : (i < length l)%nat) by (apply nth_error_Some; congruence).
    split; [|destruct H2 as [H2|(_ & H2)]; lra].
    assert (P : upper_bound u_ u = if Rlt_dec u (piece_start l (S i)) then S i else length u_).
    { apply (ub_char eps); auto; destruct (Rlt_dec u (piece_start l (S i))) as [Hu|Hu].
      - lia. - lia.
      - intros j Hj. unfold kn. rewrite V by lia. destruct (Nat.eq_dec j i) as [->|N]; [exact H1|].
        apply Rle_trans with (2 := H1). apply Rlt_le, piece_start_mono; auto; lia.
      - intros j Hj. unfold kn. rewrite V by lia. destruct H2 as [H2|(H2 & ->)]; [exfalso; lra|].
        destruct (Nat.eq_dec j (S i)) as [->|N]; [lra|]. apply Rlt_le, piece_start_mono; auto; lia.
      - intros _. unfold kn. rewrite V by lia. exact Hu.
      - lia. }
    rewrite P.
    assert (B : (let pos := (if Rlt_dec u (piece_start l (S i)) then S i else length u_) in
       (if (pos =? length u_)%nat then 2 else 1)%nat <= pos /\ (pos - (if (pos =? length u_)%nat then 2 else 1) = i))%nat).
    { destruct (Rlt_dec u (piece_start l (S i))) as [Hu|Hu].
      - cbn zeta. destruct (Nat.eqb_spec (S i) (length u_)); lia.
      - cbn zeta. rewrite Nat.eqb_refl. destruct H2 as [H2|(H2 & _)]; [exfalso; lra|]. lia. }
    cbn zeta in B. destruct B as (B1 & B2). set (pos := if Rlt_dec u (piece_start l (S i)) then S i else length u_) in *.
    destruct (Nat.ltb_spec pos (if (pos =? length u_)%nat then 2 else 1)%nat); [lia|]. rewrite B2.
    apply get_some in Eg. rewrite Eg. cbn [bind]. rewrite (get_nth u_ i 0) by lia. cbn [bind]. rewrite V by lia. nsimp. reflexivity.
  - intros u d Hu. replace (upper_bound u_ u) with 0%nat.
    + rewrite L. replace (0 =? length l + 1)%nat with false by (symmetry; apply Nat.eqb_neq; lia). reflexivity.
    + symmetry. apply (ub_char eps); auto; [lia|intros; lia|]. intros _. unfold kn. rewrite V by lia. exact Hu.
Qed.

End AtR.
