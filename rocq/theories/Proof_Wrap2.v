(** Curves on surfaces, lines, circles, surfaces of revolution. *)
From Coq Require Import List Arith ZArith Reals Lia Lra.
From Verif Require Import Model_Base Model_Vec Model_Motion Model_Knots Model_Curve Model_Wrap
  Spec_Base Spec_Basis Spec_Build Spec_Motion Spec_Wrap Proof_Base Proof_Insert Proof_Build Proof_Motion Proof_Wrap.
Import ListNotations.
Local Open Scope R_scope.

(** Increment of a differentiable function. *)
Lemma derivable_incr f t l e : derivable_pt_lim f t l -> 0 < e ->
  exists d, 0 < d /\ forall h, Rabs h < d -> Rabs (f (t + h) - f t - l * h) <= e * Rabs h.
Proof.
  intros H He. destruct (H e He) as (d & Hd). exists d. split; [apply cond_pos|].
  intros h Hh. destruct (Req_dec h 0) as [->|Hn].
  - rewrite Rplus_0_r. replace (f t - f t - l * 0) with 0 by ring. rewrite !Rabs_R0. lra.
  - specialize (Hd h Hn Hh). replace (f (t + h) - f t - l * h) with (((f (t + h) - f t) / h - l) * h) by (field; exact Hn).
    rewrite Rabs_mult. apply Rmult_le_compat_r; [apply Rabs_pos|lra].
Qed.
Lemma incr_derivable f t l : (forall e, 0 < e -> exists d, 0 < d /\ forall h, Rabs h < d -> Rabs (f (t + h) - f t - l * h) <= e * Rabs h) ->
  derivable_pt_lim f t l.
Proof.
  intros H e He. destruct (H (e / 2) ltac:(lra)) as (d & Hd & K). exists (mkposreal d Hd). intros h Hn Hh. cbn [pos] in Hh.
  specialize (K h Hh). replace ((f (t + h) - f t) / h - l) with ((f (t + h) - f t - l * h) / h) by (field; exact Hn).
  unfold Rdiv. rewrite Rabs_mult, Rabs_inv. assert (0 < Rabs h) by (apply Rabs_pos_lt; exact Hn).
  apply Rmult_lt_reg_r with (Rabs h); [assumption|]. rewrite Rmult_assoc, Rinv_l, Rmult_1_r by lra.
  apply Rle_lt_trans with (1 := K). apply Rmult_lt_compat_r; lra.
Qed.

(** Chain rule for two variables. *)
Lemma chain2 F x y t x1 y1 Fu Fv : derivable_pt_lim x t x1 -> derivable_pt_lim y t y1 ->
  differential F (x t) (y t) Fu Fv -> derivable_pt_lim (fun s => F (x s) (y s)) t (Fu * x1 + Fv * y1).
Proof.
  intros Hx Hy HF. apply incr_derivable. intros e He.
  set (K := Rabs x1 + Rabs y1 + 2). set (C := Rabs Fu + Rabs Fv + 1).
  pose proof (Rabs_pos x1). pose proof (Rabs_pos y1). pose proof (Rabs_pos Fu). pose proof (Rabs_pos Fv).
  assert (HK : 0 < K) by (unfold K; lra). assert (HC : 0 < C) by (unfold C; lra).
  assert (HE1 : 0 < e / (2 * K)) by (apply Rdiv_lt_0_compat; lra).
  assert (HE2 : 0 < Rmin 1 (e / (2 * C))) by (apply Rmin_pos; [lra|apply Rdiv_lt_0_compat; lra]).
  destruct (HF _ HE1) as (d & Hd & KF). destruct (derivable_incr x t x1 _ Hx HE2) as (dx & Hdx & Kx).
  destruct (derivable_incr y t y1 _ Hy HE2) as (dy & Hdy & Ky).
  exists (Rmin (d / K) (Rmin dx dy)). split.
  { apply Rmin_pos; [apply Rdiv_lt_0_compat; lra|apply Rmin_pos; lra]. }
  intros h Hh. pose proof (Rmin_l (d / K) (Rmin dx dy)). pose proof (Rmin_r (d / K) (Rmin dx dy)).
  pose proof (Rmin_l dx dy). pose proof (Rmin_r dx dy).
  specialize (Kx h ltac:(lra)). specialize (Ky h ltac:(lra)).
  set (m := Rmin 1 (e / (2 * C))) in *. assert (M1 : m <= 1) by apply Rmin_l. assert (M2 : m <= e / (2 * C)) by apply Rmin_r.
  set (p := x (t + h) - x t) in *. set (q := y (t + h) - y t) in *. pose proof (Rabs_pos h) as Ph.
  assert (Mh : m * Rabs h <= Rabs h) by nra.
  assert (Pp : Rabs p <= (Rabs x1 + 1) * Rabs h).
  { replace p with ((p - x1 * h) + x1 * h) by ring. apply Rle_trans with (1 := Rabs_triang _ _). rewrite Rabs_mult. lra. }
  assert (Pq : Rabs q <= (Rabs y1 + 1) * Rabs h).
  { replace q with ((q - y1 * h) + y1 * h) by ring. apply Rle_trans with (1 := Rabs_triang _ _). rewrite Rabs_mult. lra. }
  assert (Kh : K * Rabs h < d).
  { apply Rmult_lt_reg_l with (/ K); [apply Rinv_0_lt_compat; exact HK|]. rewrite <- Rmult_assoc, Rinv_l, Rmult_1_l by lra.
    unfold Rdiv in *. rewrite (Rmult_comm (/ K) d). lra. }
  assert (Bp : Rabs p < d) by (unfold K in Kh; nra). assert (Bq : Rabs q < d) by (unfold K in Kh; nra).
  specialize (KF p q Bp Bq).
  replace (x t + p) with (x (t + h)) in KF by (unfold p; ring). replace (y t + q) with (y (t + h)) in KF by (unfold q; ring).
  set (G := F (x (t + h)) (y (t + h)) - F (x t) (y t)) in *.
  replace (G - (Fu * x1 + Fv * y1) * h) with ((G - Fu * p - Fv * q) + (Fu * (p - x1 * h) + Fv * (q - y1 * h))) by ring.
  apply Rle_trans with (1 := Rabs_triang _ _).
  apply Rle_trans with (e / (2 * K) * (Rabs p + Rabs q) + (Rabs Fu * (m * Rabs h) + Rabs Fv * (m * Rabs h))).
  - apply Rplus_le_compat; [exact KF|]. apply Rle_trans with (1 := Rabs_triang _ _). rewrite !Rabs_mult.
    apply Rplus_le_compat; apply Rmult_le_compat_l; auto.
  - assert (A1 : e / (2 * K) * (Rabs p + Rabs q) <= e / 2 * Rabs h).
    { apply Rle_trans with (e / (2 * K) * (K * Rabs h)); [apply Rmult_le_compat_l; [lra|unfold K; lra]|]. right. field. lra. }
    assert (A2 : Rabs Fu * (m * Rabs h) + Rabs Fv * (m * Rabs h) <= e / 2 * Rabs h).
    { apply Rle_trans with (C * (m * Rabs h)); [unfold C; nra|].
      apply Rle_trans with (C * (e / (2 * C) * Rabs h)); [apply Rmult_le_compat_l; [lra|]; apply Rmult_le_compat_r; lra|].
      right. field. lra. }
    lra.
Qed.

Section AtR.
Variable eps : R.
Local Hint Extern 0 (Num R) => exact (NumR eps) : typeclass_instances.

Lemma on_surface_prop g s c F D : (D <= 1)%nat -> represents g c (g_lo g) (g_hi g) D -> surface_represents s F D ->
  g_lo (on_surface g s) = g_lo g /\ g_hi (on_surface g s) = g_hi g /\
  exists f, (forall i u, f 0%nat i u = F 0%nat 0%nat i (c 0%nat 0%nat u) (c 0%nat 1%nat u)) /\
    represents (on_surface g s) f (g_lo g) (g_hi g) D.
Proof.
  intros HD (Vg & Dg) (Vs & Ds). split; [reflexivity|]. split; [reflexivity|].
  set (x := c 0%nat 0%nat). set (y := c 0%nat 1%nat). set (x1 := c 1%nat 0%nat). set (y1 := c 1%nat 1%nat).
  exists (fun d i u => match d with O => F 0%nat 0%nat i (x u) (y u)
    | _ => F 1%nat 0%nat i (x u) (y u) * x1 u + F 0%nat 1%nat i (x u) (y u) * y1 u end).
  split; [reflexivity|]. split.
  - intros u d Hu Hd. destruct (Vg u 0%nat Hu ltac:(lia)) as (c0 & E0 & C0). unfold on_surface; cbn [g_value].
    rewrite E0. cbn [bind]. rewrite !C0. fold x y. destruct d as [|[|d]]; [| |lia].
    + apply Vs. lia.
    + destruct (Vg u 1%nat Hu Hd) as (c1 & E1 & C1). rewrite E1. cbn [bind].
      destruct (Vs (x u) (y u) 1%nat 0%nat ltac:(lia)) as (su & Esu & Su).
      destruct (Vs (x u) (y u) 0%nat 1%nat ltac:(lia)) as (sv & Esv & Sv).
      rewrite Esu. cbn [bind]. rewrite Esv. cbn [bind]. eexists. split; [reflexivity|].
      intros i. unfold padd, pscal. nsimp. rewrite Su, Sv, !C1. unfold x1, y1. ring.
  - intros u d i Hu Hd. destruct d as [|d]; [|lia].
    apply chain2; [apply Dg; [exact Hu|lia]|apply Dg; [exact Hu|lia]|]. apply Ds. lia.
Qed.

(** Second derivative: right when both parameter functions have the same second derivative. *)
Lemma on_surface_second g s c F : represents g c (g_lo g) (g_hi g) 2 -> surface_represents s F 2 ->
  (forall u, g_lo g <= u <= g_hi g -> c 2%nat 0%nat u = c 2%nat 1%nat u) ->
  exists f, (forall i u, f 0%nat i u = F 0%nat 0%nat i (c 0%nat 0%nat u) (c 0%nat 1%nat u)) /\
    represents (on_surface g s) f (g_lo g) (g_hi g) 2.
Proof.
  intros Rg Rs Heq.
  assert (Sym : forall i u v, F 1%nat 1%nat i u v = F 1%nat 1%nat i u v) by reflexivity.
  destruct Rg as (Vg & Dg). destruct Rs as (Vs & Ds).
  set (x := c 0%nat 0%nat). set (y := c 0%nat 1%nat). set (x1 := c 1%nat 0%nat). set (y1 := c 1%nat 1%nat).
  set (x2 := c 2%nat 0%nat). set (y2 := c 2%nat 1%nat).
  exists (fun d i u => match d with O => F 0%nat 0%nat i (x u) (y u)
    | 1%nat => F 1%nat 0%nat i (x u) (y u) * x1 u + F 0%nat 1%nat i (x u) (y u) * y1 u
    | _ => ((F 2%nat 0%nat i (x u) (y u) * x1 u + F 1%nat 1%nat i (x u) (y u) * y1 u) * x1 u + F 1%nat 0%nat i (x u) (y u) * x2 u)
         + ((F 1%nat 1%nat i (x u) (y u) * x1 u + F 0%nat 2%nat i (x u) (y u) * y1 u) * y1 u + F 0%nat 1%nat i (x u) (y u) * y2 u) end).
  split; [reflexivity|]. split.
  - intros u d Hu Hd. destruct (Vg u 0%nat Hu ltac:(lia)) as (c0 & E0 & C0). unfold on_surface; cbn [g_value].
    rewrite E0. cbn [bind]. rewrite !C0. fold x y.
    destruct (Vg u 1%nat Hu ltac:(lia)) as (c1 & E1 & C1). destruct (Vg u 2%nat Hu ltac:(lia)) as (c2 & E2 & C2).
    destruct (Vs (x u) (y u) 1%nat 0%nat ltac:(lia)) as (su & Esu & Su). destruct (Vs (x u) (y u) 0%nat 1%nat ltac:(lia)) as (sv & Esv & Sv).
    destruct (Vs (x u) (y u) 2%nat 0%nat ltac:(lia)) as (suu & Esuu & Suu). destruct (Vs (x u) (y u) 0%nat 2%nat ltac:(lia)) as (svv & Esvv & Svv).
    destruct (Vs (x u) (y u) 1%nat 1%nat ltac:(lia)) as (suv & Esuv & Suv).
    destruct d as [|[|[|d]]]; [| | |lia].
    + apply Vs. lia.
    + rewrite E1. cbn [bind]. rewrite Esu. cbn [bind]. rewrite Esv. cbn [bind]. eexists. split; [reflexivity|].
      intros i. unfold padd, pscal. nsimp. rewrite Su, Sv, !C1. unfold x1, y1. ring.
    + rewrite E1. cbn [bind]. rewrite E2. cbn [bind]. rewrite Esu. cbn [bind]. rewrite Esv. cbn [bind].
      rewrite Esuu. cbn [bind]. rewrite Esvv. cbn [bind]. rewrite Esuv. cbn [bind]. eexists. split; [reflexivity|].
      intros i. unfold padd, pscal. nsimp. rewrite Su, Sv, Suu, Svv, Suv, !C1, !C2. fold x1 y1 x2.
      specialize (Heq u Hu). fold x2 y2 in Heq. rewrite <- Heq. ring.
  - intros u d i Hu Hd.
    assert (X1 : derivable_pt_lim x u (x1 u)) by (apply Dg; [exact Hu|lia]). assert (Y1 : derivable_pt_lim y u (y1 u)) by (apply Dg; [exact Hu|lia]).
    assert (X2 : derivable_pt_lim x1 u (x2 u)) by (apply Dg; [exact Hu|lia]). assert (Y2 : derivable_pt_lim y1 u (y2 u)) by (apply Dg; [exact Hu|lia]).
    destruct d as [|[|d]]; [| |lia].
    + apply chain2; [exact X1|exact Y1|apply Ds; lia].
    + apply (derivable_pt_lim_plus (fun u => F 1%nat 0%nat i (x u) (y u) * x1 u) (fun u => F 0%nat 1%nat i (x u) (y u) * y1 u)).
      * apply (derivable_pt_lim_mult (fun u => F 1%nat 0%nat i (x u) (y u)) x1); [|exact X2]. apply chain2; [exact X1|exact Y1|apply Ds; lia].
      * apply (derivable_pt_lim_mult (fun u => F 0%nat 1%nat i (x u) (y u)) y1); [|exact Y2]. apply chain2; [exact X1|exact Y1|apply Ds; lia].
Qed.

Lemma on_surface_high (g : gcurve R) s u d uv : (3 <= d)%nat -> g_value g u 0 = Ok uv -> g_value (on_surface g s) u d = Throw RuntimeError.
Proof. intros H E. unfold on_surface; cbn [g_value]. rewrite E. cbn [bind]. destruct d as [|[|[|d]]]; [lia|lia|lia|reflexivity]. Qed.
End AtR.
