(** Data for the theorems on the surface tools. *)
From Coq Require Import List Arith ZArith Reals Lia Lra Bool.
From Verif Require Import Model_Base Spec_Base Spec_Basis Spec_Knots Spec_Eval Spec_Surface Spec_Interp Spec_Solve Spec_Elevate Spec_Unify Spec_Curve Spec_Gordon Spec_Connect Spec_Build Spec_Stools
  Model_Basis Model_Knots Model_Curve Model_Surface Model_Elevate Model_Unify Model_Interp Model_Gordon Model_Connect Model_Stools
  Proof_Base Proof_Basis Proof_Eval Proof_Insert Proof_Curve Proof_Trim Proof_PropBasis Proof_Ctor
  Proof_Knots Proof_Builders Proof_Elevate2 Proof_Elevate3 Proof_Elevate4 Proof_Elevate6 Proof_Unify Proof_Unify2 Proof_Unify3 Proof_Unify4 Proof_Unify5
  Proof_Join Proof_Join2 Proof_Json Proof_SurfEdit2 Proof_Blossom
  Proof_Interp Proof_Interp3 Proof_Interp4 Proof_Surface Proof_SurfEdit Proof_Skin1 Proof_Gordon1 Proof_Gordon2 Proof_Gordon4 Proof_Connect3 Proof_Connect4 Proof_Connect5 Proof_Gauss Proof_PropConnect
  Proof_Stools1 Proof_Stools2 Proof_Stools3 Proof_Stools4 Proof_Stools5.
Import ListNotations.
Local Open Scope R_scope.

Section AtR.
Variable eps : R.
Local Hint Extern 0 (Num R) => exact (NumR eps) : typeclass_instances.
Hypothesis He : 0 < eps.

(** A ruled surface has the curve at the distance l. *)
Lemma offset_returns ldlt norm dim s l : complete_solver ldlt -> csurf eps s -> s_degV s = 1%nat -> length (s_kv s) = 4%nat ->
  (forall v, s_v1 s <= v <= s_v2 s -> exists t, surf_value s (s_u2 s) v 1 0 = Ok t /\ norm t <> 0) ->
  exists c, offset_curve ldlt norm dim s l = Ok c.
Proof.
  intros (Hex & Hco) H Dq Lk Hs. destruct (csurf_bounds eps He s H) as (B1 & B2 & B3 & B4 & B5 & B6). pose proof H as (Oks & _ & CU & CV & D1 & D2). pose proof Oks as (KU & KV & _).
  pose proof KV as (LV & HV & NV & _). assert (Nv : s_nV s = 2%nat) by lia.
  unfold offset_curve. rewrite (nPolesV_ok s Oks), Nv, Dq. cbn [bind]. set (np := (2 * 10)%nat).
  assert (Hn1 : INR np - 1 = 19) by (unfold np; simpl; lra).
  pose (vi := fun i => s_v1 s + (s_v2 s - s_v1 s) * INR i / 19).
  rewrite (mapM_fun _ vi).
  2:{ intros i _. rewrite (divc_ok eps) by (rewrite nofnat_R; nsimp; rewrite Hn1; lra). cbn [bind]. nsimp. rewrite !nofnat_R, Hn1. reflexivity. }
  cbn [bind]. set (vs := map vi (seq 0 np)).
  assert (Hvr : forall x, In x vs -> s_v1 s <= x <= s_v2 s).
  { intros x Hx. apply in_map_iff in Hx as (i & <- & Hi). apply in_seq in Hi. unfold vi.
    assert (0 <= INR i <= 19) by (split; [apply pos_INR|]; replace 19 with (INR 19) by (simpl; lra); apply le_INR; unfold np in Hi; lia).
    split; [assert (0 <= (s_v2 s - s_v1 s) * INR i) by (apply Rmult_le_pos; lra); lra|]. assert ((s_v2 s - s_v1 s) * INR i <= (s_v2 s - s_v1 s) * 19) by (apply Rmult_le_compat_l; lra). lra. }
  destruct (mapM_all_ok (fun v => let* q := surf_value s (s_u2 s) v 0 0 in let* t := surf_value s (s_u2 s) v 1 0 in let* t0 := pdiv t (norm t) in Ok (padd q (pscal l t0))) vs) as (pts & Ep).
  { intros v Hv. apply Hvr in Hv. destruct (surf_at eps He s (s_u2 s) v 0 0 H ltac:(lra) Hv) as (a & -> & _). cbn [bind].
    destruct (Hs v Hv) as (t & -> & Ht). cbn [bind]. unfold pdiv. rewrite (divc_ok eps) by exact Ht. cbn [bind]. eauto. }
  rewrite Ep. cbn [bind]. assert (Lp : @length (pt R) pts = np).
  { destruct (mapM_nth _ _ _ 0 (fun _ => 0) Ep) as (Lp & _). refine (eq_trans Lp _). unfold vs. rewrite map_length, seq_length. reflexivity. }
  assert (Lvs : length vs = np) by (unfold vs; rewrite map_length, seq_length; reflexivity).
  unfold approx_bound_fixed, check_approx_sizes. rewrite Lp. change (2 <? 1 + 1)%nat with false. change (np <? 2)%nat with false. cbn match. cbn [bind].
  assert (Hin : forall x, In x vs -> inside (s_kv s) 2 1 x).
  { intros x Hx. apply Hvr in Hx. pose proof (csurf_span eps He s x H Hx) as Z. rewrite Nv, Dq in Z. exact Z. }
  assert (KV' : knots_ok (s_kv s) 2 1) by (rewrite Nv, Dq in KV; exact KV).
  pose proof (ev2_2 _ _ _ _ _ _ _ (csurf_ev eps s H)) as Hev. rewrite Nv, Dq in Hev.
  destruct (inner_rows_ok eps (s_kv s) 2 1 KV' Hev vs ltac:(rewrite Lvs; unfold np; lia) Hin) as (N & EN & R1 & C1 & _). rewrite EN. cbn [bind].
  change (subi 2 2) with (@Ok nat 0%nat). cbn [bind].
  destruct pts as [|p0 pts]; [discriminate|]. cbn [front bind].
  rewrite (back_nth (p0 :: pts) (fun _ => 0)) by (cbn; lia). cbn [bind]. change (subi np 2) with (@Ok nat 18%nat). cbn [bind].
  rewrite Lvs in R1. change (np - 2)%nat with 18%nat in R1.
  match goal with |- context [mapM ?F (seq 0 dim)] => destruct (mapM_all_ok F (seq 0 dim)) as (X & EX) end.
  { intros d _. match goal with |- context [mapM ?F (seq 0 18)] => destruct (mapM_all_ok F (seq 0 18)) as (b & Eb) end.
    { intros i Hi. apply in_seq in Hi. rewrite (get_nth (p0 :: pts) (i + 1) (fun _ => 0)) by (cbn [length] in *; unfold np in Lp; lia). cbn [bind].
      unfold mget. rewrite R1, C1. destruct (Nat.ltb_spec i 18); [|lia]. cbn [andb Nat.ltb Nat.leb Nat.sub bind]. eexists. reflexivity. }
    rewrite Eb. cbn [bind]. destruct (mapM_nth _ _ _ 0%nat 0 Eb) as (Lb & _). rewrite seq_length in Lb.
    unfold solve_approx_banded. cbn [m_rows]. rewrite Lb, R1, Nat.eqb_refl. apply Hco; [reflexivity|reflexivity|]. intros x _ j Hj. cbn in Hj. lia. }
  rewrite EX. cbn [bind]. eexists. apply (mk_curve_accepts eps).
  - rewrite Lk. reflexivity.
  - cbn. lia.
  - exact NV.
Qed.
End AtR.

(** A piece of surface, and the one that follows it. *)
Definition lit_next : surf R :=
  mks 1 1 [pt2 4 1; pt2 6 1; pt2 4 8; pt2 6 9] [3; 3; 4; 4] [0; 0; 1; 1] 3 4 0 1.
Lemma lit_surf_clamped : clamped_surface (1 / 10) lit_surf.
Proof.
  exists [0; 1; 2], [3; 1; 3]%nat, [0; 1], [2; 2]%nat. split; [exact lit_k1|]. split; [exact lit_k2|].
  repeat (split; [reflexivity|]). cbn. lia.
Qed.
Lemma lit_next_clamped : clamped_surface (1 / 10) lit_next.
Proof.
  exists [3; 4], [2; 2]%nat, [0; 1], [2; 2]%nat. split.
  { split; [reflexivity|]. split; [simpl; lia|]. split; [|split; [reflexivity|split; [reflexivity|]]].
    - intros i Hi. simpl in Hi. destruct i as [|i]; [|lia]. unfold kn. simpl. lra.
    - intros i Hi. simpl in Hi. lia. }
  split; [exact lit_k2|]. repeat (split; [reflexivity|]). cbn. lia.
Qed.
Lemma lit_rv y d j : 0 <= y <= 1 -> (j < 2)%nat -> rv (1 / 10) [0; 0; 1; 1] 2 1 y d j =
  match d with 0%nat => match j with 0%nat => 1 - y | _ => y end | 1%nat => match j with 0%nat => -1 | _ => 1 end | _ => 0 end.
Proof.
  intros Hy Hj. assert (K : knots_ok [0; 0; 1; 1] 2 1) by (apply (ck_knots_ok 1 [0; 1] [2; 2]%nat), (ck_ckn (1 / 10)); [lra|exact lit_k2]).
  destruct (spn_ok (1 / 10) _ 2 1 K y) as (_ & Z & _ & _); [unfold inside, kn; simpl; lra|].
  unfold rv. assert (spn (1 / 10) [0; 0; 1; 1] 2 1 y = 1%nat) as -> by lia.
  destruct d as [|[|d]]; [| |rewrite ffall_big by lia; destruct (j <=? 1)%nat; ring].
  all: destruct j as [|[|j]]; [| |lia]; unfold kn; simpl; unfold Rdiv; rewrite ?Rminus_0_r, ?Rinv_1; ring.
Qed.
Lemma lit_rv_end d j : (d <= 1)%nat -> (j < 4)%nat -> rv (1 / 10) [0; 0; 0; 1; 2; 2; 2] 4 2 2 d j =
  match d with 0%nat => match j with 3%nat => 1 | _ => 0 end | _ => match j with 2%nat => -2 | 3%nat => 2 | _ => 0 end end.
Proof.
  intros Hd Hj. assert (K : knots_ok [0; 0; 0; 1; 2; 2; 2] 4 2) by (apply (ck_knots_ok 2 [0; 1; 2] [3; 1; 3]%nat), (ck_ckn (1 / 10)); [lra|exact lit_k1]).
  destruct (spn_ok (1 / 10) _ 4 2 K 2) as (_ & Z & Z1 & _); [unfold inside, kn; simpl; lra|].
  unfold rv. assert (spn (1 / 10) [0; 0; 0; 1; 2; 2; 2] 4 2 2 = 3%nat) as ->.
  { destruct (Nat.eq_dec (spn (1 / 10) [0; 0; 0; 1; 2; 2; 2] 4 2 2) 2) as [E|E]; [|lia]. rewrite E in Z1. destruct Z1 as [Z1|(_ & Z1)]; [unfold kn in Z1; simpl in Z1; lra|lia]. }
  destruct d as [|[|d]]; [| |lia].
  all: destruct j as [|[|[|[|j]]]]; [| | | |lia]; unfold kn; simpl; repeat (rewrite ?Rmult_0_r, ?Rmult_0_l, ?Rplus_0_l, ?Rplus_0_r); try field; try reflexivity.
Qed.
Lemma lit_end v : 0 <= v <= 1 -> exists a t, @surf_value R (NumR (1 / 10)) lit_surf 2 v 0 0 = Ok a /\ @surf_value R (NumR (1 / 10)) lit_surf 2 v 1 0 = Ok t /\
  a 0%nat = 4 /\ a 1%nat = 1 + 7 * v /\ t 0%nat = 2 /\ t 1%nat = 2.
Proof.
  intros Hv. pose proof (proj2 (cs_clamped (1 / 10) ltac:(lra) lit_surf) lit_surf_clamped) as C.
  assert (Hin : in_surface lit_surf 2 v) by (apply (csurf_dom (1 / 10) ltac:(lra) _ _ _ C); simpl; lra).
  destruct (csurf_value (1 / 10) lit_surf 2 v 0 0 ltac:(lra) C Hin) as (a & Ea & _ & Va).
  destruct (csurf_value (1 / 10) lit_surf 2 v 1 0 ltac:(lra) C Hin) as (t & Et & _ & Vt).
  exists a, t. split; [exact Ea|]. split; [exact Et|]. rewrite !Va, !Vt.
  change (s_nV lit_surf) with 2%nat. change (s_nU lit_surf) with 4%nat. change (s_kv lit_surf) with [0; 0; 1; 1]. change (s_ku lit_surf) with [0; 0; 0; 1; 2; 2; 2].
  change (s_degU lit_surf) with 2%nat. change (s_degV lit_surf) with 1%nat.
  cbn [sumn]. rewrite !lit_rv, !lit_rv_end by (lia || lra). unfold pole, lit_surf, pt2; cbn -[IZR]. repeat split; ring.
Qed.
Lemma lit_meet : meet_along (1 / 10) 2 lit_surf lit_next.
Proof.
  intros v Hv. cbn in Hv. destruct (lit_end v Hv) as (a & t & Ea & _ & A0 & A1 & _).
  pose proof (proj2 (cs_clamped (1 / 10) ltac:(lra) lit_next) lit_next_clamped) as C.
  assert (K : knots_ok [0; 0; 1; 1] 2 1) by (apply (ck_knots_ok 1 [0; 1] [2; 2]%nat), (ck_ckn (1 / 10)); [lra|exact lit_k2]).
  destruct (csurf_value (1 / 10) lit_next 3 v 0 0 ltac:(lra) C) as (z & Ez & _ & Vz); [apply (csurf_dom (1 / 10) ltac:(lra) _ _ _ C); simpl; lra|].
  exists a, z. split; [exact Ea|]. split; [exact Ez|]. intros c Hc. rewrite Vz.
  destruct (spn_ok (1 / 10) [0; 0; 1; 1] 2 1 K v) as (_ & Z & Sp & _); [unfold inside, kn; simpl; lra|].
  destruct (edge_start (1 / 10) ltac:(lra) lit_next v c 1 C Hv ltac:(cbn; lia)) as (z' & Ez' & Vz').
  { assert (E1 : spn (1 / 10) [0; 0; 1; 1] 2 1 v = 1%nat) by lia. rewrite E1 in Sp. exact Sp. }
  cbn [s_u1 lit_next] in Ez'. rewrite Ez in Ez'. injection Ez' as <-. rewrite <- Vz, Vz'. unfold PS, lit_next, pole, kn.
  destruct c as [|[|c]]; [rewrite A0|rewrite A1|lia]; cbn -[IZR]; unfold pt2; cbn -[IZR]; unfold Rdiv; rewrite ?Rminus_0_r, ?Rinv_1; ring.
Qed.
Lemma lit_pair : clamped_surface (1 / 10) lit_surf /\ clamped_surface (1 / 10) lit_next /\ s_kv lit_surf = s_kv lit_next /\
  (1 <= Nat.max (s_degU lit_surf) (s_degU lit_next))%nat /\
  countable (length (s_ku lit_surf) + length (s_ku lit_next)) (length (s_kv lit_surf)) /\ meet_along (1 / 10) 2 lit_surf lit_next.
Proof.
  split; [exact lit_surf_clamped|]. split; [exact lit_next_clamped|]. split; [reflexivity|]. split; [cbn; lia|]. split; [reflexivity|exact lit_meet].
Qed.

Lemma norm_2_val (t : pt R) : t 0%nat = 2 -> t 1%nat = 2 -> norm_2 t = sqrt 8.
Proof. intros A B. unfold norm_2; cbn [sqlen]. rewrite A, B. f_equal. ring. Qed.
Lemma sqrt8 : 0 < sqrt 8.
Proof. apply sqrt_lt_R0. lra. Qed.

(** The extension by sqrt 8, which is 1 in the parameter. *)
Lemma lit_offset : complete_solver gauss /\ exact_solver gauss /\ (1 <= s_degU lit_surf)%nat /\ (1 <= s_degV lit_surf)%nat /\
  exists c, @offset_curve R (NumR (1 / 10)) gauss norm_2 2 lit_surf (sqrt 8) = Ok c /\ along_v lit_surf c /\ mean_length (1 / 10) norm_2 lit_surf c 2 1 /\
    1 / 10 * INR (s_degU lit_surf) < 1 /\ countable (3 * length (s_ku lit_surf)) (3 * length (s_kv lit_surf)).
Proof.
  split; [exact gauss_complete|]. split; [exact (proj1 gauss_complete)|]. split; [cbn; lia|]. split; [cbn; lia|].
  pose proof (proj2 (cs_clamped (1 / 10) ltac:(lra) lit_surf) lit_surf_clamped) as C.
  destruct (offset_returns (1 / 10) ltac:(lra) gauss norm_2 2 lit_surf (sqrt 8) gauss_complete C eq_refl eq_refl) as (c & Ec).
  { intros v Hv. destruct (lit_end v Hv) as (a & t & _ & Et & _ & _ & T0 & T1). exists t. split; [exact Et|]. rewrite (norm_2_val t T0 T1). pose proof sqrt8. lra. }
  exists c. split; [exact Ec|].
  destruct (offset_ok (1 / 10) ltac:(lra) gauss norm_2 2 lit_surf (sqrt 8) c (proj1 gauss_complete) C ltac:(cbn; lia) Ec) as (Al & Hend).
  split; [exact Al|]. split; [|split; [cbn; lra|reflexivity]].
  exists (fun _ => 1). split; [cbn [sumn]; simpl INR; field|].
  intros i Hi v.
  assert (Hv : v = s_v1 lit_surf \/ v = s_v2 lit_surf).
  { unfold v. destruct i as [|[|i]]; [left|right|lia]; cbn; field. }
  destruct (Hend v Hv) as (a & t & Ea & Et & Nt & z & Ez & Vz). exists a, t, z. split; [exact Ea|]. split; [exact Et|]. split; [exact Ez|]. split; [exact Nt|].
  destruct (lit_end v) as (a' & t' & Ea' & Et' & _ & _ & T0 & T1). { destruct Hv as [-> | ->]; cbn; lra. }
  cbn [s_u2 lit_surf] in Et. rewrite Et in Et'. injection Et' as <-. rewrite (norm_2_val t T0 T1) in *. pose proof sqrt8 as S8.
  assert (Nd : norm_2 (fun c0 => a c0 - z c0) = sqrt 8).
  { unfold norm_2; cbn [sqlen]. rewrite !Vz, T0, T1. f_equal. field. lra. }
  rewrite Nd. field. lra.
Qed.

(** At the start in u, by 10. *)
Lemma lit_rv_start j : (j < 4)%nat -> rv (1 / 10) [0; 0; 0; 1; 2; 2; 2] 4 2 0 1 j = match j with 0%nat => -2 | 1%nat => 2 | _ => 0 end.
Proof.
  intros Hj. assert (K : knots_ok [0; 0; 0; 1; 2; 2; 2] 4 2) by (apply (ck_knots_ok 2 [0; 1; 2] [3; 1; 3]%nat), (ck_ckn (1 / 10)); [lra|exact lit_k1]).
  destruct (spn_ok (1 / 10) _ 4 2 K 0) as (_ & Z & Z1 & _); [unfold inside, kn; simpl; lra|].
  unfold rv. assert (spn (1 / 10) [0; 0; 0; 1; 2; 2; 2] 4 2 0 = 2%nat) as ->.
  { destruct (Nat.eq_dec (spn (1 / 10) [0; 0; 0; 1; 2; 2; 2] 4 2 0) 3) as [E|E]; [|lia]. rewrite E in Z1. destruct Z1 as [Z1|(Z1 & _)]; unfold kn in Z1; simpl in Z1; lra. }
  destruct j as [|[|[|[|j]]]]; [| | | |lia]; unfold kn; simpl; repeat (rewrite ?Rmult_0_r, ?Rmult_0_l, ?Rplus_0_l, ?Rplus_0_r); try field; try reflexivity.
Qed.
Lemma lit_start v : 0 <= v <= 1 -> exists t, @surf_value R (NumR (1 / 10)) lit_surf 0 v 1 0 = Ok t /\ t 0%nat = 2 /\ t 1%nat = 4 - 2 * v.
Proof.
  intros Hv. pose proof (proj2 (cs_clamped (1 / 10) ltac:(lra) lit_surf) lit_surf_clamped) as C.
  assert (Hin : in_surface lit_surf 0 v) by (apply (csurf_dom (1 / 10) ltac:(lra) _ _ _ C); simpl; lra).
  destruct (csurf_value (1 / 10) lit_surf 0 v 1 0 ltac:(lra) C Hin) as (t & Et & _ & Vt).
  exists t. split; [exact Et|]. rewrite !Vt.
  change (s_nV lit_surf) with 2%nat. change (s_nU lit_surf) with 4%nat. change (s_kv lit_surf) with [0; 0; 1; 1]. change (s_ku lit_surf) with [0; 0; 0; 1; 2; 2; 2].
  change (s_degU lit_surf) with 2%nat. change (s_degV lit_surf) with 1%nat.
  cbn [sumn]. rewrite !lit_rv, !lit_rv_start by (lia || lra). unfold pole, lit_surf, pt2; cbn -[IZR]. split; ring.
Qed.
Lemma norm_2_bounds (t : pt R) v : 0 <= v <= 1 -> t 0%nat = -2 -> t 1%nat = - (4 - 2 * v) -> 0 < norm_2 t <= 5.
Proof.
  intros Hv A B. unfold norm_2. cbn [sqlen]. rewrite A, B. split; [apply sqrt_lt_R0; nra|].
  replace 5 with (sqrt 25) by (replace 25 with (5 * 5) by ring; apply sqrt_square; lra). apply sqrt_le_1; nra.
Qed.
Lemma lit_offset_start : exists s' c L, turned (1 / 10) UStart lit_surf s' /\ @offset_curve R (NumR (1 / 10)) gauss norm_2 2 s' 10 = Ok c /\ mean_length (1 / 10) norm_2 s' c 2 L /\
    1 / 10 * INR (s_degU s') < L.
Proof.
  pose proof (proj2 (cs_clamped (1 / 10) ltac:(lra) lit_surf) lit_surf_clamped) as C.
  destruct (csurf_reverse (1 / 10) ltac:(lra) lit_surf C) as (s' & E & C' & D1 & D2 & K & _ & U1 & U2 & V1 & V2 & Hm & Hd); clear Hm.
  cbn [lit_surf s_u1 s_u2 s_v1 s_v2 s_degU s_degV s_kv] in *. fold lit_surf in *.
  assert (Sp : forall v, 0 <= v <= 1 -> exists t, @surf_value R (NumR (1 / 10)) s' (s_u2 s') v 1 0 = Ok t /\ 0 < norm_2 t <= 5).
  { intros v Hv. destruct (Hd v Hv) as (z & z' & Z1 & Z2 & Z3). destruct (lit_start v Hv) as (t & Et & T0 & T1). cbn [s_u1] in *. rewrite Et in Z1. injection Z1 as <-.
    exists z'. split; [rewrite U2; exact Z2|]. apply (norm_2_bounds z' v Hv); rewrite Z3, ?T0, ?T1; ring. }
  destruct (offset_returns (1 / 10) ltac:(lra) gauss norm_2 2 s' 10 gauss_complete C' D2 ltac:(rewrite K; reflexivity)) as (c & Ec).
  { intros v Hv. rewrite V1, V2 in Hv. destruct (Sp v Hv) as (t & Et & Ht). exists t. split; [exact Et|lra]. }
  destruct (offset_ok (1 / 10) ltac:(lra) gauss norm_2 2 s' 10 c (proj1 gauss_complete) C' ltac:(lia) Ec) as (_ & Hend).
  destruct (Hend 0 ltac:(left; lra)) as (a0 & t0 & A0 & T0 & N0 & z0 & Z0 & W0). destruct (Hend 1 ltac:(right; lra)) as (a1 & t1 & A1 & T1 & N1 & z1 & Z1 & W1).
  destruct (Sp 0 ltac:(lra)) as (t0' & T0' & S0). rewrite T0 in T0'. injection T0' as <-. destruct (Sp 1 ltac:(lra)) as (t1' & T1' & S1). rewrite T1 in T1'. injection T1' as <-.
  assert (Nd : forall a t z : pt R, 0 < norm_2 t -> (forall i, z i = a i + 10 * (t i / norm_2 t)) -> norm_2 (fun c0 => a c0 - z c0) = 10).
  { intros a t z Nt Hz. assert (Q : norm_2 t * norm_2 t = sqlen 2 t) by (unfold norm_2; apply sqrt_sqrt; cbn [sqlen]; nra).
    unfold norm_2 at 1. replace 10 with (sqrt (10 * 10)) by (apply sqrt_square; lra). f_equal. cbn [sqlen] in *. rewrite !Hz.
    replace (10 * 10) with (100 * ((norm_2 t * norm_2 t) / (norm_2 t * norm_2 t))) by (field; lra). rewrite Q at 1. field. lra. }
  exists s', c, (10 / norm_2 t0 / 2 + 10 / norm_2 t1 / 2). split; [exact E|]. split; [exact Ec|]. split.
  - exists (fun i => match i with 0%nat => 10 / norm_2 t0 | _ => 10 / norm_2 t1 end). split; [cbn [sumn]; simpl INR; field; lra|].
    intros i Hi. destruct i as [|[|i]]; [| |lia]; rewrite V1, V2; cbv zeta.
    + replace (0 + (1 - 0) * INR 0 / (INR 2 - 1)) with 0 by (simpl; field). exists a0, t0, z0. repeat (split; [assumption|]). rewrite (Nd a0 t0 z0) by (lra || exact W0). reflexivity.
    + replace (0 + (1 - 0) * INR 1 / (INR 2 - 1)) with 1 by (simpl; field). exists a1, t1, z1. repeat (split; [assumption|]). rewrite (Nd a1 t1 z1) by (lra || exact W1). reflexivity.
  - rewrite D1. simpl INR. assert (B : forall x, 0 < x <= 5 -> 2 <= 10 / x).
    { intros x Hx. apply (Rmult_le_reg_r x); [lra|]. unfold Rdiv. rewrite Rmult_assoc, Rinv_l by lra. lra. }
    pose proof (B _ S0). pose proof (B _ S1). lra.
Qed.

Definition lit_turned : surf R :=
  mks 1 2 [pt2 0 0; pt2 1 2; pt2 3 0; pt2 4 1; pt2 0 5; pt2 1 6; pt2 3 7; pt2 4 8] [0; 0; 1; 1] [0; 0; 0; 1; 2; 2; 2] 0 1 0 2.
Lemma lit_tenth : 0 < 1 / 10.
Proof. lra. Qed.
Lemma lit_other : 0 < 1 / 10 /\ clamped_surface (1 / 10) lit_surf /\ clamped_surface (1 / 10) lit_turned /\ length (s_kv lit_surf) <> length (s_kv lit_turned) /\
  countable (length (s_ku lit_surf) + length (s_ku lit_turned)) (length (s_kv lit_surf) + length (s_kv lit_turned)).
Proof.
  split; [exact lit_tenth|]. split; [exact lit_surf_clamped|]. split; [|split; [discriminate|reflexivity]].
  exists [0; 1], [2; 2]%nat, [0; 1; 2], [3; 1; 3]%nat. split; [exact lit_k2|]. split; [exact lit_k1|].
  repeat (split; [reflexivity|]). cbn. lia.
Qed.
Lemma lit_cut_u : 0 < 1 / 10 /\ clamped_surface (1 / 10) lit_surf /\ (1 <= s_degU lit_surf)%nat /\ s_u1 lit_surf < 1 < s_u2 lit_surf.
Proof. split; [exact lit_tenth|]. split; [exact lit_surf_clamped|]. split; [cbn; lia|cbn; lra]. Qed.
Lemma lit_cut_v : 0 < 1 / 10 /\ clamped_surface (1 / 10) lit_surf /\ (1 <= s_degV lit_surf)%nat /\ s_v1 lit_surf < 1 / 2 < s_v2 lit_surf.
Proof. split; [exact lit_tenth|]. split; [exact lit_surf_clamped|]. split; [cbn; lia|cbn; lra]. Qed.
Definition lit_short : curve R := mk 0 [pt2 10 4] [0; 1] 0 1.
Lemma lit_short_ok : (length (c_poles lit_short) + s_degV lit_surf + 1 < length (s_kv lit_surf))%nat /\ exists L,
  mean_length (1 / 10) norm_2 lit_surf lit_short 2 L /\ 1 / 10 * INR (s_degU lit_surf) < L.
Proof.
  split; [cbn; lia|].
  assert (K : knots_ok [0; 1] 1 0).
  { split; [reflexivity|]. split; [lia|]. split; [|unfold kn; simpl; lra].
    intros i j Hi Hj. simpl in Hj. destruct i as [|[|i]], j as [|[|j]]; try lia; unfold kn; simpl; lra. }
  assert (Vc : forall v, 0 <= v <= 1 -> exists z, @value R (NumR (1 / 10)) lit_short v 0 = Ok z /\ forall i, z i = pt2 10 4 i).
  { intros v Hv. destruct (rv_eval (1 / 10) [0; 1] 1 0 K v 0 [pt2 10 4]) as (z & E & V); [unfold inside, kn; simpl; lra|reflexivity|left; unfold stack_max; lia|].
    exists z. split; [rewrite (value_guard_eval (1 / 10)) by (simpl; lra); exact E|]. intros i. rewrite V. cbn [sumn].
    destruct (spn_ok (1 / 10) [0; 1] 1 0 K v) as (_ & Z & _ & _); [unfold inside, kn; simpl; lra|].
    unfold rv. assert (spn (1 / 10) [0; 1] 1 0 v = 0%nat) as -> by lia. unfold polec; cbn. ring. }
  destruct (lit_end 0 ltac:(lra)) as (a0 & t0 & A0 & T0 & X0 & Y0 & P0 & Q0). destruct (lit_end 1 ltac:(lra)) as (a1 & t1 & A1 & T1 & X1 & Y1 & P1 & Q1).
  destruct (Vc 0 ltac:(lra)) as (z0 & Z0 & W0). destruct (Vc 1 ltac:(lra)) as (z1 & Z1 & W1).
  pose proof sqrt8 as S8.
  exists (norm_2 (fun c => a0 c - z0 c) / norm_2 t0 / 2 + norm_2 (fun c => a1 c - z1 c) / norm_2 t1 / 2). split.
  - exists (fun i => match i with 0%nat => norm_2 (fun c => a0 c - z0 c) / norm_2 t0 | _ => norm_2 (fun c => a1 c - z1 c) / norm_2 t1 end).
    split; [cbn [sumn]; simpl INR; rewrite (norm_2_val t0), (norm_2_val t1) by assumption; field; lra|].
    intros i Hi. destruct i as [|[|i]]; [| |lia]; cbn [s_v1 s_v2 lit_surf]; cbv zeta.
    + replace (0 + (1 - 0) * INR 0 / (INR 2 - 1)) with 0 by (simpl; field). exists a0, t0, z0. repeat (split; [assumption|]). split; [rewrite (norm_2_val t0) by assumption; lra|reflexivity].
    + replace (0 + (1 - 0) * INR 1 / (INR 2 - 1)) with 1 by (simpl; field). exists a1, t1, z1. repeat (split; [assumption|]). split; [rewrite (norm_2_val t1) by assumption; lra|reflexivity].
  - rewrite (norm_2_val t0), (norm_2_val t1) by assumption.
    assert (S3 : sqrt 8 <= 3) by (replace 3 with (sqrt 9) by (replace 9 with (3 * 3) by ring; apply sqrt_square; lra); apply sqrt_le_1; lra).
    assert (N0 : 6 <= norm_2 (fun c => a0 c - z0 c)).
    { unfold norm_2. cbn [sqlen]. rewrite !W0, X0, Y0. unfold pt2. replace 6 with (sqrt (6 * 6)) by (apply sqrt_square; lra). apply sqrt_le_1; nra. }
    assert (N1 : 6 <= norm_2 (fun c => a1 c - z1 c)).
    { unfold norm_2. cbn [sqlen]. rewrite !W1, X1, Y1. unfold pt2. replace 6 with (sqrt (6 * 6)) by (apply sqrt_square; lra). apply sqrt_le_1; nra. }
    assert (B : forall x, 6 <= x -> 2 <= x / sqrt 8).
    { intros x Hx. apply (Rmult_le_reg_r (sqrt 8)); [lra|]. unfold Rdiv. rewrite Rmult_assoc, Rinv_l by lra. lra. }
    pose proof (B _ N0). pose proof (B _ N1). cbn [s_degU lit_surf]. simpl INR. lra.
Qed.
