(** Hypotheses of C87 are met: a circle, a saddle. *)
From Coq Require Import List Arith ZArith Reals Lia Lra Bool.
From Verif Require Import Model_Base Model_Knots Model_Curve Model_Vec Model_Math Model_Wrap Model_Interp Model_Surface Model_Skin Model_Offset
  Spec_Base Spec_Basis Spec_Build Spec_Knots Spec_Eval Spec_Interp Spec_Solve Spec_Surface Spec_Approx Spec_Analysis Spec_Offset Proof_Eval
  Proof_Base Proof_Blossom Proof_Build Proof_Interp Proof_Skin1 Proof_Gauss Proof_Lsq Proof_PropApprox Proof_Json Proof_Analysis4 Proof_Offset.
Import ListNotations.
Local Open Scope R_scope.

Definition circle_ders (d : nat) (u : R) : pt R := match d with
  | 0%nat => point3 (cos u) (sin u) 0 | 1%nat => point3 (- sin u) (cos u) 0 | 2%nat => point3 (- cos u) (- sin u) 0
  | _ => point3 (sin u) (- cos u) 0 end.
Definition growing : nat -> R -> R := fun d x => match d with 0%nat => 1 + x * x | 1%nat => 2 * x | _ => 2 end.

Lemma lit_plane : smooth_curve 2 (g_value circle3) circle_ders 3 0 (2 * PI) /\ smooth_scalar (fun x d => Ok (growing d x)) growing 2 0 (2 * PI) /\
  forall x, 0 < sqlen 2 (circle_ders 1 x).
Proof.
  split; [|split].
  - intros x d _ Hd. split; [destruct d as [|[|[|d]]]; reflexivity|]. intros H i Hi.
    destruct d as [|[|[|d]]]; [| | |lia]; (destruct i as [|[|i]]; [| |lia]); cbn.
    + apply derivable_pt_lim_cos.
    + apply derivable_pt_lim_sin.
    + apply (derivable_pt_lim_opp sin). apply derivable_pt_lim_sin.
    + apply derivable_pt_lim_cos.
    + apply (dlim_eq x _ (- - sin x)); [|ring]. apply (derivable_pt_lim_opp cos). apply derivable_pt_lim_cos.
    + apply (derivable_pt_lim_opp sin). apply derivable_pt_lim_sin.
  - intros x d _ Hd. split; [reflexivity|]. intros H. destruct d as [|[|d]]; [| |lia]; cbn.
    + apply (dlim_eq x _ (0 + (1 * x + x * 1))); [|ring].
      apply (derivable_pt_lim_plus (fun _ => 1) (fun x => x * x)); [apply derivable_pt_lim_const|].
      apply (derivable_pt_lim_mult id id); apply derivable_pt_lim_id.
    + apply (dlim_eq x _ (2 * 1)); [|ring]. apply (derivable_pt_lim_scal id). apply derivable_pt_lim_id.
  - intros x. cbn. pose proof (sin2_cos2 x) as H. unfold Rsqr in H. nra.
Qed.

Lemma lit_space x : g_value circle3 x 0 = Ok (circle_ders 0 x) /\ g_value circle3 x 1 = Ok (circle_ders 1 x) /\
  0 < sqlen 3 (@cross R (NumR 0) (point3 0 0 1) (circle_ders 1 x)).
Proof. split; [reflexivity|]. split; [reflexivity|]. cbn. pose proof (sin2_cos2 x) as H. unfold Rsqr in H. nra. Qed.

Definition saddle : surf R := mks 1 1 [point3 0 0 0; point3 1 0 0; point3 0 1 0; point3 1 1 1] unit_knots unit_knots 0 1 0 1.
Local Hint Extern 0 (Num R) => exact (NumR (1 / 10)) : typeclass_instances.
Lemma unit_row u d j : 0 <= u <= 1 -> (j < 2)%nat ->
  rv (1 / 10) unit_knots 2 1 u d j = match d, j with 0%nat, 0%nat => 1 - u | 0%nat, _ => u | 1%nat, 0%nat => -1 | 1%nat, _ => 1 | _, _ => 0 end.
Proof.
  intros Hu Hj. destruct unit_ok as (Hk & _). unfold rv. destruct (spn_ok (1 / 10) unit_knots 2 1 Hk u) as (_ & Hs & _); [unfold Proof_Interp.inside, kn; cbn; exact Hu|].
  assert (Es : spn (1 / 10) unit_knots 2 1 u = 1%nat) by lia. rewrite Es.
  assert (Ej : (j <=? 1)%nat = true) by (apply Nat.leb_le; lia). rewrite Ej.
  destruct d as [|[|d]].
  - destruct j as [|[|j]]; [| |lia]; unfold kn; cbn; unfold Rdiv; rewrite ?Rmult_0_r; field.
  - destruct j as [|[|j]]; [| |lia]; unfold kn; cbn; unfold Rdiv; rewrite ?Rmult_0_r; field.
  - rewrite ffall_big by lia. ring.
Qed.
Lemma saddle_value u v du dv : 0 <= u <= 1 -> 0 <= v <= 1 -> exists z, surf_value saddle u v du dv = Ok z /\
  forall c, (c < 3)%nat -> z c = match du, dv with 0%nat, 0%nat => point3 u v (u * v) c | 1%nat, 0%nat => point3 1 0 v c | 0%nat, 1%nat => point3 0 1 u c | _, _ => z c end.
Proof.
  intros Hu Hv. destruct unit_ok as (Hk & Hev & _).
  destruct (surf_rv (1 / 10) unit_knots unit_knots 2 2 1 1 Hk Hk Hev (s_poles saddle) u v du dv eq_refl) as (z & Ez & Vz).
  { split; unfold kn; cbn; assumption. }
  exists z. split.
  - unfold surf_value, out_u, out_v. cbn [saddle s_u1 s_u2 s_v1 s_v2]. nsimp.
    repeat match goal with |- context [Rltb ?a ?b] => destruct (Rltb_spec a b); [try (exfalso; nsimp; lra)|] end. cbn [orb]. exact Ez.
  - intros c Hc. destruct du as [|[|du]], dv as [|[|dv]]; try reflexivity; rewrite Vz; cbn [sumn]; rewrite !unit_row by (assumption || lia);
      unfold pole, polec; cbn [Nat.add Nat.mul s_poles saddle nth]; destruct c as [|[|[|c]]]; try lia; cbn; ring.
Qed.
Lemma saddle_normal u v : 0 <= u <= 1 -> 0 <= v <= 1 -> exists p tu tv, surf_value saddle u v 0 0 = Ok p /\ surf_value saddle u v 1 0 = Ok tu /\ surf_value saddle u v 0 1 = Ok tv /\
  0 < sqlen 3 (cross tu tv).
Proof.
  intros Hu Hv. destruct (saddle_value u v 0 0 Hu Hv) as (p & E0 & _). destruct (saddle_value u v 1 0 Hu Hv) as (tu & E1 & H1). destruct (saddle_value u v 0 1 Hu Hv) as (tv & E2 & H2).
  exists p, tu, tv. do 3 (split; [assumption|]). cbn [sqlen cross]. nsimp. rewrite !(H1 0%nat), !(H1 1%nat), !(H1 2%nat), !(H2 0%nat), !(H2 1%nat), !(H2 2%nat) by lia. cbn. nra.
Qed.
Lemma saddle_offset : exists r, offset_approx sqrt gauss (fun u v => Ok (u + v)) saddle 3 3 = Ok r.
Proof.
  unfold offset_approx. cbn [saddle s_u1 s_u2 s_v1 s_v2 s_ku s_kv s_degU s_degV]. destruct (range_spread (1 / 10) 0 1 3 ltac:(lia)) as (u & Eu & Lu & Ku). rewrite Eu. cbn [bind].
  assert (Hu : forall x, In x u -> 0 <= x <= 1).
  { intros x Hx. apply (In_nth _ _ 0) in Hx as (i & Hi & <-). fold (kn u i). rewrite Ku by lia. apply Proof_Analysis2.spread_in; [lia|lra|lia]. }
  destruct (offset_points_returns (1 / 10) (fun u v => Ok (u + v)) (surf_value saddle) u u) as (pts & Ep).
  { intros a b Ha Hb. destruct (saddle_normal a b (Hu a Ha) (Hu b Hb)) as (p & tu & tv & E0 & E1 & E2 & Hc). exists p, tu, tv, (a + b). auto 10. }
  fold saddle. rewrite Ep. cbn [bind]. destruct (offset_points_ok (1 / 10) _ _ u u pts Ep) as (Lp & _). rewrite Lu in Lp.
  destruct unit_ok as (Hk & Hev & _ & Hr).
  assert (Er : u = three_params).
  { apply (nth_ext _ _ 0 0); [rewrite Lu; reflexivity|]. intros i Hi. rewrite Lu in Hi. fold (kn u i). rewrite Ku by exact Hi. unfold spread.
    destruct i as [|[|[|i]]]; [| | |lia]; cbn; field. }
  destruct (approx_grid_returns (1 / 10) unit_knots unit_knots 2 2 1 1 Hk Hk Hev gauss 3 pts u u gauss_complete) as (P & EP); try (rewrite ?Lp, ?Lu; cbn; lia).
  - intros x Hx. unfold kn. cbn. apply Hu. exact Hx.
  - intros x Hx. unfold kn. cbn. apply Hu. exact Hx.
  - rewrite Er. exact Hr.
  - rewrite Er. exact Hr.
  - rewrite EP. cbn [bind]. destruct (approx_grid_ok (1 / 10) unit_knots unit_knots 2 2 1 1 Hk Hk Hev gauss 3 pts u u P (proj1 gauss_complete)) with (3 := EP) as (LP & _);
      try (intros x Hx; unfold kn; cbn; apply Hu; exact Hx).
    eexists. apply (mk_surf_accepts (1 / 10)); rewrite ?LP; cbn; try lia; apply Hk.
Qed.
