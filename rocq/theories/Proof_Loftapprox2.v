(** Lofts approximated along a spine: the surface minimises the gaps, and passes through the
    sections when the knots let it. *)
From Coq Require Import List Arith ZArith Reals Lia Lra Bool.
From Verif Require Import Model_Base Model_Knots Model_Math Model_Basis Model_Curve Model_Interp Model_Surface Model_Unify Model_Skin Model_Spine
  Spec_Base Spec_Basis Spec_Eval Spec_Knots Spec_Interp Spec_Surface Spec_Unify Spec_Approx Spec_Solve Spec_Skin Spec_Spine Spec_Loftapprox
  Proof_Base Proof_Eval Proof_Interp Proof_Interp3 Proof_Interp4 Proof_Ctor Proof_Builders Proof_Surface Proof_SurfEdit2 Proof_Surface2 Proof_Json Proof_Text Proof_Lsq
  Proof_Gauss Proof_Skin1 Proof_Skin2 Proof_Skin3 Proof_Skin6 Proof_Skin7 Proof_Skin9 Proof_Spine1 Proof_Spine2 Proof_Spine4 Proof_Spine5 Proof_Loftapprox.
Import ListNotations.
Local Open Scope R_scope.

Lemma station_span eps ts : 0 <= eps -> ordered_feet eps ts -> station ts (length ts - 1) = station ts 0 + 1.
Proof. intros He (H & _). unfold station. field. lra. Qed.
Lemma station_in eps ts j : 0 <= eps -> ordered_feet eps ts -> (j < length ts)%nat -> station ts 0 <= station ts j <= station ts (length ts - 1).
Proof.
  intros He (H & B) Hj. assert (Hin : In (kn ts j) ts) by (apply nth_In; exact Hj). specialize (B _ Hin). unfold station, Rdiv.
  assert (0 < / (kn ts (length ts - 1) - kn ts 0)) by (apply Rinv_0_lt_compat; lra). split; apply Rmult_le_compat_r; lra.
Qed.
Lemma stations_In ts x : In x (stations ts) -> exists j, (j < length ts)%nat /\ x = station ts j.
Proof. intros H. apply in_map_iff in H as (j & <- & Hj). apply in_seq in Hj. exists j. split; [lia|reflexivity]. Qed.

Lemma even_in ku n_u i : (2 <= n_u)%nat -> (i < n_u)%nat -> kn ku 0 <= kn ku (length ku - 1) -> kn ku 0 <= even_param ku n_u i <= kn ku (length ku - 1).
Proof.
  intros Hn Hi Hdom. unfold even_param. set (h := kn ku (length ku - 1) - kn ku 0).
  assert (Hn1 : 0 < INR (n_u - 1)) by (apply lt_0_INR; lia). assert (Hi1 : 0 <= INR i <= INR (n_u - 1)) by (split; [apply pos_INR|apply le_INR; lia]).
  assert (T : 0 <= INR i / INR (n_u - 1) <= 1).
  { split; [apply Rle_mult_inv_pos; lra|]. apply (Rmult_le_reg_r (INR (n_u - 1))); [lra|]. unfold Rdiv. rewrite Rmult_assoc, Rinv_l by lra. lra. }
  replace (INR i * (h / INR (n_u - 1))) with (INR i / INR (n_u - 1) * h) by (field; lra). assert (0 <= h) by (unfold h; lra). unfold h in *. nra.
Qed.
Lemma evens_In ku n_u x : In x (even_params ku n_u) -> exists i, (i < n_u)%nat /\ x = even_param ku n_u i.
Proof. intros H. apply in_map_iff in H as (j & <- & Hj). apply in_seq in Hj. exists j. split; [lia|reflexivity]. Qed.
Lemma evens_length ku n_u : length (even_params ku n_u) = n_u.
Proof. unfold even_params. rewrite map_length, seq_length. reflexivity. Qed.
Lemma evens_nth ku n_u i : (i < n_u)%nat -> nth i (even_params ku n_u) 0 = even_param ku n_u i.
Proof. intros H. unfold even_params. apply nth_map_seq. exact H. Qed.

Section AtR.
Variable eps : R.
Local Hint Extern 0 (Num R) => exact (NumR eps) : typeclass_instances.

Lemma loft_approx_lsq ldlt (extrema : curve R -> curve R -> result R) dt c0 rest spine (ku : list R) nu p q nv n_u s : let cs := c0 :: rest in
  0 < eps -> exact_solver ldlt -> loftable eps c0 cs -> knots_ok ku nu p -> (p <= 12)%nat -> (q <= 12)%nat -> (q < nv)%nat -> (2 <= n_u)%nat ->
  kn ku 0 = kn ku p -> kn ku (length ku - 1) = kn ku nu -> c_lo c0 <= kn ku 0 -> kn ku (length ku - 1) <= c_hi c0 ->
  (forall m k us, common_form eps c0 cs m k us -> exists ts, feet_of extrema spine us ts /\ ordered_feet eps ts) ->
  loft_approx_knots ldlt extrema dt cs spine ku p q nv n_u = Ok s ->
  (2 <= length cs)%nat /\ s_degU s = p /\ s_degV s = q /\ s_ku s = ku /\ knots_ok (s_kv s) nv q /\ length (s_poles s) = (nu * nv)%nat /\
  s_u1 s = kn ku 0 /\ s_u2 s = kn ku (length ku - 1) /\
  exists m k us ts, common_form eps c0 cs m k us /\ feet_of extrema spine us ts /\ s_v1 s = station ts 0 /\ s_v2 s = station ts (length cs - 1) /\
  forall c P', (c < dt)%nat -> length P' = (nu * nv)%nat -> exists e e' : nat -> nat -> R,
    (forall i j sec, (i < n_u)%nat -> nth_error us j = Some sec -> exists x, value sec (even_param ku n_u i) 0 = Ok x /\
       gap eps ku (s_kv s) (s_poles s) p q (even_param ku n_u i) (station ts j) 0 0 x c (e i j) /\
       gap eps ku (s_kv s) P' p q (even_param ku n_u i) (station ts j) 0 0 x c (e' i j)) /\
    sumn (length cs) (fun j => sumn n_u (fun i => e i j ^ 2)) <= sumn (length cs) (fun j => sumn n_u (fun i => e' i j ^ 2)).
Proof.
  intros cs He Hex Hl Hk Hp Hq Hnv Hnu K0 K1 Hlo Hhi HF E.
  assert (H2 : (2 <= length cs)%nat). { unfold loft_approx_knots in E. destruct (Nat.ltb_spec (length cs) 2); [discriminate|assumption]. }
  destruct (loft_approx_unfold eps ldlt extrema dt c0 rest spine ku nu p q nv n_u He Hl H2 Hnu Hk Hlo Hhi HF) as (m & k & us & ts & Q & CF & F1 & F2 & _ & Lt & LQ & VQ & EE).
  fold cs in EE, Lt, LQ, CF. rewrite EE in E. clear EE. apply bind_inv in E as (kv & EK & E). apply bind_inv in E as (P & EP & E).
  apply mk_surf_inv in E. pose proof (station_span eps ts ltac:(lra) F2) as SS. rewrite Lt in SS.
  assert (Hab : station ts 0 < station ts (length cs - 1)) by lra.
  destruct (range_knots eps _ _ nv q kv Hnv Hab EK) as (Hkv & Kvp & Kvn & Kv0 & Kvl & Kve & _).
  assert (Hev : evaluable2 eps ku nu p kv nv q) by (left; lia).
  assert (Hdom : kn ku 0 <= kn ku (length ku - 1)) by (apply Hk; destruct Hk as (L & _); lia).
  assert (Hu : forall x, In x (even_params ku n_u) -> kn ku p <= x <= kn ku nu).
  { intros x Hx. apply evens_In in Hx as (i & Hi & ->). pose proof (even_in ku n_u i Hnu Hi Hdom). lra. }
  assert (Hv : forall x, In x (stations ts) -> kn kv q <= x <= kn kv nv).
  { intros x Hx. apply stations_In in Hx as (j & Hj & ->). pose proof (station_in eps ts j ltac:(lra) F2 Hj). rewrite Lt in *. rewrite Kvp, Kvn. lra. }
  destruct (approx_grid_ok eps ku kv nu nv p q Hk Hkv Hev ldlt dt Q _ _ P Hex Hu Hv EP) as (LP & _ & HP).
  split; [exact H2|]. rewrite E. cbn [s_degU s_degV s_ku s_kv s_poles s_u1 s_u2 s_v1 s_v2]. repeat (split; [auto|]). 
  exists m, k, us, ts. split; [exact CF|]. split; [exact F1|]. split; [exact Kv0|]. split; [exact Kvl|].
  intros c P' Hc LP'. destruct (HP c P' Hc LP') as (e & e' & G & M). exists e, e'. rewrite evens_length, stations_length, Lt in *. split; [|exact M].
  intros i j sec Hi Hj. exists (nth (i + n_u * j) Q (fun _ => 0)). split; [exact (VQ i j sec Hi Hj)|].
  assert (Hj2 : (j < length cs)%nat) by (destruct CF as (<- & _); exact (nth_error_lt _ _ _ Hj)).
  destruct (G i j Hi Hj2) as (G1 & G2). rewrite evens_nth, stations_nth in G1, G2 by lia. auto.
Qed.
End AtR.
