(** Interpolation of constraints on a surface. *)
From Coq Require Import List Arith ZArith Reals Lia Lra Bool.
From Verif Require Import Model_Base Model_Knots Model_Math Model_Basis Model_Curve Model_Interp Model_Surface Model_Skin
  Spec_Base Spec_Basis Spec_Eval Spec_Knots Spec_Interp Spec_Surface Spec_Skin Proof_Base Proof_Eval Proof_Builders Proof_Builders2
  Proof_Band Proof_Interp Proof_Interp2 Proof_Interp3 Proof_Interp4 Proof_Surface Proof_SurfEdit Proof_Tfi Proof_Skin1 Proof_Skin2 Proof_Skin3.
Import ListNotations.
Local Open Scope R_scope.

Section AtR.
Variable eps : R.
Local Hint Extern 0 (Num R) => exact (NumR eps) : typeclass_instances.

Lemma fold_best (lt : R -> R -> bool) (P : R -> R -> Prop) (Hr : forall x, P x x) (Ht : forall x y z, P x y -> P y z -> P x z)
  (H1 : forall x y, lt x y = true -> P x y) (H0 : forall x y, lt x y = false -> P y x) l : forall x,
  In (fold_left (fun best y => if lt y best then y else best) l x) (x :: l) /\
  forall y, In y (x :: l) -> P (fold_left (fun best y => if lt y best then y else best) l x) y.
Proof.
  induction l as [|a l IH]; intros x; cbn [fold_left].
  - split; [left; reflexivity|]. intros y [<-|[]]. apply Hr.
  - destruct (IH (if lt a x then a else x)) as (A & B). split.
    + destruct A as [A|A]; [rewrite <- A; destruct (lt a x); simpl; auto|simpl; auto].
    + set (m := fold_left _ _ _) in *. pose proof (B _ (or_introl eq_refl)) as C.
      intros y [<-|[<-|Hy]]; [| |apply B; right; exact Hy]; destruct (lt a x) eqn:El; eauto.
Qed.

Lemma first_min l m : first_best nltb l = Ok m -> In m l /\ forall y, In y l -> m <= y.
Proof.
  destruct l as [|x l]; [discriminate|]. cbn [first_best]. intros [= <-]. apply (fold_best Rltb Rle).
  - intros; lra.
  - intros; lra.
  - intros a b Hab. nsimp. destruct (Rltb_spec a b); [lra|discriminate].
  - intros a b Hab. nsimp. destruct (Rltb_spec a b); [discriminate|lra].
Qed.
Lemma first_max l m : first_best (fun a b => nltb b a) l = Ok m -> In m l /\ forall y, In y l -> y <= m.
Proof.
  destruct l as [|x l]; [discriminate|]. cbn [first_best]. intros [= <-].
  apply (fold_best (fun a b => Rltb b a) (fun a b => b <= a)).
  - intros; lra.
  - intros; lra.
  - intros a b Hab. cbv beta in Hab. nsimp. destruct (Rltb_spec b a); [lra|discriminate].
  - intros a b Hab. cbv beta in Hab. nsimp. destruct (Rltb_spec b a); [discriminate|lra].
Qed.
Lemma first_some (lt : R -> R -> bool) (l : list R) : l <> [] -> exists m, first_best lt l = Ok m.
Proof. destruct l; [congruence|]. intros _. eexists. reflexivity. Qed.

(** The knots of one direction. *)
Lemma mult_knots a b n p mu k : a < b -> (p < n)%nat -> (0 < mu)%nat ->
  build_mult_flat_knots_range a b (2 + (n - (p + 1)) / mu) p mu = Ok k ->
  (length k = p + 1 + mu * ((n - (p + 1)) / mu) + p + 1)%nat /\
  (((n - (p + 1)) mod mu = 0)%nat -> knots_ok k n p /\ kn k p = a /\ kn k n = b /\ kn k 0 = a /\ kn k (length k - 1) = b).
Proof.
  intros Hab Hn Hmu E. set (m := ((n - (p + 1)) / mu)%nat) in *.
  destruct (build_mult_range_spec eps a b (2 + m) p mu ltac:(lia) Hab) as (f & Ef & (L & N & Ka & Kb & Kc) & _).
  rewrite E in Ef. injection Ef as <-. replace (2 + m - 2)%nat with m in * by lia. split; [exact L|].
  intros Hmod. assert (En : n = (p + 1 + mu * m)%nat).
  { pose proof (Nat.div_mod (n - (p + 1)) mu ltac:(lia)) as D. fold m in D. lia. }
  rewrite <- En in *. split; [|split; [apply Ka; lia|split; [apply Kb; lia|split; [apply Ka; lia|apply Kb; lia]]]].
  split; [exact L|]. split; [exact Hn|]. split; [exact N|]. rewrite (Kb n) by lia.
  destruct (Nat.eq_dec (n - 1) p) as [->|]; [rewrite Ka by lia; exact Hab|]. apply Kc. lia.
Qed.

Lemma surf_constraints_ok lu dim (Q : list (@scons R)) nu nv p q u1 u2 v1 v2 mu mv s :
  exact_solver lu -> 0 <= eps -> (p < nu)%nat -> (q < nv)%nat -> length Q = (nu * nv)%nat -> u1 < u2 -> v1 < v2 ->
  interpolate_surf_constraints lu dim Q nv p q u1 u2 v1 v2 mu mv = Ok s -> evaluable_surface eps s ->
  s_degU s = p /\ s_degV s = q /\ length (s_poles s) = (nu * nv)%nat /\
  s_u1 s = u1 /\ s_u2 s = u2 /\ s_v1 s = v1 /\ s_v2 s = v2 /\
  forall c, In c Q -> surface_passes eps dim s (sc_u c) (sc_v c) (sc_du c) (sc_dv c) (sc_x c).
Proof.
  intros Hex He Hp Hq LQ Hu Hv E Hev. unfold interpolate_surf_constraints in E.
  apply bind_inv in E as (a1 & A1 & E). apply bind_inv in E as (a2 & A2 & E).
  apply bind_inv in E as (b1 & B1 & E). apply bind_inv in E as (b2 & B2 & E).
  destruct (nltb a1 u1 || nltb u2 a2 || nltb b1 v1 || nltb v2 b2) eqn:Eb; [discriminate|].
  apply orb_false_iff in Eb as (Eb & C4). apply orb_false_iff in Eb as (Eb & C3). apply orb_false_iff in Eb as (C1 & C2).
  nsimp. destruct (Rltb_spec a1 u1) as [|C1']; [discriminate|]. destruct (Rltb_spec u2 a2) as [|C2']; [discriminate|].
  destruct (Rltb_spec b1 v1) as [|C3']; [discriminate|]. destruct (Rltb_spec v2 b2) as [|C4']; [discriminate|].
  apply first_min in A1 as (_ & A1). apply first_max in A2 as (_ & A2).
  apply first_min in B1 as (_ & B1). apply first_max in B2 as (_ & B2).
  assert (Hin : forall c, In c Q -> u1 <= sc_u c <= u2 /\ v1 <= sc_v c <= v2).
  { intros c Hc. pose proof (A1 _ (in_map sc_u _ _ Hc)). pose proof (A2 _ (in_map sc_u _ _ Hc)).
    pose proof (B1 _ (in_map sc_v _ _ Hc)). pose proof (B2 _ (in_map sc_v _ _ Hc)). lra. }
  destruct (Nat.eqb_spec nv 0); [lia|]. rewrite LQ, Nat.mod_mul, Nat.div_mul in E by lia. cbn [Nat.eqb negb] in E.
  rewrite !subi_ok in E by lia. cbn [bind] in E.
  destruct (Nat.eqb_spec mu 0) as [|Hmu]; [discriminate|]. destruct (Nat.eqb_spec mv 0) as [|Hmv]; [discriminate|]. cbn [orb] in E.
  apply bind_inv in E as (ku & Eku & E). apply bind_inv in E as (kv & Ekv & E).
  destruct (mult_knots u1 u2 nu p mu ku Hu Hp ltac:(lia) Eku) as (Lku & Kku).
  destruct (mult_knots v1 v2 nv q mv kv Hv Hq ltac:(lia) Ekv) as (Lkv & Kkv).
  unfold npoles in E. rewrite subi_ok in E by lia. cbn [bind] in E.
  destruct (Nat.eqb_spec (length ku - (p + 1)) nu) as [Nu|]; [|discriminate]. cbn [negb] in E.
  rewrite subi_ok in E by lia. cbn [bind] in E.
  destruct (Nat.eqb_spec (length kv - (q + 1)) nv) as [Nv|]; [|discriminate]. cbn [negb] in E.
  destruct Kku as (Ku & Ku1 & Ku2 & Ku3 & Ku4).
  { pose proof (Nat.div_mod (nu - (p + 1)) mu Hmu). lia. }
  destruct Kkv as (Kv & Kv1 & Kv2 & Kv3 & Kv4).
  { pose proof (Nat.div_mod (nv - (q + 1)) mv Hmv). lia. }
  apply bind_inv in E as (P & EP & E). apply (mk_surf_inv eps) in E.
  assert (NU : s_nU s = nu) by (subst s; unfold s_nU; cbn [s_ku s_degU]; destruct Ku as (A & _); lia).
  assert (NV : s_nV s = nv) by (subst s; unfold s_nV; cbn [s_kv s_degV]; destruct Kv as (A & _); lia).
  assert (Hev' : evaluable2 eps ku nu p kv nv q).
  { unfold evaluable_surface in Hev. rewrite NU, NV in Hev. subst s. exact Hev. }
  assert (Hrect : forall c, In c Q -> in_rect ku nu p kv nv q (sc_u c) (sc_v c)).
  { intros c Hc. unfold in_rect. rewrite Ku1, Ku2, Kv1, Kv2. apply Hin. exact Hc. }
  destruct (constraint_poles_ok eps ku kv nu nv p q Ku Kv Hev' lu dim Q P Hex LQ Hrect EP) as (LP & HV).
  assert (Hok : surface_ok s).
  { unfold surface_ok. rewrite NU, NV. subst s. cbn [s_ku s_kv s_degU s_degV s_poles]. split; [exact Ku|split; [exact Kv|exact LP]]. }
  assert (Hnat : natural_surface s).
  { unfold natural_surface. rewrite NU, NV. subst s. cbn [s_ku s_kv s_degU s_degV s_u1 s_u2 s_v1 s_v2].
    destruct Ku as (L1 & _), Kv as (L2 & _). rewrite L1, L2. repeat split; f_equal; lia. }
  do 7 (split; [subst s; cbn [s_degU s_degV s_poles s_u1 s_u2 s_v1 s_v2]; first [reflexivity|assumption|congruence]|]).
  intros c Hc. destruct (HV c Hc) as (z & Ez & Vz). exists z. split; [|exact Vz].
  rewrite (surf_value_in eps); [|exact He|exact Hok|exact Hnat|].
  2:{ unfold in_surface. rewrite NU, NV. subst s. apply Hrect. exact Hc. }
  subst s. exact Ez.
Qed.

(** What is refused, before any computation. *)
Lemma surf_constraints_rejects lu dim (Q : list (@scons R)) nv p q u1 u2 v1 v2 mu mv : Q <> [] ->
  ((exists c, In c Q /\ ~ (u1 <= sc_u c <= u2 /\ v1 <= sc_v c <= v2)) ->
   interpolate_surf_constraints lu dim Q nv p q u1 u2 v1 v2 mu mv = Throw InvalidArgument) /\
  ((forall c, In c Q -> u1 <= sc_u c <= u2 /\ v1 <= sc_v c <= v2) -> (0 < nv)%nat -> (length Q mod nv <> 0)%nat ->
   interpolate_surf_constraints lu dim Q nv p q u1 u2 v1 v2 mu mv = Throw LengthError) /\
  ((forall c, In c Q -> u1 <= sc_u c <= u2 /\ v1 <= sc_v c <= v2) -> u1 < u2 -> v1 < v2 ->
   forall nu, length Q = (nu * nv)%nat -> (p < nu)%nat -> (q < nv)%nat -> (0 < mu)%nat -> (0 < mv)%nat ->
   ((nu - p - 1) mod mu <> 0 \/ (nv - q - 1) mod mv <> 0)%nat ->
   interpolate_surf_constraints lu dim Q nv p q u1 u2 v1 v2 mu mv = Throw InvalidArgument).
Proof.
  intros HQ. unfold interpolate_surf_constraints.
  assert (Hne : forall f : @scons R -> R, map f Q <> []) by (intros f; destruct Q; [congruence|discriminate]).
  destruct (first_some nltb _ (Hne sc_u)) as (a1 & A1). destruct (first_some (fun a b => nltb b a) _ (Hne sc_u)) as (a2 & A2).
  destruct (first_some nltb _ (Hne sc_v)) as (b1 & B1). destruct (first_some (fun a b => nltb b a) _ (Hne sc_v)) as (b2 & B2).
  rewrite A1, A2, B1, B2. cbn [bind].
  apply first_min in A1 as (I1 & A1). apply first_max in A2 as (I2 & A2).
  apply first_min in B1 as (I3 & B1). apply first_max in B2 as (I4 & B2).
  assert (Hin : (forall c, In c Q -> u1 <= sc_u c <= u2 /\ v1 <= sc_v c <= v2) ->
    (nltb a1 u1 || nltb u2 a2 || nltb b1 v1 || nltb v2 b2) = false).
  { intros H. apply in_map_iff in I1 as (c1 & <- & I1). apply in_map_iff in I2 as (c2 & <- & I2).
    apply in_map_iff in I3 as (c3 & <- & I3). apply in_map_iff in I4 as (c4 & <- & I4).
    pose proof (H _ I1). pose proof (H _ I2). pose proof (H _ I3). pose proof (H _ I4). nsimp.
    destruct (Rltb_spec (sc_u c1) u1); [lra|]. destruct (Rltb_spec u2 (sc_u c2)); [lra|].
    destruct (Rltb_spec (sc_v c3) v1); [lra|]. destruct (Rltb_spec v2 (sc_v c4)); [lra|]. reflexivity. }
  split; [|split].
  - intros (c & Hc & Hout). pose proof (A1 _ (in_map sc_u _ _ Hc)). pose proof (A2 _ (in_map sc_u _ _ Hc)).
    pose proof (B1 _ (in_map sc_v _ _ Hc)). pose proof (B2 _ (in_map sc_v _ _ Hc)).
    destruct (nltb a1 u1 || nltb u2 a2 || nltb b1 v1 || nltb v2 b2) eqn:Eb; [reflexivity|]. exfalso.
    apply orb_false_iff in Eb as (Eb & C4). apply orb_false_iff in Eb as (Eb & C3). apply orb_false_iff in Eb as (C1 & C2).
    nsimp. destruct (Rltb_spec a1 u1) as [|C1']; [discriminate|]. destruct (Rltb_spec u2 a2) as [|C2']; [discriminate|].
    destruct (Rltb_spec b1 v1) as [|C3']; [discriminate|]. destruct (Rltb_spec v2 b2) as [|C4']; [discriminate|].
    apply Hout. lra.
  - intros H Hnv Hmod. rewrite (Hin H). destruct (Nat.eqb_spec nv 0); [lia|].
    destruct (Nat.eqb_spec (length Q mod nv) 0); [contradiction|]. reflexivity.
  - intros H Hu Hv nu LQ Hp Hq Hmu Hmv Hmod. rewrite (Hin H). destruct (Nat.eqb_spec nv 0); [lia|].
    rewrite LQ, Nat.mod_mul, Nat.div_mul by lia. cbn [Nat.eqb negb]. rewrite !subi_ok by lia. cbn [bind].
    destruct (Nat.eqb_spec mu 0); [lia|]. destruct (Nat.eqb_spec mv 0); [lia|]. cbn [orb].
    set (a := ((nu - (p + 1)) / mu)%nat). set (b := ((nv - (q + 1)) / mv)%nat).
    destruct (build_mult_range_spec eps u1 u2 (2 + a) p mu ltac:(lia) Hu) as (ku & Eku & (Lku & _) & _).
    destruct (build_mult_range_spec eps v1 v2 (2 + b) q mv ltac:(lia) Hv) as (kv & Ekv & (Lkv & _) & _).
    rewrite Eku, Ekv. cbn [bind]. unfold npoles. rewrite !subi_ok by lia. cbn [bind].
    destruct (Nat.eqb_spec (length ku - (p + 1)) nu) as [Nu|]; [|reflexivity]. cbn [negb].
    destruct (Nat.eqb_spec (length kv - (q + 1)) nv) as [Nv|]; [|reflexivity]. exfalso.
    pose proof (Nat.div_mod (nu - (p + 1)) mu ltac:(lia)) as D1. pose proof (Nat.div_mod (nv - (q + 1)) mv ltac:(lia)) as D2.
    fold a in D1. fold b in D2. replace (nu - p - 1)%nat with (nu - (p + 1))%nat in Hmod by lia.
    replace (nv - q - 1)%nat with (nv - (q + 1))%nat in Hmod by lia. lia.
Qed.
End AtR.
