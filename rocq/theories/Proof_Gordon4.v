(** Gordon surfaces: the steps. *)
From Coq Require Import List Arith ZArith Reals Lia Lra Bool.
From Verif Require Import Model_Base Spec_Base Spec_Basis Spec_Knots Spec_Eval Spec_Surface Spec_Elevate Spec_Unify Spec_Solve Spec_Skin Spec_Gordon
  Model_Basis Model_Knots Model_Curve Model_Surface Model_Elevate Model_Unify Model_Interp Model_Skin Model_Gordon
  Proof_Base Proof_Basis Proof_Eval Proof_Insert Proof_Curve Proof_Trim Proof_Tfi
  Proof_Knots Proof_Builders Proof_Elevate2 Proof_Elevate3 Proof_Elevate4 Proof_Elevate5 Proof_Unify Proof_Unify2 Proof_Unify3 Proof_Unify4
  Proof_Interp Proof_Surface Proof_SurfEdit Proof_Grid Proof_Skin1 Proof_Skin6 Proof_SW2 Proof_Gordon1 Proof_Gordon2 Proof_Gordon3.
Import ListNotations.
Local Open Scope R_scope.

Section AtR.
Variable eps : R.
Local Hint Extern 0 (Num R) => exact (NumR eps) : typeclass_instances.

(** A surface with clamped knots in both directions. *)
Definition csurf (s : surf R) : Prop :=
  surface_ok s /\ natural_surface s /\ ckn_of eps (s_degU s) (s_ku s) (s_nU s) /\ ckn_of eps (s_degV s) (s_kv s) (s_nV s) /\
  (s_degU s <= 12)%nat /\ (s_degV s <= 12)%nat.

Lemma csurf_ev s : csurf s -> evaluable_surface eps s.
Proof. intros (_ & _ & _ & _ & A & B). left. lia. Qed.

Lemma ck_succ p U M : clamped_knots eps p U M -> clamped_knots eps (p + 1) U (map S M).
Proof.
  intros (L & L2 & Sp & F & B & I). assert (LM : length (map S M) = length U) by (rewrite map_length; exact L).
  assert (N : forall i, (i < length U)%nat -> nth i (map S M) 0%nat = S (nth i M 0%nat)).
  { intros i Hi. rewrite (nth_indep _ 0%nat 1%nat) by lia. rewrite (map_nth S M 0%nat). reflexivity. }
  split; [exact LM|]. split; [exact L2|]. split; [exact Sp|]. rewrite !N by lia. split; [lia|]. split; [lia|].
  intros i Hi. rewrite N by lia. specialize (I i Hi). lia.
Qed.

Lemma re_incl p U M x : 0 < eps -> clamped_knots eps p U M -> In x (repeat_each U (map S M)) -> In x (repeat_each U M).
Proof.
  intros He H Hx. apply repeat_each_In in Hx. apply (In_nth _ _ 0) in Hx as (i & Hi & <-).
  pose proof H as (L & L2 & Sp & F & B & I).
  assert (1 <= nth i M 0)%nat as Hm.
  { destruct (Nat.eq_dec i 0) as [->|]; [lia|]. destruct (Nat.eq_dec i (length U - 1)) as [->|]; [lia|]. apply I. lia. }
  clear -L Hi Hm. revert M L i Hi Hm. induction U as [|a U IH]; intros [|m M] L i Hi Hm; try discriminate; cbn [length] in *; [lia|].
  cbn [repeat_each]. apply in_or_app. destruct i as [|i]; cbn [nth] in *.
  - left. destruct m; [lia|]. left. reflexivity.
  - right. apply IH; lia.
Qed.

(** Values of two surfaces at (x, y) agree. *)
Definition agree (s s' : surf R) : Prop :=
  (forall x y, in_surface s' x y <-> in_surface s x y) /\
  forall x y du dv, in_surface s x y -> exists z, surf_value s x y du dv = Ok z /\
    exists z', surf_value s' x y du dv = Ok z' /\ forall c, z' c = z c.

Lemma csurf_value s x y du dv : 0 < eps -> csurf s -> in_surface s x y ->
  exists z, surf_value s x y du dv = Ok z /\ surf_eval x y (s_ku s) (s_kv s) (s_poles s) (s_degU s) (s_degV s) du dv = Ok z /\
    forall c, z c = sumn (s_nV s) (fun j => rv eps (s_kv s) (s_nV s) (s_degV s) y dv j *
      sumn (s_nU s) (fun i => rv eps (s_ku s) (s_nU s) (s_degU s) x du i * pole (s_poles s) c (i + s_nU s * j))).
Proof.
  intros He H Hin. pose proof (csurf_ev s H) as Hev. pose proof H as (Hok & Hn & _). pose proof Hok as (K1 & K2 & LP).
  destruct (surf_rv eps _ _ _ _ _ _ K1 K2 Hev (s_poles s) x y du dv LP Hin) as (z & E & V).
  exists z. split; [rewrite (surf_value_in eps) by (auto; lra); exact E|]. split; [exact E|exact V].
Qed.

Lemma agree_refl s : 0 < eps -> csurf s -> agree s s.
Proof.
  intros He H. split; [tauto|]. intros x y du dv Hin. destruct (csurf_value s x y du dv He H Hin) as (z & E & _).
  exists z. split; [exact E|]. exists z. auto.
Qed.
Lemma agree_trans s s' s'' : agree s s' -> agree s' s'' -> agree s s''.
Proof.
  intros [A B] [A' B']. split; [intros x y; rewrite A'; apply A|]. intros x y du dv Hin.
  destruct (B x y du dv Hin) as (z & E & z' & E' & V). destruct (B' x y du dv (proj2 (A x y) Hin)) as (w & F & w' & F' & V').
  rewrite E' in F. injection F as <-. exists z. split; [exact E|]. exists w'. split; [exact F'|]. intros c. rewrite V', V. reflexivity.
Qed.

Lemma nU_of s p k n : s_degU s = p -> s_ku s = k -> ckn_of eps p k n -> 0 < eps -> s_nU s = n.
Proof. intros <- <- H He. destruct (ckn_ok eps He _ _ _ H) as ((L & _) & _). unfold s_nU. lia. Qed.
Lemma nV_of s p k n : s_degV s = p -> s_kv s = k -> ckn_of eps p k n -> 0 < eps -> s_nV s = n.
Proof. intros <- <- H He. destruct (ckn_ok eps He _ _ _ H) as ((L & _) & _). unfold s_nV. lia. Qed.

Lemma elevV t : forall s lo, 0 < eps -> csurf s -> (s_degV s + t <= 12)%nat ->
  exists s', for_ lo t (fun _ s => increaseDegreeV s) s = Ok s' /\ csurf s' /\ s_degV s' = (s_degV s + t)%nat /\
    s_degU s' = s_degU s /\ s_ku s' = s_ku s /\ (forall x, In x (s_kv s') -> In x (s_kv s)) /\ agree s s'.
Proof.
  induction t as [|t IH]; intros s lo He H Ht.
  - exists s. split; [reflexivity|]. split; [exact H|]. split; [lia|]. split; [reflexivity|]. split; [reflexivity|]. split; [auto|]. apply agree_refl; assumption.
  - pose proof H as (Hok & Hn & CU & (U & M & CK & EK & EN) & D1 & D2).
    destruct (increaseV_prop eps s U M He Hok Hn EK CK ltac:(lia)) as (s1 & E1 & Ok1 & N1 & A1 & A2 & A3 & A4 & A5 & A6).
    assert (CV1 : ckn_of eps (s_degV s1) (s_kv s1) (poles_for (s_degV s1) (map S M))) by (exists U, (map S M); rewrite A1, A4; split; [apply ck_succ, CK|auto]).
    assert (H1 : csurf s1).
    { split; [exact Ok1|]. split; [exact N1|]. split; [|split; [|split; lia]].
      - unfold s_nU. rewrite A2, A3. exact CU.
      - rewrite (nV_of s1 _ _ _ eq_refl eq_refl CV1 He). exact CV1. }
    destruct (IH s1 (S lo) He H1 ltac:(lia)) as (s' & E' & H' & B1 & B2 & B3 & B4 & B5).
    exists s'. cbn [for_]. rewrite E1. cbn [bind]. split; [exact E'|]. split; [exact H'|]. split; [lia|]. split; [congruence|]. split; [congruence|].
    split; [intros x Hx; specialize (B4 x Hx); rewrite A4 in B4; rewrite EK; apply (re_incl _ _ _ x He CK B4)|].
    refine (agree_trans s s1 s' _ B5). split; [exact A5|]. intros x y du dv Hin.
    destruct (A6 (csurf_ev s H) (csurf_ev s1 H1) x y x y du dv (conj Hin (conj eq_refl eq_refl))) as (z & z' & Z1 & Z2 & Z3).
    exists z. split; [exact Z1|]. exists z'. split; [exact Z2|]. intros c. rewrite Z3. unfold one. ring.
Qed.

Lemma elevU t : forall s lo, 0 < eps -> csurf s -> (s_degU s + t <= 12)%nat ->
  exists s', for_ lo t (fun _ s => increaseDegreeU s) s = Ok s' /\ csurf s' /\ s_degU s' = (s_degU s + t)%nat /\
    s_degV s' = s_degV s /\ s_kv s' = s_kv s /\ (forall x, In x (s_ku s') -> In x (s_ku s)) /\ agree s s'.
Proof.
  induction t as [|t IH]; intros s lo He H Ht.
  - exists s. split; [reflexivity|]. split; [exact H|]. split; [lia|]. split; [reflexivity|]. split; [reflexivity|]. split; [auto|]. apply agree_refl; assumption.
  - pose proof H as (Hok & Hn & (U & M & CK & EK & EN) & CV & D1 & D2).
    destruct (increaseU_prop eps s U M He Hok Hn EK CK ltac:(lia)) as (s1 & E1 & Ok1 & N1 & A1 & A2 & A3 & A4 & A5 & A6).
    assert (CU1 : ckn_of eps (s_degU s1) (s_ku s1) (poles_for (s_degU s1) (map S M))) by (exists U, (map S M); rewrite A1, A4; split; [apply ck_succ, CK|auto]).
    assert (H1 : csurf s1).
    { split; [exact Ok1|]. split; [exact N1|]. split; [|split; [|split; lia]].
      - rewrite (nU_of s1 _ _ _ eq_refl eq_refl CU1 He). exact CU1.
      - unfold s_nV. rewrite A2, A3. exact CV. }
    destruct (IH s1 (S lo) He H1 ltac:(lia)) as (s' & E' & H' & B1 & B2 & B3 & B4 & B5).
    exists s'. cbn [for_]. rewrite E1. cbn [bind]. split; [exact E'|]. split; [exact H'|]. split; [lia|]. split; [congruence|]. split; [congruence|].
    split; [intros x Hx; specialize (B4 x Hx); rewrite A4 in B4; rewrite EK; apply (re_incl _ _ _ x He CK B4)|].
    refine (agree_trans s s1 s' _ B5). split; [exact A5|]. intros x y du dv Hin.
    destruct (A6 (csurf_ev s H) (csurf_ev s1 H1) x y x y du dv (conj Hin (conj eq_refl eq_refl))) as (z & z' & Z1 & Z2 & Z3).
    exists z. split; [exact Z1|]. exists z'. split; [exact Z2|]. intros c. rewrite Z3. unfold one. ring.
Qed.

Lemma csurf_invert s : 0 < eps -> csurf s -> exists s', invertUV s = Ok s' /\ csurf s' /\ s_degU s' = s_degV s /\ s_degV s' = s_degU s /\
  s_ku s' = s_kv s /\ s_kv s' = s_ku s /\ (forall x y, in_surface s' y x <-> in_surface s x y) /\
  forall x y du dv, in_surface s x y -> exists z, surf_value s x y du dv = Ok z /\
    exists z', surf_value s' y x dv du = Ok z' /\ forall c, z' c = z c.
Proof.
  intros He H. pose proof H as (Hok & Hn & CU & CV & D1 & D2).
  destruct (invert_prop eps s ltac:(lra) Hok Hn) as (s' & E & Ok' & N' & A1 & A2 & A3 & A4 & _ & _ & V).
  exists s'. split; [exact E|]. split.
  { split; [exact Ok'|]. split; [exact N'|]. unfold s_nU, s_nV. rewrite A1, A2, A3, A4. split; [exact CV|]. split; [exact CU|]. lia. }
  split; [exact A1|]. split; [exact A2|]. split; [exact A3|]. split; [exact A4|]. split.
  { intros x y. unfold in_surface, in_rect, s_nU, s_nV. rewrite A1, A2, A3, A4. tauto. }
  intros x y du dv Hin. destruct (V (csurf_ev s H) x y du dv Hin) as (z & z' & Z1 & Z2 & Z3). exists z. split; [exact Z1|]. exists z'. auto.
Qed.

(** The data of a surface. *)
Lemma surf_info_ok s : surface_ok s -> exists g, surf_info s = Ok (g, s_ku s, s_kv s, s_degU s, s_degV s) /\
  rectangular g (s_nV s) (s_nU s) /\ concat g = s_poles s.
Proof.
  intros Hok. unfold surf_info. rewrite nPolesV_ok by exact Hok. cbn [bind].
  rewrite (mapM_ok _ (fun j => row (s_poles s) (s_nU s) j)).
  2:{ intros j Hj. apply in_seq in Hj. apply polesU_ok; [exact Hok|lia]. }
  cbn [bind]. eexists. split; [reflexivity|].
  assert (RG : rectangular (map (fun j => row (s_poles s) (s_nU s) j) (seq 0 (s_nV s))) (s_nV s) (s_nU s)).
  { split; [rewrite map_length, seq_length; reflexivity|]. intros r Hr. apply in_map_iff in Hr as (j & <- & _). apply row_length. }
  split; [exact RG|]. destruct Hok as (K1 & K2 & LP). set (n := s_nU s) in *. set (m := s_nV s) in *.
  apply (nth_ext _ _ (fun _ => 0) (fun _ => 0)); [exact (eq_trans (concat_rect _ _ _ RG) (eq_sym LP))|].
  intros t Ht0. assert (Ht : (t < n * m)%nat) by (rewrite <- (concat_rect _ _ _ RG); exact Ht0).
  assert (Hn : (0 < n)%nat) by (destruct K1 as (_ & X & _); lia).
  pose proof (Nat.mod_upper_bound t n ltac:(lia)) as Hi. pose proof (Nat.div_mod t n ltac:(lia)) as Ed.
  assert (Hj : (t / n < m)%nat) by (apply Nat.div_lt_upper_bound; lia).
  replace t with (t mod n + n * (t / n))%nat by lia.
  refine (eq_trans (nth_concat (fun _ : nat => 0) _ m n _ _ RG Hi Hj) _).
  rewrite nth_map_seq by exact Hj. unfold row. rewrite nth_map_seq by exact Hi. reflexivity.
Qed.

End AtR.
