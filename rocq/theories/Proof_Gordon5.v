(** Gordon surfaces: averaged knots, the two lofts, uniqueness along an iso curve. *)
From Coq Require Import List Arith ZArith Reals Lia Lra Bool.
From Verif Require Import Model_Base Spec_Base Spec_Basis Spec_Knots Spec_Eval Spec_Interp Spec_Surface Spec_Elevate Spec_Unify Spec_Solve Spec_Skin Spec_Gordon
  Model_Basis Model_Knots Model_Curve Model_Surface Model_Elevate Model_Unify Model_Interp Model_Skin Model_Gordon
  Proof_Base Proof_Basis Proof_Eval Proof_Insert Proof_Curve Proof_Trim Proof_Tfi
  Proof_Knots Proof_Builders Proof_Elevate2 Proof_Elevate3 Proof_Elevate4 Proof_Elevate5 Proof_Unify Proof_Unify2 Proof_Unify3 Proof_Unify4
  Proof_Interp Proof_Surface Proof_SurfEdit Proof_Grid Proof_Skin1 Proof_Skin3 Proof_Skin6 Proof_Skin7 Proof_Skin8 Proof_SW2 Proof_Gordon1 Proof_Gordon2 Proof_Gordon3 Proof_Gordon4.
Import ListNotations.
Local Open Scope R_scope.

Section AtR.
Variable eps : R.
Local Hint Extern 0 (Num R) => exact (NumR eps) : typeclass_instances.

Lemma interlaced_ckn (k : list R) p u : 0 < eps -> (1 <= p)%nat -> (p < length u)%nat -> interlaced k p u ->
  (forall x y, In x k -> In y k -> x = y \/ eps < Rabs (x - y)) -> ckn_of eps p k (length u).
Proof.
  intros He Hp Hl (Su & (Lk & ND & Ka & Kb & Ki) & Kst & _) Sep. set (n := length u) in *.
  set (U := map (kn k) (seq p (n - p + 1))).
  set (M := map (fun i => if (i =? 0)%nat then (p + 1)%nat else if (i =? n - p)%nat then (p + 1)%nat else 1%nat) (seq 0 (n - p + 1))).
  assert (LU : length U = (n - p + 1)%nat) by (unfold U; rewrite map_length, seq_length; reflexivity).
  assert (LM : length M = (n - p + 1)%nat) by (unfold M; rewrite map_length, seq_length; reflexivity).
  assert (NU : forall i, (i < n - p + 1)%nat -> kn U i = kn k (p + i)).
  { intros i Hi. unfold U. unfold kn at 1. rewrite (nth_indep _ 0 (kn k 0)) by (rewrite map_length, seq_length; exact Hi).
    rewrite map_nth, seq_nth by exact Hi. reflexivity. }
  assert (NM : forall i, (i < n - p + 1)%nat -> nth i M 0%nat = if (i =? 0)%nat then (p + 1)%nat else if (i =? n - p)%nat then (p + 1)%nat else 1%nat).
  { intros i Hi. unfold M. rewrite nth_map_seq by exact Hi. reflexivity. }
  assert (CK : clamped_knots eps p U M).
  { split; [lia|]. split; [lia|]. split.
    - intros i Hi. rewrite LU in Hi. rewrite !NU by lia. replace (p + S i)%nat with (S (p + i)) by lia.
      pose proof (Kst (p + i)%nat ltac:(lia)) as Z.
      destruct (Sep (kn k (p + i)) (kn k (S (p + i)))) as [E|E]; [apply nth_In; lia|apply nth_In; lia|lra|].
      rewrite Rabs_minus_sym, Rabs_right in E by lra. lra.
    - split; [rewrite NM by lia; reflexivity|]. rewrite LU. split.
      + rewrite NM by lia. destruct (Nat.eqb_spec (n - p + 1 - 1) 0); [lia|]. destruct (Nat.eqb_spec (n - p + 1 - 1) (n - p)); lia.
      + intros i Hi. rewrite NM by lia. destruct (Nat.eqb_spec i 0); [lia|]. destruct (Nat.eqb_spec i (n - p)); lia. }
  pose proof (ck_ckn eps p U M ltac:(lra) CK) as HC.
  assert (PM : forall s, (1 <= s <= n - p)%nat -> pre M s = (p + s)%nat).
  { intros s [H1 H2]. induction s as [|s IH]; [lia|]. rewrite pre_S. destruct s as [|s].
    - rewrite pre_0, NM by lia. cbn. lia.
    - rewrite IH by lia. rewrite NM by lia. destruct (Nat.eqb_spec (S s) 0); [lia|]. destruct (Nat.eqb_spec (S s) (n - p)); [lia|lia]. }
  assert (PL : pre M (n - p + 1) = (n + p + 1)%nat).
  { replace (n - p + 1)%nat with (S (n - p)) by lia. rewrite pre_S, PM, NM by lia. destruct (Nat.eqb_spec (n - p) 0); [lia|]. rewrite Nat.eqb_refl. lia. }
  assert (NP : n = poles_for p M).
  { pose proof (ck_n p U M HC) as X. rewrite LU in X. replace (n - p + 1 - 1)%nat with (n - p)%nat in X by lia. rewrite PM in X by lia. lia. }
  exists U, M. split; [exact CK|]. split; [|exact NP].
  apply (nth_ext _ _ 0 0).
  { rewrite Lk, (ck_len p U M HC). rewrite <- NP. reflexivity. }
  intros i Hi. rewrite Lk in Hi. change (kn k i = kn (repeat_each U M) i).
  destruct (Nat.le_gt_cases i p) as [H1|H1].
  - rewrite (ck_at p U M HC 0) by (rewrite ?LU, ?pre_0, ?PM; lia). rewrite NU by lia. rewrite Ka by lia. symmetry. apply Ka. lia.
  - destruct (Nat.lt_ge_cases i n) as [H2|H2].
    + rewrite (ck_at p U M HC (i - p)) by (rewrite ?LU, ?PM by lia; lia). rewrite NU by lia. f_equal. lia.
    + rewrite (ck_at p U M HC (n - p)) by (rewrite ?LU; try lia; replace (S (n - p)) with (n - p + 1)%nat by lia; rewrite PM, PL by lia; lia).
      rewrite NU by lia. replace (p + (n - p))%nat with n by lia. rewrite Kb by lia. symmetry. apply Kb. lia.
Qed.

(** Two rows equal at the parameters are equal. *)
Lemma RS_unique k p u (P P' : list (pt R)) c : 0 < eps -> (1 <= p)%nat -> (p < length u)%nat -> interlaced k p u -> (p <= 24)%nat ->
  length P = length u -> length P' = length u ->
  (forall x, In x u -> RS eps k (length u) p x 0 P c = RS eps k (length u) p x 0 P' c) ->
  forall x d, RS eps k (length u) p x d P c = RS eps k (length u) p x d P' c.
Proof.
  intros He Hp Hl Hi H24 LP LP' H x d. destruct (interlaced_knots k p u Hp Hl Hi) as (Hk & Hin).
  unfold RS. apply sumn_ext. intros i Hii. f_equal.
  apply (interlaced_unique eps k p u P P' c); auto; [left; exact H24|]. intros y Hy. 
  destruct (rv_eval eps k (length u) p Hk y 0 P (Hin y Hy) LP) as (z & E & V); [left; exact H24|].
  destruct (rv_eval eps k (length u) p Hk y 0 P' (Hin y Hy) LP') as (z' & E' & V'); [left; exact H24|].
  exists z, z'. split; [exact E|]. split; [exact E'|]. rewrite V, V'. apply (H y Hy).
Qed.

(** The poles of the iso curves. *)
Definition iso_v (s : surf R) (y : R) (dv : nat) : list (pt R) :=
  map (fun i c => sumn (s_nV s) (fun j => rv eps (s_kv s) (s_nV s) (s_degV s) y dv j * pole (s_poles s) c (i + s_nU s * j))) (seq 0 (s_nU s)).
Definition iso_u (s : surf R) (x : R) (du : nat) : list (pt R) :=
  map (fun j c => sumn (s_nU s) (fun i => rv eps (s_ku s) (s_nU s) (s_degU s) x du i * pole (s_poles s) c (i + s_nU s * j))) (seq 0 (s_nV s)).
Lemma iso_v_len s y dv : length (iso_v s y dv) = s_nU s. Proof. unfold iso_v. rewrite map_length, seq_length. reflexivity. Qed.
Lemma iso_u_len s x du : length (iso_u s x du) = s_nV s. Proof. unfold iso_u. rewrite map_length, seq_length. reflexivity. Qed.

Lemma iso_v_value s x y du dv : 0 < eps -> csurf eps s -> in_surface s x y ->
  exists z, surf_value s x y du dv = Ok z /\ forall c, z c = RS eps (s_ku s) (s_nU s) (s_degU s) x du (iso_v s y dv) c.
Proof.
  intros He H Hin. destruct (csurf_value eps s x y du dv He H Hin) as (z & E & _ & V). exists z. split; [exact E|]. intros c. rewrite V. unfold RS.
  rewrite (sumn_ext (s_nU s) _ (fun i => sumn (s_nV s) (fun j => rv eps (s_ku s) (s_nU s) (s_degU s) x du i *
    (rv eps (s_kv s) (s_nV s) (s_degV s) y dv j * pole (s_poles s) c (i + s_nU s * j))))).
  2:{ intros i Hi. rewrite sumn_scal. f_equal. unfold pole at 1. unfold iso_v. rewrite nth_map_seq by exact Hi. reflexivity. }
  rewrite sumn_swap. apply sumn_ext. intros j Hj. rewrite <- sumn_scal. apply sumn_ext. intros i Hi. ring.
Qed.
Lemma iso_u_value s x y du dv : 0 < eps -> csurf eps s -> in_surface s x y ->
  exists z, surf_value s x y du dv = Ok z /\ forall c, z c = RS eps (s_kv s) (s_nV s) (s_degV s) y dv (iso_u s x du) c.
Proof.
  intros He H Hin. destruct (csurf_value eps s x y du dv He H Hin) as (z & E & _ & V). exists z. split; [exact E|]. intros c. rewrite V. unfold RS.
  apply sumn_ext. intros j Hj. f_equal. unfold pole at 2. unfold iso_u. rewrite nth_map_seq by exact Hj. reflexivity.
Qed.

(** A loft as a clamped surface through its sections. *)
Lemma loft_csurf lu dim c0 rest (cs := c0 :: rest) (v kv : list R) q s : 0 < eps -> exact_solver lu -> (0 < dim)%nat ->
  loftable eps c0 cs -> (forall c, In c cs -> c_lo c = c_lo c0 /\ c_hi c = c_hi c0) -> (1 <= list_max (map c_deg cs))%nat ->
  (2 <= length cs)%nat -> (1 <= q <= 12)%nat -> strictly_increasing v -> length v = length cs ->
  build_simple_mult_flat_knots v (Nat.min q (length v - 1)) = Ok kv ->
  (forall x y, In x kv -> In y kv -> x = y \/ eps < Rabs (x - y)) ->
  loft lu dim cs v q = Ok s ->
  csurf eps s /\ s_degU s = list_max (map c_deg cs) /\ s_degV s = Nat.min q (length v - 1) /\ s_kv s = kv /\
  first_knot (s_ku s) = c_lo c0 /\ last_knot (s_ku s) = c_hi c0 /\
  (forall x, In x (s_ku s) -> exists c, In c cs /\ In x (c_knots c)) /\
  (forall x y, in_surface s x y <-> c_lo c0 <= x <= c_hi c0 /\ kn v 0 <= y <= kn v (length v - 1)) /\
  forall j c, nth_error cs j = Some c -> forall x d, c_lo c0 <= x <= c_hi c0 ->
    exists z z', value c x d = Ok z /\ surf_value s x (nth j v 0) d 0 = Ok z' /\ forall i, (i < dim)%nat -> z' i = z i.
Proof.
  intros He Hex Hdim Hl Hb Hm Hn Hq Sv Lv EK Sep E. unfold loft in E. cbv zeta in E.
  rewrite clamp_degree_eq in E by (cbn [cs length]; lia). rewrite <- Lv in E. set (q' := Nat.min q (length v - 1)) in *.
  rewrite EK in E. cbn [bind] in E. apply bind_inv in E as (((P & ku) & p) & EI & E).
  destruct (simple_knots eps v q' kv ltac:(lia) ltac:(lia) Sv EK) as (Hkv & Kv1 & Kv2 & K0 & K1 & Hv).
  destruct (unify_all eps (info_of c0) (map info_of rest) He (sections_info eps c0 rest Hl) (proj2 Hl)) as (k & us & EU & LU & Fk & Lk & Hm12 & _ & HIn & V).
  change (info_of c0 :: map info_of rest) with (map info_of cs) in *.
  set (m := list_max (map snd (map info_of cs))) in *.
  destruct (V 0%nat (info_of c0) eq_refl) as (P0 & N0 & C0 & Len0 & _).
  assert (EKP : ku = k /\ p = m).
  { unfold loft_info in EI. change (curves_info cs) with (map info_of cs) in EI.
    apply bind_inv in EI as (us1 & E1 & EI). apply bind_inv in EI as (us2 & E2 & EI).
    assert (E3 : us2 = us) by (rewrite E1 in EU; cbn [bind] in EU; congruence). subst us2.
    unfold get in EI. rewrite N0 in EI. cbn [bind] in EI. apply bind_inv in EI as (P1 & EP & EI). injection EI as <- <- <-. auto. }
  destruct EKP as [-> ->].
  pose proof (mk_surf_inv eps _ _ _ _ _ _ E) as Es.
  assert (Hev : evaluable_surface eps s) by (left; subst s; cbn [s_degU s_degV]; lia).
  destruct (loft_finish eps lu dim c0 rest v kv q' P k m s He Hex Hdim Hl Hkv Hv EI E Hev) as (A1 & A2 & _ & A3 & A4 & A5 & A6 & A7 & A8 & V').
  assert (Eku : s_ku s = k) by (subst s; reflexivity). assert (Ekv : s_kv s = kv) by (subst s; reflexivity).
  assert (Em : s_degU s = m) by (subst s; reflexivity).
  assert (CU : ckn_of eps (s_degU s) (s_ku s) (s_nU s)).
  { destruct C0 as (_ & U & M & CK & EK0 & EL0). rewrite Em, Eku. unfold knots_of in EK0. cbn [fst snd] in EK0. exists U, M. split; [exact CK|]. split; [exact EK0|].
    unfold s_nU. rewrite Em, Eku. unfold poles_of in EL0. cbn [fst snd] in EL0. lia. }
  assert (CV : ckn_of eps (s_degV s) (s_kv s) (s_nV s)).
  { unfold s_nV. rewrite A2, Ekv. replace (length kv - q' - 1)%nat with (length v) by (destruct Hkv as (L & _); lia).
    apply interlaced_ckn; auto; try lia. apply (averages_interlaced eps); auto; lia. }
  assert (HC : csurf eps s) by (split; [exact A7|]; split; [exact A8|]; split; [exact CU|]; split; [exact CV|]; lia).
  destruct (ckn_ok eps He _ _ _ CU) as (O1 & _ & O2 & O3 & O4). destruct (ckn_ok eps He _ _ _ CV) as (Q1 & _ & Q2 & Q3 & Q4).
  destruct (proj1 Hl c0 (or_introl eq_refl)) as ((_ & F0 & L0) & _).
  assert (First : first_knot (s_ku s) = c_lo c0) by (rewrite Eku, F0; exact Fk).
  assert (Last : last_knot (s_ku s) = c_hi c0) by (rewrite Eku, L0; exact Lk).
  assert (Id : forall c, In c cs -> forall x, rescale (c_knots c0) (c_knots c) x = x /\ ratio (c_knots c0) (c_knots c) = 1).
  { intros c Hc x. destruct (Hb c Hc) as [B1 B2]. destruct (proj1 Hl c Hc) as ((_ & Fc & Lc) & _).
    unfold rescale, ratio. rewrite <- Fc, <- Lc, <- F0, <- L0, B1, B2. split; field; lra. }
  split; [exact HC|]. split; [exact A1|]. split; [exact A2|]. split; [exact Ekv|]. split; [exact First|]. split; [exact Last|]. split.
  { intros x Hx. rewrite Eku in Hx. destruct (HIn x Hx) as (ci & y & Hc & Hy & ->). apply in_map_iff in Hc as (c & <- & Hc).
    exists c. split; [exact Hc|]. change (knots_of (info_of c)) with (c_knots c) in *. change (knots_of (info_of c0)) with (c_knots c0) in *.
    rewrite (proj1 (Id c Hc y)). exact Hy. }
  assert (Lkv : length kv = (length v + q' + 1)%nat) by apply Hkv.
  split.
  { intros x y. unfold in_surface, in_rect. rewrite <- O2, <- O3, First, Last. rewrite Ekv, A2. unfold s_nV. rewrite Ekv, A2.
    replace (length kv - q' - 1)%nat with (length v) by lia. rewrite Kv1, Kv2. tauto. }
  intros j c Hj x d Hx. assert (Hc : In c cs) by (apply nth_error_In in Hj; exact Hj).
  destruct (Hb c Hc) as [B1 B2]. destruct (V' j c Hj x d) as (_ & z & z' & Z1 & _ & Z2 & _ & Z3); [rewrite B1, B2; exact Hx|].
  destruct (Id c Hc x) as [I1 I2]. rewrite I1 in Z2. exists z, z'. split; [exact Z1|]. split; [exact Z2|]. intros i Hi. rewrite <- (Z3 i Hi), I2, pow1. ring.
Qed.
End AtR.
