(** Lemmas on directions and lengths (C85, C86). *)
From Coq Require Import List Arith ZArith Reals Lia Lra Bool.
From Verif Require Import Model_Base Model_Knots Model_Curve Model_Vec Model_Math Model_Wrap Model_Interp Model_Analysis
  Spec_Base Spec_Basis Spec_Build Spec_Knots Spec_Eval Spec_Class Spec_Interp Spec_Solve Spec_Analysis
  Proof_Base Proof_Build Proof_Builders Proof_Curve Proof_Interp2 Proof_Interp3 Proof_SW2 Proof_Analysis Proof_Analysis2.
Import ListNotations.
Local Open Scope R_scope.

Section AtR.
Variable eps : R.
Local Hint Extern 0 (Num R) => exact (NumR eps) : typeclass_instances.

(** ** Directions *)
Lemma norm_pos dim (t : pt R) : 0 < sqlen dim t -> 0 < norm sqrt dim t /\ norm sqrt dim t * norm sqrt dim t = sqlen dim t.
Proof. intros H. rewrite (norm_R eps). split; [apply sqrt_lt_R0; exact H|apply sqrt_sqrt; lra]. Qed.
Lemma unit_scal dim (t : pt R) s : 0 < s -> s * s = sqlen dim t -> sqlen dim (fun i => 1 / s * t i) = 1.
Proof. intros Hs E. rewrite sqlen_scal, <- E. field. lra. Qed.

Lemma tangent_ok dim (g : gcurve R) u t : g_value g u 1 = Ok t -> 0 < sqlen dim t ->
  exists d, tangential_direction sqrt dim g u = Ok d /\ sqlen dim d = 1 /\ exists s, 0 < s /\ forall i, t i = s * d i.
Proof.
  intros E Ht. unfold tangential_direction. rewrite E. cbn [bind]. destruct (norm_pos dim t Ht) as (Hp & Hs).
  rewrite (pdiv_ok eps) by lra. eexists. split; [reflexivity|]. split; [apply unit_scal; auto|].
  exists (norm sqrt dim t). split; [exact Hp|]. intros i. field. lra.
Qed.
Lemma tangent_zero dim (g : gcurve R) u t : g_value g u 1 = Ok t -> sqlen dim t = 0 -> tangential_direction sqrt dim g u = Undef DivByZero.
Proof.
  intros E Ht. unfold tangential_direction, pdiv. rewrite E. cbn [bind]. rewrite (norm_R eps), Ht, sqrt_0. unfold divc.
  replace (neqb 0 n0) with true; [reflexivity|]. symmetry. apply (neqb_true eps). reflexivity.
Qed.

Lemma normal2_ok (g : gcurve R) u t : g_value g u 1 = Ok t -> 0 < sqlen 2 t ->
  exists n, normal_direction2 sqrt g u = Ok n /\ sqlen 2 n = 1 /\ t 0%nat * n 0%nat + t 1%nat * n 1%nat = 0 /\
    0 < t 0%nat * n 1%nat - t 1%nat * n 0%nat.
Proof.
  intros E Ht. unfold normal_direction2. rewrite E. cbn [bind]. set (m := fun i => match i with 0%nat => nopp (t 1%nat) | 1%nat => t 0%nat | _ => n0 end).
  assert (Em : sqlen 2 m = sqlen 2 t) by (unfold m; cbn [sqlen]; nsimp; ring). rewrite <- Em in Ht.
  destruct (norm_pos 2 m Ht) as (Hp & Hs). rewrite (pdiv_ok eps) by lra. eexists. split; [reflexivity|].
  split; [apply unit_scal; auto|]. unfold m. nsimp. fold m. split; [field; lra|].
  replace (t 0%nat * (1 / norm sqrt 2 m * t 0%nat) - t 1%nat * (1 / norm sqrt 2 m * - t 1%nat)) with (norm sqrt 2 m); [exact Hp|].
  apply Rmult_eq_reg_r with (norm sqrt 2 m); [|lra]. rewrite Hs, Em. cbn [sqlen]. field. lra.
Qed.

Lemma normal3_ok (g : gcurve R) u (t c : pt R) : g_value g u 1 = Ok t -> g_value g u 2 = Ok c -> 0 < sqlen 3 (cross t c) ->
  exists n, normal_direction3 sqrt g u = Ok n /\ sqlen 3 n = 1 /\ dot 3 t n = 0 /\ dot 3 c n < 0 /\
    exists a b, forall i, (i < 3)%nat -> n i = a * t i + b * c i.
Proof.
  intros E1 E2 Hc. unfold normal_direction3. rewrite E1, E2. cbn [bind]. destruct (norm_pos 3 _ Hc) as (Hp & Hs).
  rewrite (pdiv_ok eps) by lra. cbn [bind].
  assert (Ht : 0 < sqlen 3 t).
  { pose proof (sqlen_nonneg 3 t) as H. destruct (Req_dec (sqlen 3 t) 0) as [Z|]; [|lra]. exfalso. pose proof (sqlen_zero 3 t Z) as Zt.
    assert (sqlen 3 (cross t c) = 0); [|lra]. cbn [sqlen cross]. nsimp. rewrite !(Zt 0%nat), !(Zt 1%nat), !(Zt 2%nat) by lia. ring. }
  destruct (norm_pos 3 t Ht) as (Tp & Ts). rewrite (pdiv_ok eps) by lra. eexists. split; [reflexivity|].
  set (K := norm sqrt 3 (cross t c)) in *. set (N := norm sqrt 3 t) in *.
  assert (EK : K * K = sqlen 3 t * sqlen 3 c - dot 3 t c ^ 2) by (rewrite Hs; cbn [sqlen cross dot]; nsimp; ring).
  assert (EN : forall i, (i < 3)%nat -> 1 / N * cross t (fun i => 1 / K * cross t c i) i = (dot 3 t c / (N * K)) * t i + (- (N / K)) * c i).
  { assert (HN : N * N = t 0%nat * t 0%nat + t 1%nat * t 1%nat + t 2%nat * t 2%nat) by (rewrite Ts; cbn [sqlen]; ring).
    intros i Hi. apply Rmult_eq_reg_r with (N * K); [|apply Rmult_integral_contrapositive; lra].
    replace ((dot 3 t c / (N * K) * t i + - (N / K) * c i) * (N * K)) with (dot 3 t c * t i - N * N * c i) by (field; lra). rewrite HN.
    replace (1 / N * cross t (fun i0 => 1 / K * cross t c i0) i * (N * K)) with (cross t (cross t c) i).
    - destruct i as [|[|[|i]]]; [| | |lia]; cbn [cross dot]; nsimp; ring.
    - destruct i as [|[|[|i]]]; [| | |lia]; cbn [cross]; nsimp; field; lra. }
  set (n := fun i => 1 / N * cross t (fun i => 1 / K * cross t c i) i) in *.
  assert (EN' : forall i, (i < 3)%nat -> n i = (dot 3 t c / (N * K)) * t i + (- (N / K)) * c i) by exact EN. clear EN. rename EN' into EN.
  assert (Ln : sqlen 3 n = sqlen 3 (fun i => (dot 3 t c / (N * K)) * t i + (- (N / K)) * c i)) by (apply sqlen_ext; exact EN).
  assert (Dn : forall a, dot 3 a n = dot 3 t c / (N * K) * dot 3 a t - N / K * dot 3 a c).
  { clearbody n K N. intros a. cbn [dot] in *. nsimp. rewrite !(EN 0%nat), !(EN 1%nat), !(EN 2%nat) by lia. unfold Rdiv. ring. }
  split; [|split; [|split; [|exists (dot 3 t c / (N * K)), (- (N / K)); exact EN]]].
  - rewrite Ln. replace (sqlen 3 (fun i => dot 3 t c / (N * K) * t i + - (N / K) * c i))
      with ((dot 3 t c / (N * K)) ^ 2 * sqlen 3 t - 2 * (dot 3 t c / (N * K)) * (N / K) * dot 3 t c + (N / K) ^ 2 * sqlen 3 c)
      by (cbn [sqlen dot]; nsimp; ring).
    rewrite <- Ts. apply Rmult_eq_reg_r with (K * K); [|nra]. rewrite Rmult_1_l. transitivity (N * N * sqlen 3 c - dot 3 t c ^ 2); [field; lra|rewrite EK, Ts; ring].
  - rewrite Dn. change (dot 3 t t) with (sq_norm 3 t). rewrite (sq_norm_R eps), <- Ts. field. lra.
  - rewrite Dn. replace (dot 3 c t) with (dot 3 t c) by (cbn [dot]; nsimp; ring). change (dot 3 c c) with (sq_norm 3 c). rewrite (sq_norm_R eps).
    replace (dot 3 t c / (N * K) * dot 3 t c - N / K * sqlen 3 c) with (- (K / N)); [assert (0 < K / N) by (apply Rdiv_lt_0_compat; lra); lra|].
    apply Rmult_eq_reg_r with (N * K); [|nra]. replace (- (K / N) * (N * K)) with (- (K * K)) by (field; lra). rewrite EK, <- Ts. field. lra.
Qed.

(** A planar curve: the normal of the plane and the normal of space. *)
Lemma normals_meet (g : gcurve R) u (t c : pt R) : g_value g u 1 = Ok t -> g_value g u 2 = Ok c -> t 2%nat = 0 -> c 2%nat = 0 ->
  let turn := t 0%nat * c 1%nat - t 1%nat * c 0%nat in turn <> 0 ->
  exists n2 n3, normal_direction2 sqrt g u = Ok n2 /\ normal_direction3 sqrt g u = Ok n3 /\
    forall i, (i < 2)%nat -> n3 i = (if Rlt_dec 0 turn then - n2 i else n2 i).
Proof.
  intros E1 E2 Zt Zc turn Hturn.
  assert (Hc : 0 < sqlen 3 (cross t c)).
  { replace (sqlen 3 (cross t c)) with (turn ^ 2) by (unfold turn; cbn [sqlen cross]; nsimp; rewrite Zt, Zc; ring). pose proof (Rsqr_pos_lt turn Hturn) as Hsq. unfold Rsqr in Hsq. nra. }
  assert (Ht : 0 < sqlen 2 t).
  { pose proof (sqlen_nonneg 2 t) as H. destruct (Req_dec (sqlen 2 t) 0) as [Z|]; [|lra]. exfalso. pose proof (sqlen_zero 2 t Z) as Z'.
    apply Hturn. unfold turn. rewrite (Z' 0%nat), (Z' 1%nat) by lia. ring. }
  destruct (normal2_ok g u t E1 Ht) as (n2 & En2 & U2 & O2 & P2).
  destruct (normal3_ok g u t c E1 E2 Hc) as (n3 & En3 & U3 & O3 & N3 & a & b & H3). exists n2, n3. split; [exact En2|]. split; [exact En3|].
  pose proof (H3 2%nat ltac:(lia)) as Z3. rewrite Zt, Zc in Z3.
  cbn [dot] in O3, N3. nsimp. cbn [sqlen] in U2, U3, Ht. rewrite Zt in O3. rewrite Zc in N3.
  assert (Z3' : n3 2%nat = 0) by lra. clear Z3. rewrite Z3' in *.
  set (T0 := t 0%nat) in *. set (T1 := t 1%nat) in *. set (A0 := n2 0%nat) in *. set (A1 := n2 1%nat) in *. set (B0 := n3 0%nat) in *. set (B1 := n3 1%nat) in *.
  set (C0 := c 0%nat) in *. set (C1 := c 1%nat) in *.
  assert (LB : (B0 * T1 - B1 * T0) * (B0 * T1 - B1 * T0) = T0 ^ 2 + T1 ^ 2).
  { transitivity ((B0 ^ 2 + B1 ^ 2) * (T0 ^ 2 + T1 ^ 2) - (T0 * B0 + T1 * B1) ^ 2); [ring|].
    replace (B0 ^ 2 + B1 ^ 2) with 1 by lra. replace (T0 * B0 + T1 * B1) with 0 by lra. ring. }
  assert (LA : (T0 * A1 - T1 * A0) * (T0 * A1 - T1 * A0) = T0 ^ 2 + T1 ^ 2).
  { transitivity ((A0 ^ 2 + A1 ^ 2) * (T0 ^ 2 + T1 ^ 2) - (T0 * A0 + T1 * A1) ^ 2); [ring|].
    replace (A0 ^ 2 + A1 ^ 2) with 1 by lra. replace (T0 * A0 + T1 * A1) with 0 by lra. ring. }
  set (k := T0 * A1 - T1 * A0) in *. set (h := T0 * B1 - T1 * B0) in *.
  assert (Eh : h = k \/ h = - k).
  { assert (E : (h - k) * (h + k) = 0) by (unfold h in *; nra). apply Rmult_integral in E as [E|E]; [left|right]; lra. }
  assert (HB0 : B0 * (T0 ^ 2 + T1 ^ 2) = - T1 * h) by (unfold h; replace (B0 * (T0 ^ 2 + T1 ^ 2)) with (- T1 * (T0 * B1 - T1 * B0) + T0 * (T0 * B0 + T1 * B1)) by ring; replace (T0 * B0 + T1 * B1) with 0 by lra; ring).
  assert (HB1 : B1 * (T0 ^ 2 + T1 ^ 2) = T0 * h) by (unfold h; replace (B1 * (T0 ^ 2 + T1 ^ 2)) with (T0 * (T0 * B1 - T1 * B0) + T1 * (T0 * B0 + T1 * B1)) by ring; replace (T0 * B0 + T1 * B1) with 0 by lra; ring).
  assert (HA0 : A0 * (T0 ^ 2 + T1 ^ 2) = - T1 * k) by (unfold k; replace (A0 * (T0 ^ 2 + T1 ^ 2)) with (- T1 * (T0 * A1 - T1 * A0) + T0 * (T0 * A0 + T1 * A1)) by ring; replace (T0 * A0 + T1 * A1) with 0 by lra; ring).
  assert (HA1 : A1 * (T0 ^ 2 + T1 ^ 2) = T0 * k) by (unfold k; replace (A1 * (T0 ^ 2 + T1 ^ 2)) with (T0 * (T0 * A1 - T1 * A0) + T1 * (T0 * A0 + T1 * A1)) by ring; replace (T0 * A0 + T1 * A1) with 0 by lra; ring).
  assert (Hq : 0 < T0 ^ 2 + T1 ^ 2) by lra. fold turn in Hturn. assert (Et : turn = T0 * C1 - T1 * C0) by reflexivity.
  assert (HN : (C0 * B0 + C1 * B1) * (T0 ^ 2 + T1 ^ 2) = turn * h).
  { rewrite Et. transitivity (C0 * (B0 * (T0 ^ 2 + T1 ^ 2)) + C1 * (B1 * (T0 ^ 2 + T1 ^ 2))); [ring|]. rewrite HB0, HB1. ring. }
  assert (HN' : turn * h < 0) by (rewrite <- HN; rewrite <- (Rmult_0_l (T0 ^ 2 + T1 ^ 2)); apply Rmult_lt_compat_r; lra).
  assert (Eh' : h = if Rlt_dec 0 turn then - k else k).
  { clear - Eh HN' P2 Hturn. clearbody h k turn. destruct (Rlt_dec 0 turn) as [Hl|Hl]; destruct Eh as [Eh|Eh]; auto; exfalso; subst h.
    - pose proof (Rmult_lt_0_compat turn k Hl P2). lra.
    - assert (Hl' : 0 < - turn) by lra. pose proof (Rmult_lt_0_compat (- turn) k Hl' P2). lra. }
  destruct (Rlt_dec 0 turn); intros [|[|i]] Hi; try lia; fold A0 A1 B0 B1; apply Rmult_eq_reg_r with (T0 ^ 2 + T1 ^ 2); try lra;
    rewrite ?HB0, ?HB1, Eh'; rewrite <- ?Ropp_mult_distr_l, ?HA0, ?HA1; ring.
Qed.

(** ** Length *)
Lemma sqlen_derivable dim (C : R -> pt R) (D : pt R) x : (forall i, (i < dim)%nat -> derivable_pt_lim (fun x => C x i) x (D i)) ->
  derivable_pt_lim (fun x => sqlen dim (C x)) x (2 * dot dim (C x) D).
Proof.
  induction dim as [|m IH]; intros H; cbn [sqlen dot]; nsimp.
  - replace (2 * 0) with 0 by ring. apply derivable_pt_lim_const.
  - replace (2 * (dot m (C x) D + C x m * D m)) with (2 * dot m (C x) D + (D m * C x m + C x m * D m)) by ring.
    apply (derivable_pt_lim_plus (fun x => sqlen m (C x)) (fun x => C x m ^ 2)); [apply IH; auto|].
    apply (derivable_pt_lim_ext (fun x => C x m * C x m)); [intros; ring|].
    apply (derivable_pt_lim_mult (fun x => C x m) (fun x => C x m)); auto.
Qed.
Lemma speed_derivable dim (C : R -> pt R) (D : pt R) x : 0 < sqlen dim (C x) ->
  (forall i, (i < dim)%nat -> derivable_pt_lim (fun x => C x i) x (D i)) ->
  derivable_pt_lim (fun x => sqrt (sqlen dim (C x))) x (dot dim (C x) D / sqrt (sqlen dim (C x))).
Proof.
  intros Hp H. assert (S0 : 0 < sqrt (sqlen dim (C x))) by (apply sqrt_lt_R0; exact Hp).
  replace (dot dim (C x) D / sqrt (sqlen dim (C x))) with (/ (2 * sqrt (sqlen dim (C x))) * (2 * dot dim (C x) D)) by (field; lra).
  apply (derivable_pt_lim_comp (fun x => sqlen dim (C x)) sqrt); [apply sqlen_derivable; exact H|]. apply derivable_pt_lim_sqrt. exact Hp.
Qed.

Lemma lengths_ok dim quad (g : gcurve R) a b (C1 C2 : R -> pt R) :
  (forall x, a <= x <= b -> g_value g x 1 = Ok (C1 x) /\ g_value g x 2 = Ok (C2 x) /\ 0 < sqlen dim (C1 x)) ->
  (forall x i, a < x < b -> (i < dim)%nat -> derivable_pt_lim (fun x => C1 x i) x (C2 x i)) ->
  integrates quad (fun x => sqrt (sqlen dim (C1 x))) a b ->
  exists L0 L1 L2 : R -> R, L0 a = 0 /\
    (forall x, a <= x <= b -> length_ sqrt dim quad g a x 0 = Ok (L0 x) /\ length_ sqrt dim quad g a x 1 = Ok (L1 x) /\ length_ sqrt dim quad g a x 2 = Ok (L2 x) /\
       L1 x = sqrt (sqlen dim (C1 x))) /\
    (forall x, a < x < b -> derivable_pt_lim L0 x (L1 x) /\ derivable_pt_lim L1 x (L2 x)).
Proof.
  intros Hg Hd Hi. set (L1 := fun x => sqrt (sqlen dim (C1 x))).
  destruct (Hi (fun u => let* v := g_value g u 1 in Ok (norm sqrt dim v))) as (L0 & Z & HL).
  { intros x Hx. destruct (Hg x Hx) as (-> & _). cbn [bind]. rewrite (norm_R eps). reflexivity. }
  exists L0, L1, (fun x => dot dim (C1 x) (C2 x) / L1 x). split; [exact Z|]. split.
  - intros x Hx. destruct (HL x Hx) as (E & _). destruct (Hg x Hx) as (E1 & E2 & Hp). cbn [length_]. split; [exact E|].
    rewrite E1, E2. cbn [bind]. rewrite (norm_R eps). split; [reflexivity|]. split; [|reflexivity].
    assert (0 < sqrt (sqlen dim (C1 x))) by (apply sqrt_lt_R0; exact Hp). rewrite (divc_ok eps) by lra. reflexivity.
  - intros x Hx. split; [apply (HL x); [lra|exact Hx]|]. apply speed_derivable; [apply (Hg x); lra|]. intros i Hi'. apply Hd; auto.
Qed.
Lemma length_throws dim quad (g : gcurve R) a b d : (3 <= d)%nat -> length_ sqrt dim quad g a b d = Throw RuntimeError.
Proof. intros H. destruct d as [|[|[|d]]]; try lia. reflexivity. Qed.

(** ** Cumulated lengths *)
Lemma cumulated_ok (len : R -> R -> result R) (D : nat -> R) u : (1 <= length u)%nat ->
  (forall i, (S i < length u)%nat -> len (kn u i) (kn u (S i)) = Ok (D i)) ->
  exists m, cumulated len u = Ok m /\ length m = length u /\ forall i, (i < length u)%nat -> kn m i = sumn i D.
Proof.
  destruct u as [|u0 t]; [cbn [length]; lia|]. intros _ H. unfold cumulated.
  assert (G : forall t a k m, length m = S k -> (forall i, (i <= k)%nat -> kn m i = sumn i D) ->
    (forall i, (i < length t)%nat -> len (kn (a :: t) i) (kn (a :: t) (S i)) = Ok (D (k + i)%nat)) ->
    exists m' z, foldM (fun (st : list R * R) u2 => let '(m, u1) := st in let* dm := len u1 u2 in let* s := back m in Ok (m ++ [nadd s dm], u2)) (m, a) t = Ok (m', z) /\
      length m' = S (k + length t) /\ forall i, (i <= k + length t)%nat -> kn m' i = sumn i D).
  { clear. intros t. induction t as [|b t IH]; intros a k m Lm Km Hd.
    - exists m, a. split; [reflexivity|]. cbn [length]. rewrite Nat.add_0_r. auto.
    - cbn [foldM]. pose proof (Hd 0%nat ltac:(cbn [length]; lia)) as H0. unfold kn at 1 2 in H0. cbn [nth] in H0. rewrite H0, Nat.add_0_r. cbn [bind].
      assert (Eb : back m = Ok (kn m k)).
      { rewrite (back_nth m 0) by lia. rewrite Lm. f_equal. unfold kn. f_equal. lia. }
      rewrite Eb. cbn [bind]. destruct (IH b (S k) (m ++ [nadd (kn m k) (D k)])) as (m' & z & E & L & K).
      + rewrite app_length. cbn [length]. lia.
      + intros i Hi. destruct (Nat.eq_dec i (S k)) as [->|Hne].
        * unfold kn at 1. rewrite app_nth2 by lia. rewrite Lm, Nat.sub_diag. cbn [nth sumn]. nsimp. rewrite Km by lia. reflexivity.
        * unfold kn. rewrite app_nth1 by lia. apply Km. lia.
      + intros i Hi. specialize (Hd (S i) ltac:(cbn [length]; lia)). replace (S k + i)%nat with (k + S i)%nat by lia. exact Hd.
      + exists m', z. split; [exact E|]. cbn [length]. split; [lia|]. intros i Hi. apply K. lia. }
  destruct (G t u0 0%nat [n0] eq_refl) as (m & z & E & L & K).
  { intros i Hi. replace i with 0%nat by lia. reflexivity. }
  { intros i Hi. cbn [Nat.add]. apply H. cbn [length]. lia. }
  exists m. rewrite E. cbn [bind length] in *. split; [reflexivity|]. split; [lia|]. intros i Hi. apply K. lia.
Qed.

Lemma measured_range len L u1 u2 n u : measures len L u1 u2 -> u1 < u2 -> (2 <= n)%nat ->
  length u = n -> (forall i, (i < n)%nat -> kn u i = spread u1 u2 n i) ->
  (forall i, (S i < n)%nat -> kn u i < kn u (S i)) /\ (forall i, (i < n)%nat -> u1 <= kn u i <= u2) /\
  (forall i, (i < n)%nat -> sumn i (fun j => L (kn u j) (kn u (S j))) = L u1 (kn u i)).
Proof.
  intros (M1 & M2 & M3) Hu Hn Lu Ku. assert (2 <= INR n) by (replace 2 with (INR 2) by (simpl; ring); apply le_INR; exact Hn).
  assert (HI : forall i, (i < n)%nat -> u1 <= kn u i <= u2) by (intros i Hi; rewrite Ku by exact Hi; apply spread_in; auto).
  assert (HS : forall i, (S i < n)%nat -> kn u i < kn u (S i)).
  { intros i Hi. rewrite !Ku by lia. unfold spread. rewrite S_INR. apply Rplus_lt_compat_l. unfold Rdiv. apply Rmult_lt_compat_r; [apply Rinv_0_lt_compat; lra|].
    apply Rmult_lt_compat_l; lra. }
  split; [exact HS|]. split; [exact HI|]. intros i. induction i as [|i IH]; intros Hi; cbn [sumn].
  - rewrite Ku, spread_first by lia. pose proof (M3 u1 u1 u1). lra.
  - rewrite IH by lia. pose proof (HI i ltac:(lia)). pose proof (HI (S i) Hi). pose proof (HS i Hi). rewrite M3; lra.
Qed.

Lemma range_spread u1 u2 n : (2 <= n)%nat -> exists u, make_range u1 u2 n = Ok u /\ length u = n /\ forall i, (i < n)%nat -> kn u i = spread u1 u2 n i.
Proof.
  intros Hn. destruct (range_spec eps u1 u2 n) as (_ & Hr). destruct (Hr Hn) as (u & E & L & _ & _ & K & _). exists u. split; [exact E|]. split; [exact L|].
  intros i Hi. rewrite K by exact Hi. unfold spread. rewrite minus_INR by lia. change (INR 1) with 1. field. apply Rgt_not_eq, Rlt_gt, Rlt_Rminus. apply (lt_INR 1); lia.
Qed.

Lemma law_ok sparse len L u1 u2 n p : complete_solver sparse -> 0 <= eps -> (1 <= p <= 24)%nat -> (2 <= n)%nat -> u1 < u2 -> measures len L u1 u2 ->
  exists c, abs_curv_law sparse len u1 u2 n p = Ok c /\ bounds c = (0, L u1 u2) /\
    forall i, (i < n)%nat -> passes eps 1 c (L u1 (spread u1 u2 n i)) 0 (fun _ => spread u1 u2 n i).
Proof.
  intros Hsol He Hp Hn Hu Hm. destruct (range_spread u1 u2 n Hn) as (u & Eu & Lu & Ku).
  destruct (measured_range len L u1 u2 n u Hm Hu Hn Lu Ku) as (HS & HI & HL).
  destruct (cumulated_ok len (fun j => L (kn u j) (kn u (S j))) u ltac:(lia)) as (m & Em & Lm & Km).
  { intros i Hi. rewrite Lu in Hi. destruct Hm as (M1 & _). apply M1; [apply HI; lia|left; apply HS; lia|apply HI; lia]. }
  assert (Km' : forall i, (i < n)%nat -> kn m i = L u1 (spread u1 u2 n i)).
  { intros i Hi. rewrite Km by lia. rewrite HL, Ku by exact Hi. reflexivity. }
  unfold abs_curv_law. rewrite Eu. cbn [bind]. rewrite Em. cbn [bind]. rewrite Lu.
  set (Q := map (fun x (_ : nat) => x) u : list (pt R)). assert (LQ : length Q = n) by (unfold Q; rewrite map_length; exact Lu).
  assert (Inc : strictly_increasing m).
  { assert (G : forall d i, (i + S d < n)%nat -> kn m i < kn m (i + S d)).
    { assert (Step : forall i, (S i < n)%nat -> kn m i < kn m (S i)).
      { intros i Hi. rewrite !Km by lia. cbn [sumn]. destruct Hm as (_ & M2 & _).
        pose proof (M2 (kn u i) (kn u (S i)) ltac:(apply HI; lia) (HS i Hi) ltac:(apply HI; lia)). lra. }
      intros d. induction d as [|d IH]; intros i Hi; [rewrite Nat.add_1_r; apply Step; lia|].
      specialize (IH i ltac:(lia)). replace (i + S (S d))%nat with (S (i + S d)) by lia. specialize (Step (i + S d)%nat ltac:(lia)). lra. }
    intros i j Hij Hj. replace j with (i + S (j - i - 1))%nat by lia. apply G. lia. }
  assert (LmQ : length m = length Q) by (rewrite LQ, Lm; exact Lu).
  assert (Hp1 : (1 <= Nat.min p (n - 1) <= 24)%nat) by lia. assert (Hp2 : (Nat.min p (n - 1) < length Q)%nat) by lia.
  destruct (interpolate_returns eps sparse 1 Q m (Nat.min p (n - 1)) Hsol He Hp1 Hp2 LmQ Inc) as (c & Ec). exists c. split; [exact Ec|].
  assert (Hev : evaluable eps (c_knots c) (length Q) (Nat.min p (n - 1))) by (left; lia).
  destruct (interpolate_ok eps sparse 1 Q m (Nat.min p (n - 1)) c (proj1 Hsol) He ltac:(lia) Hp2 LmQ Inc Ec Hev) as (_ & _ & Hb & Hpass).
  split.
  - rewrite Hb, LQ, !Km' by lia. rewrite spread_last by exact Hn. rewrite spread_first. f_equal. destruct Hm as (_ & _ & M3). pose proof (M3 u1 u1 u1). lra.
  - intros i Hi. specialize (Hpass i ltac:(lia)). fold (kn m i) in Hpass. rewrite Km' in Hpass by exact Hi.
    assert (EQ : nth i Q (fun _ => 0) = (fun _ : nat => spread u1 u2 n i)).
    { unfold Q. rewrite (nth_indep _ (fun _ : nat => 0) ((fun x (_ : nat) => x) 0)) by (rewrite map_length; lia).
      rewrite (map_nth (fun x (_ : nat) => x)). fold (kn u i). rewrite Ku by exact Hi. reflexivity. }
    rewrite EQ in Hpass. exact Hpass.
Qed.

Lemma uneven_R (len : R -> R -> result R) tol a b x y z : len a ((a + b) / 2) = Ok x -> len ((a + b) / 2) b = Ok y -> len a b = Ok z -> 0 < z ->
  uneven len tol a b = Ok (Rltb tol (Rabs (x + y - z) / z)).
Proof.
  intros E1 E2 E3 Hz. unfold uneven. rewrite (middle_R eps), E1, E2, E3. cbn [bind]. rewrite (nabs_R eps).
  destruct (neqb z n0) eqn:Z; [apply (neqb_true eps) in Z; nsimp; lra|]. reflexivity.
Qed.

Lemma adaptive_ok len L u1 u2 n tol : 0 <= tol -> (2 <= n)%nat -> u1 < u2 -> measures len L u1 u2 ->
  exists u m, abs_curv_adaptive_discretization len u1 u2 n tol = Ok (u, m) /\ length u = n /\ length m = n /\
    forall i, (i < n)%nat -> nth i u 0 = spread u1 u2 n i /\ nth i m 0 = L u1 (spread u1 u2 n i).
Proof.
  intros Ht Hn Hu Hm. destruct (range_spread u1 u2 n Hn) as (u & Eu & Lu & Ku).
  destruct (measured_range len L u1 u2 n u Hm Hu Hn Lu Ku) as (HS & HI & HL).
  destruct (cumulated_ok len (fun j => L (kn u j) (kn u (S j))) u ltac:(lia)) as (m & Em & Lm & Km).
  { intros i Hi. rewrite Lu in Hi. destruct Hm as (M1 & _). apply M1; [apply HI; lia|left; apply HS; lia|apply HI; lia]. }
  exists u, m. unfold abs_curv_adaptive_discretization. rewrite Eu. cbn [bind].
  assert (P : match u with [] => Undef BadIterator | a :: t => adaptive_pass len tol a t end = Ok tt).
  { destruct u as [|a t]; [cbn [length] in Lu; lia|]. clear Eu Em Km HL Ku.
    assert (G : forall t a, (forall i, (i <= length t)%nat -> u1 <= kn (a :: t) i <= u2) -> (forall i, (i < length t)%nat -> kn (a :: t) i < kn (a :: t) (S i)) ->
      adaptive_pass len tol a t = Ok tt).
    { clear - Hm Ht. intros t. induction t as [|b t IH]; intros a HI HS; [reflexivity|]. cbn [adaptive_pass].
      pose proof (HI 0%nat ltac:(lia)) as I0. pose proof (HI 1%nat ltac:(cbn [length]; lia)) as I1. pose proof (HS 0%nat ltac:(cbn [length]; lia)) as S0.
      unfold kn in I0, I1, S0. cbn [nth] in I0, I1, S0. destruct Hm as (M1 & M2 & M3).
      rewrite (uneven_R len tol a b (L a ((a + b) / 2)) (L ((a + b) / 2) b) (L a b)) by (first [apply M1; lra|apply M2; lra]).
      cbn [bind]. rewrite M3 by lra. replace (L a b - L a b) with 0 by ring. rewrite Rabs_R0. unfold Rdiv. rewrite Rmult_0_l.
      unfold Rltb. destruct (Rlt_dec tol 0); [lra|]. apply IH.
      - intros i Hi. apply (HI (S i)). cbn [length]. lia.
      - intros i Hi. apply (HS (S i)). cbn [length]. lia. }
    cbn [length] in Lu. apply G; intros i Hi; [apply HI; lia|apply HS; lia]. }
  rewrite P. cbn [bind]. rewrite Em. cbn [bind]. split; [reflexivity|]. split; [exact Lu|]. split; [lia|].
  intros i Hi. fold (kn u i) (kn m i). rewrite Km by lia. rewrite HL by exact Hi. rewrite Ku by exact Hi. auto.
Qed.

Lemma adaptive_undefined len (L : R -> R -> R) u1 u2 n tol i : (2 <= n)%nat -> u1 < u2 ->
  (forall a b, u1 <= a -> a <= b -> b <= u2 -> len a b = Ok (L a b)) -> (forall a b, u1 <= a -> a < b -> b <= u2 -> 0 < L a b) ->
  (S i < n)%nat -> let a := spread u1 u2 n i in let b := spread u1 u2 n (S i) in
  tol < Rabs (L a ((a + b) / 2) + L ((a + b) / 2) b - L a b) / L a b ->
  abs_curv_adaptive_discretization len u1 u2 n tol = Undef BadIterator.
Proof.
  intros Hn Hu M1 M2 Hi a b Hbad. destruct (range_spread u1 u2 n Hn) as (u & Eu & Lu & Ku).
  assert (N2 : 2 <= INR n) by (replace 2 with (INR 2) by (simpl; ring); apply le_INR; exact Hn).
  assert (HI : forall i, (i < n)%nat -> u1 <= kn u i <= u2) by (intros j Hj; rewrite Ku by exact Hj; apply spread_in; auto).
  assert (HS : forall i, (S i < n)%nat -> kn u i < kn u (S i)).
  { intros j Hj. rewrite !Ku by lia. unfold spread. rewrite S_INR. apply Rplus_lt_compat_l. unfold Rdiv. apply Rmult_lt_compat_r; [apply Rinv_0_lt_compat; lra|].
    apply Rmult_lt_compat_l; lra. }
  unfold abs_curv_adaptive_discretization. rewrite Eu. cbn [bind].
  assert (P : match u with [] => Undef BadIterator | a :: t => adaptive_pass len tol a t end = Undef BadIterator); [|rewrite P; reflexivity].
  destruct u as [|c t]; [reflexivity|].
  assert (Hbad' : tol < Rabs (L (kn (c :: t) i) ((kn (c :: t) i + kn (c :: t) (S i)) / 2) + L ((kn (c :: t) i + kn (c :: t) (S i)) / 2) (kn (c :: t) (S i)) - L (kn (c :: t) i) (kn (c :: t) (S i))) / L (kn (c :: t) i) (kn (c :: t) (S i))).
  { rewrite !Ku by lia. exact Hbad. }
  clear Hbad a b Eu Ku Hn N2 Hu. subst n. cbn [length] in *. revert c i HI HS Hi Hbad'.
  induction t as [|d t IH]; intros c i HI HS Hi Hbad; [cbn [length] in Hi; lia|]. cbn [adaptive_pass].
  pose proof (HI 0%nat ltac:(lia)) as I0. pose proof (HI 1%nat ltac:(cbn [length]; lia)) as I1. pose proof (HS 0%nat ltac:(cbn [length]; lia)) as S0.
  unfold kn in I0, I1, S0. cbn [nth] in I0, I1, S0.
  rewrite (uneven_R len tol c d (L c ((c + d) / 2)) (L ((c + d) / 2) d) (L c d)) by (first [apply M1; lra|apply M2; lra]). cbn [bind].
  unfold Rltb. destruct (Rlt_dec _ _) as [|Hlt]; [reflexivity|]. destruct i as [|i]; [contradiction|].
  apply (IH d i); [| |cbn [length] in *; lia|exact Hbad].
  - intros j Hj. apply (HI (S j)). cbn [length]. lia.
  - intros j Hj. apply (HS (S j)). cbn [length]. lia.
Qed.
End AtR.
