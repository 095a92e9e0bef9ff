(** Lemmas on the builders of Model_Build.v: segments, ellipses, derived and integrated
    curves. *)
From Coq Require Import List Arith ZArith Reals Lia Lra Permutation FunctionalExtensionality.
From Verif Require Import Model_Base Model_Basis Model_Rational Model_Vec Model_Curve Model_Build
  Spec_Base Spec_Basis Spec_Eval Spec_Rational Spec_Class Spec_Build
  Proof_Base Proof_Blossom Proof_Basis Proof_Ders Proof_Eval Proof_PropBasis Proof_Refine Proof_Unique
  Proof_PropRemove2 Proof_Rational Proof_Quotient Proof_Ctor Proof_Curve Proof_Trim.
Import ListNotations.
Local Open Scope R_scope.

Lemma sqlen_nonneg dim a : 0 <= sqlen dim a.
Proof. induction dim as [|m IH]; cbn [sqlen]; [lra|]. pose proof (pow2_ge_0 (a m)). lra. Qed.
Lemma sqlen_ext dim a b : (forall i, (i < dim)%nat -> a i = b i) -> sqlen dim a = sqlen dim b.
Proof. induction dim as [|m IH]; cbn [sqlen]; intros E; [reflexivity|]. rewrite IH, (E m) by auto. reflexivity. Qed.
Lemma sqlen_scal dim s a : sqlen dim (fun i => s * a i) = s ^ 2 * sqlen dim a.
Proof. induction dim as [|m IH]; cbn [sqlen]; [ring|]. rewrite IH. ring. Qed.
Lemma sqlen_zero dim a : sqlen dim a = 0 -> forall i, (i < dim)%nat -> a i = 0.
Proof.
  induction dim as [|m IH]; cbn [sqlen]; intros E i Hi; [lia|].
  pose proof (sqlen_nonneg m a). pose proof (pow2_ge_0 (a m)).
  destruct (Nat.eq_dec i m) as [->|Hne]; [|apply IH; [lra|lia]].
  assert (a m ^ 2 = 0) by lra. destruct (Req_dec (a m) 0) as [|Hz]; auto. exfalso. apply (pow_nonzero _ 2 Hz). auto.
Qed.

Section AtR.
Variable eps : R.
Local Hint Extern 0 (Num R) => exact (NumR eps) : typeclass_instances.

Lemma sq_norm_R dim (a : pt R) : sq_norm dim a = sqlen dim a.
Proof.
  unfold sq_norm. induction dim as [|m IH]; cbn [dot sqlen]; [reflexivity|].
  rewrite IH. nsimp. ring.
Qed.
Lemma norm_R dim (a : pt R) : norm sqrt dim a = sqrt (sqlen dim a).
Proof. unfold norm. rewrite sq_norm_R. reflexivity. Qed.
Lemma pdiv_ok (a : pt R) s : s <> 0 -> pdiv a s = Ok (fun i => 1 / s * a i).
Proof. intros H. unfold pdiv. nsimp. rewrite (divc_ok eps) by exact H. reflexivity. Qed.

(** ** Segments *)
Lemma segment_piece L P d u : 0 < L -> (d <= 1)%nat ->
  PS [0;0;L;L] 1 1 d P u = match d with O => P 0%nat + u / L * (P 1%nat - P 0%nat) | _ => (P 1%nat - P 0%nat) / L end.
Proof.
  intros HL Hd. assert (Hk : knots_ok [0;0;L;L] 2 1) by knots_lit.
  assert (Hs : kn [0;0;L;L] 1 < kn [0;0;L;L] 2) by (unfold kn; simpl; lra).
  assert (Hp : (1 <= 1 < 2)%nat) by lia.
  pose proof (blo_symml _ 2 1 1 P Hk Hp Hs) as (_ & Lin).
  pose proof (blo_dual _ 2 1 1 P 0 Hk Hp Hs ltac:(lia) ltac:(lia)) as D0.
  pose proof (blo_dual _ 2 1 1 P 1 Hk Hp Hs ltac:(lia) ltac:(lia)) as D1.
  change (kargs (kn [0;0;L;L]) 0 1) with [(0, 1)] in D0. change (kargs (kn [0;0;L;L]) 1 1) with [(L, 1)] in D1.
  rewrite PS_blo. destruct d as [|[|d]]; [| |lia]; cbn [repeat app Nat.sub ffall INR].
  - replace (u, 1) with (lc (1 - u / L) (0, 1) (u / L) (L, 1)) by (unfold lc; cbn [fst snd]; f_equal; field; lra).
    rewrite Lin by reflexivity. rewrite D0, D1. field. lra.
  - replace (1, 0) with (lc (- (1 / L)) (0, 1) (1 / L) (L, 1)) by (unfold lc; cbn [fst snd]; f_equal; field; lra).
    rewrite Lin by reflexivity. rewrite D0, D1. field. lra.
Qed.

Lemma segment_gen (p1 p2 : pt R) L : 0 <= eps -> 0 < L ->
  exists c, mk_curve [p1; p2] [0;0;L;L] 1 = Ok c /\ bounds c = (0, L) /\
    (forall u, 0 <= u <= L -> exists q, value c u 0 = Ok q /\ forall i, q i = p1 i + u / L * (p2 i - p1 i)) /\
    (forall u, 0 <= u <= L -> exists q, value c u 1 = Ok q /\ forall i, q i = (p2 i - p1 i) / L).
Proof.
  intros He HL. assert (Hk : knots_ok [0;0;L;L] 2 1) by knots_lit.
  rewrite (mk_curve_accepts eps) by (try reflexivity; try (simpl; lia); apply Hk).
  eexists. split; [reflexivity|]. split; [reflexivity|].
  assert (S : forall d u, (d <= 1)%nat -> 0 <= u <= L ->
    exists q, value (mk 1 [p1;p2] [0;0;L;L] (kn [0;0;L;L] 0) (kn [0;0;L;L] (length [0;0;L;L] - 1))) u d = Ok q /\
      forall i, q i = PS [0;0;L;L] 1 1 d (pole [p1;p2] i) u).
  { intros d u Hd Hu. unfold value. destruct (oob_spec eps (mk 1 [p1;p2] [0;0;L;L] (kn [0;0;L;L] 0) (kn [0;0;L;L] (length [0;0;L;L] - 1))) u) as [H|_].
    { exfalso. cbn [c_lo c_hi] in H. unfold kn in H. simpl in H. lra. }
    cbn [c_knots c_poles c_deg]. apply (eval_value_span eps _ 2); auto.
    - destruct (Req_dec u L) as [->|Hn]; [right; split; reflexivity|left; unfold kn; simpl; lra].
    - left. unfold stack_max. lia. }
  split; intros u Hu.
  - destruct (S 0%nat u ltac:(lia) Hu) as (q & E & V). exists q. split; [exact E|]. intros i. rewrite V, segment_piece by (auto; lia). reflexivity.
  - destruct (S 1%nat u ltac:(lia) Hu) as (q & E & V). exists q. split; [exact E|]. intros i. rewrite V, segment_piece by (auto; lia). reflexivity.
Qed.

Lemma segment_normalized dim (p1 p2 : pt R) : 0 <= eps ->
  exists c, build_segment sqrt dim p1 p2 true = Ok c /\ bounds c = (0, 1) /\
    forall u, 0 <= u <= 1 -> exists q, value c u 0 = Ok q /\ forall i, q i = p1 i + u * (p2 i - p1 i).
Proof.
  intros He. destruct (segment_gen p1 p2 1 He ltac:(lra)) as (c & E & B & V & _).
  exists c. split; [exact E|]. split; [exact B|]. intros u Hu. destruct (V u Hu) as (q & Eq & Q). exists q. split; [exact Eq|].
  intros i. rewrite Q. field.
Qed.

Lemma segment_length dim (p1 p2 : pt R) : 0 <= eps -> (exists i, (i < dim)%nat /\ p1 i <> p2 i) ->
  let L := sqrt (sqlen dim (fun i => p2 i - p1 i)) in
  exists c, build_segment sqrt dim p1 p2 false = Ok c /\ bounds c = (0, L) /\ 0 < L /\
    forall u, 0 <= u <= L ->
      (exists q, value c u 0 = Ok q /\ forall i, q i = p1 i + u / L * (p2 i - p1 i)) /\
      (exists q, value c u 1 = Ok q /\ sqlen dim q = 1 /\ forall i, q i = (p2 i - p1 i) / L).
Proof.
  intros He (j & Hj & Hne) L.
  assert (HS : 0 < sqlen dim (fun i => p2 i - p1 i)).
  { destruct (sqlen_nonneg dim (fun i => p2 i - p1 i)) as [|E]; auto. exfalso. apply Hne.
    pose proof (sqlen_zero dim _ (eq_sym E) j Hj) as Z. cbn beta in Z. lra. }
  assert (HL : 0 < L) by (apply sqrt_lt_R0; exact HS).
  destruct (segment_gen p1 p2 L He HL) as (c & E & B & V & D).
  exists c. split; [|split; [exact B|]; split; [exact HL|]].
  - unfold build_segment. rewrite norm_R. exact E.
  - intros u Hu. split; [exact (V u Hu)|]. destruct (D u Hu) as (q & Eq & Q). exists q. split; [exact Eq|]. split; [|exact Q].
    rewrite (sqlen_ext dim q (fun i => / L * (p2 i - p1 i))) by (intros i _; rewrite Q; unfold Rdiv; ring).
    rewrite sqlen_scal. replace (sqlen dim (fun i => p2 i - p1 i)) with (L * L) by (apply sqrt_sqrt; lra). field. lra.
Qed.

(** ** Ellipses *)
(** Quadratic piece over [a,b] when both end knots are double: a Bezier parabola. *)
Lemma quadratic_piece k n l P u a b : knots_ok k n 2 -> (2 <= l < n)%nat -> a < b ->
  kn k (l - 1) = a -> kn k l = a -> kn k (S l) = b -> kn k (l + 2) = b ->
  let t := (u - a) / (b - a) in
  PS k 2 l 0 P u = (1 - t) ^ 2 * P (l - 2)%nat + 2 * t * (1 - t) * P (l - 1)%nat + t ^ 2 * P l.
Proof.
  intros Hk Hl Hab K0 K1 K2 K3 t. assert (Hs : kn k l < kn k (S l)) by (rewrite K1, K2; exact Hab).
  pose proof (blo_symml k n 2 l P Hk Hl Hs) as (Sym & Lin).
  pose proof (blo_dual k n 2 l P (l - 2) Hk Hl Hs ltac:(lia) ltac:(lia)) as D0.
  pose proof (blo_dual k n 2 l P (l - 1) Hk Hl Hs ltac:(lia) ltac:(lia)) as D1.
  pose proof (blo_dual k n 2 l P l Hk Hl Hs ltac:(lia) ltac:(lia)) as D2.
  unfold kargs in D0, D1, D2. cbn [seq map] in D0, D1, D2.
  replace (S (l - 2)) with (l - 1)%nat in D0 by lia. replace (S (l - 1)) with l in D0, D1 by lia.
  replace (S (S l)) with (l + 2)%nat in D2 by lia.
  rewrite K0, K1 in D0. rewrite K1, K2 in D1. rewrite K2, K3 in D2.
  rewrite PS_blo. cbn [repeat app Nat.sub ffall]. set (f := blo (kn k) l P) in *.
  assert (Eu : (u, 1) = lc (1 - t) (a, 1) t (b, 1)) by (unfold lc, t; cbn [fst snd]; f_equal; field; lra).
  assert (S1 : forall x, f [x; (u, 1)] = (1 - t) * f [(a, 1); x] + t * f [(b, 1); x]).
  { intros x. rewrite (Sym _ [(u, 1); x]) by (auto; constructor). rewrite Eu at 1. apply Lin. reflexivity. }
  rewrite Eu at 1. rewrite Lin by reflexivity. rewrite !S1. rewrite D0, D2.
  rewrite (Sym [(b, 1); (a, 1)] [(a, 1); (b, 1)]) by (auto; constructor). rewrite D1. ring.
Qed.

Definition ek : list R := [0;0;0;1/4;1/4;1/2;1/2;3/4;3/4;1;1;1].
Lemma ek_ok : knots_ok ek 9 2.
Proof. unfold ek. knots_lit. Qed.

Lemma ek_span u : 0 <= u <= 1 -> exists l j, l = (2 * j)%nat /\ (1 <= j <= 4)%nat /\ span_at ek 9 u l /\
  INR (j - 1) / 4 <= u <= INR j / 4.
Proof.
  intros Hu. destruct (Rlt_le_dec u (1/4)); [exists 2%nat, 1%nat|destruct (Rlt_le_dec u (1/2)); [exists 4%nat, 2%nat|
    destruct (Rlt_le_dec u (3/4)); [exists 6%nat, 3%nat|exists 8%nat, 4%nat]]]; (split; [reflexivity|]; split; [lia|]; split;
    [|cbn [INR Nat.sub]; lra]); unfold span_at, kn, ek; cbn [nth Nat.sub].
  1-3: left; lra. destruct (Req_dec u 1); [right; split; auto|left; lra].
Qed.

Definition whalf : R := sqrt 2 / 2.
Lemma whalf_sq : whalf * whalf = 1 / 2.
Proof. unfold whalf. replace (sqrt 2 / 2 * (sqrt 2 / 2)) with (sqrt 2 * sqrt 2 / 4) by field. rewrite sqrt_sqrt by lra. lra. Qed.
Lemma whalf_pos : 0 < whalf.
Proof. unfold whalf. pose proof (sqrt_lt_R0 2 ltac:(lra)). lra. Qed.

(** The weighted quarter: A + M, B + M over A + M + B with M^2 = 2 A B. *)
Lemma quarter t (w := whalf) : 0 <= t <= 1 ->
  let A := (1 - t) ^ 2 in let B := t ^ 2 in let M := 2 * t * (1 - t) * w in
  0 < A + M + B /\ 0 <= A /\ 0 <= B /\ 0 <= M /\ ((A + M) / (A + M + B)) ^ 2 + ((M + B) / (A + M + B)) ^ 2 = 1.
Proof.
  intros Ht A B M. pose proof whalf_sq as W2. pose proof whalf_pos as Wp. fold w in W2, Wp.
  assert (HA : 0 <= A) by apply pow2_ge_0. assert (HB : 0 <= B) by apply pow2_ge_0.
  assert (HM : 0 <= M). { unfold M. do 2 (apply Rmult_le_pos; [|lra]). lra. }
  assert (HAB : 0 < A + B).
  { destruct (Rlt_le_dec t (1/2)).
    - assert (0 < A) by (apply pow_lt; lra). lra.
    - assert (0 < B) by (apply pow_lt; lra). lra. }
  assert (HW : 0 < A + M + B) by lra. repeat split; auto.
  assert (EM : M * M = 2 * A * B). { unfold M, A, B. transitivity (4 * t ^ 2 * (1 - t) ^ 2 * (w * w)); [ring|]. rewrite W2. field. }
  clearbody A B M.
  assert (E : (A + M) ^ 2 + (M + B) ^ 2 = (A + M + B) ^ 2).
  { transitivity ((A + M + B) ^ 2 + (M * M - 2 * A * B)); [ring|]. rewrite EM. ring. }
  replace (((A + M) / (A + M + B)) ^ 2 + ((M + B) / (A + M + B)) ^ 2) with (((A + M) ^ 2 + (M + B) ^ 2) / (A + M + B) ^ 2) by (field; lra).
  rewrite E. field. lra.
Qed.

Definition epoles (dim : nat) (r1 r2 : R) (ce : pt R) : list (pt R) :=
  let w := whalf in let P := pole_xyw dim in
  map (translate_weighted dim ce)
    [ P r1 0 1; P (w * r1) (w * r2) w; P 0 r2 1; P (- w * r1) (w * r2) w; P (- r1) 0 1;
      P (- w * r1) (- w * r2) w; P 0 (- r2) 1; P (w * r1) (- w * r2) w; P r1 0 1 ].

Lemma ellipse_built dim r1 r2 ce :
  build_ellipse sqrt dim r1 r2 ce = Ok (mk 2 (epoles dim r1 r2 ce) ek 0 1).
Proof.
  unfold build_ellipse. rewrite !(nofnat_R eps). nsimp.
  replace (INR 4) with 4 by (simpl; lra). replace (INR 2) with 2 by (simpl; lra). replace (INR 3) with 3 by (simpl; lra).
  do 4 (rewrite (divc_ok eps) by lra; cbn [bind]).
  change (sqrt 2 / 2) with whalf.
  change [0;0;0;1/4;1/4;1/2;1/2;3/4;3/4;1;1;1] with ek.
  rewrite (mk_curve_accepts eps); [reflexivity|reflexivity|simpl; lia|apply ek_ok].
Qed.

(** Coordinates of the weighted poles. *)
Lemma pole_coord dim x y w ce i : (i <= dim)%nat -> (2 <= dim)%nat ->
  translate_weighted dim ce (pole_xyw dim x y w) i =
  if (i <? dim)%nat then match i with O => x | 1%nat => y | _ => 0 end + ce i * w else w.
Proof.
  intros Hi Hd. unfold translate_weighted, pole_xyw. rewrite Nat.eqb_refl.
  destruct (Nat.ltb_spec i dim).
  - destruct (Nat.eqb_spec i dim); [lia|]. destruct i as [|[|i]]; reflexivity.
  - replace i with dim by lia. rewrite Nat.eqb_refl. reflexivity.
Qed.

Lemma ellipse_on dim r1 r2 ce : 0 <= eps -> (2 <= dim)%nat ->
  exists c, build_ellipse sqrt dim r1 r2 ce = Ok c /\ bounds c = (0, 1) /\
  forall u, 0 <= u <= 1 -> exists q x y, rational_value dim c u 0 = Ok q /\
    x ^ 2 + y ^ 2 = 1 /\ q 0%nat = ce 0%nat + r1 * x /\ q 1%nat = ce 1%nat + r2 * y /\
    (forall i, (2 <= i < dim)%nat -> q i = ce i) /\
    (u <= 1/4 -> 0 <= x /\ 0 <= y) /\ (1/4 <= u <= 1/2 -> x <= 0 /\ 0 <= y) /\
    (1/2 <= u <= 3/4 -> x <= 0 /\ y <= 0) /\ (3/4 <= u -> 0 <= x /\ y <= 0) /\
    (u = 0 \/ u = 1 -> x = 1).
Proof.
  intros He Hd. eexists. split; [apply ellipse_built|]. split; [reflexivity|].
  intros u Hu. unfold rational_value.
  destruct (oob_spec eps (mk 2 (epoles dim r1 r2 ce) ek 0 1) u) as [H|_]; [exfalso; cbn [c_lo c_hi] in H; lra|].
  cbn [c_knots c_poles c_deg].
  destruct (ek_span u Hu) as (l & j & El & Hj & Sp & Bu).
  assert (Hl : (2 <= l < 9)%nat) by lia.
  set (t := 4 * u - INR (j - 1)).
  assert (Ht : 0 <= t <= 1).
  { unfold t. destruct j as [|j]; [lia|]. rewrite S_INR in Bu. replace (S j - 1)%nat with j in * by lia. lra. }
  assert (V : forall d, exists q, eval_value u ek (epoles dim r1 r2 ce) 2 d = Ok q).
  { intros d. apply (eval_value_total eps ek 9); [apply ek_ok|reflexivity|left; lia|unfold kn, ek; cbn [nth]; exact Hu]. }
  destruct (eval_value_span eps ek 9 2 (epoles dim r1 r2 ce) u 0 l ek_ok eq_refl Hl Sp ltac:(lia) ltac:(left; unfold stack_max; lia)) as (q0 & E0 & V0).
  assert (PV : forall i, q0 i = (1 - t) ^ 2 * pole (epoles dim r1 r2 ce) i (l - 2)%nat +
    2 * t * (1 - t) * pole (epoles dim r1 r2 ce) i (l - 1)%nat + t ^ 2 * pole (epoles dim r1 r2 ce) i l).
  { intros i. rewrite V0.
    rewrite (quadratic_piece ek 9 l _ u (INR (j - 1) / 4) (INR j / 4) ek_ok Hl).
    - replace ((u - INR (j - 1) / 4) / (INR j / 4 - INR (j - 1) / 4)) with t; [reflexivity|].
      unfold t. destruct j as [|j]; [lia|]. rewrite S_INR. replace (S j - 1)%nat with j by lia. field. lra.
    - destruct j as [|j]; [lia|]. rewrite S_INR. replace (S j - 1)%nat with j by lia. lra.
    - subst l. destruct j as [|[|[|[|[|j]]]]]; try lia; unfold kn, ek; simpl; lra.
    - subst l. destruct j as [|[|[|[|[|j]]]]]; try lia; unfold kn, ek; simpl; lra.
    - subst l. destruct j as [|[|[|[|[|j]]]]]; try lia; unfold kn, ek; simpl; lra.
    - subst l. destruct j as [|[|[|[|[|j]]]]]; try lia; unfold kn, ek; simpl; lra. }
  destruct (quarter t Ht) as (HW & HA & HB & HM & HQ).
  set (A := (1 - t) ^ 2) in *. set (B := t ^ 2) in *. set (M := 2 * t * (1 - t) * whalf) in *.
  assert (PV' : forall i, q0 i = A * pole (epoles dim r1 r2 ce) i (l - 2)%nat +
    2 * t * (1 - t) * pole (epoles dim r1 r2 ce) i (l - 1)%nat + B * pole (epoles dim r1 r2 ce) i l) by exact PV.
  clear PV V0.
  assert (Den : q0 dim = A + M + B).
  { rewrite PV'. subst l. destruct j as [|[|[|[|[|j]]]]]; try lia; unfold pole, epoles; cbn [map nth Nat.mul Nat.add Nat.sub];
    rewrite !pole_coord by lia; rewrite !Nat.ltb_irrefl; unfold M; ring. }
  pose proof (fun i => val (eval_value u ek (epoles dim r1 r2 ce) 2 i)) as Hd0.
  destruct (rational_spec eps dim u ek (epoles dim r1 r2 ce) 2 (fun i => val (eval_value u ek (epoles dim r1 r2 ce) 2 i))) with (d := 0%nat) as (q & Eq & Q).
  { intros i _. destruct (V i) as (qi & Ei). rewrite Ei. reflexivity. }
  { rewrite E0. cbn [val]. rewrite Den. lra. } { lia. }
  assert (Qc : forall i, (i < dim)%nat -> q i = q0 i / (A + M + B)).
  { intros i Hi. rewrite Q by exact Hi. rewrite rq_eq. cbn [sumn]. rewrite E0. cbn [val]. rewrite Den. unfold Rdiv. ring. }
  set (x := match j with 1%nat => (A + M) / (A + M + B) | 2%nat => - ((M + B) / (A + M + B)) | 3%nat => - ((A + M) / (A + M + B)) | _ => (M + B) / (A + M + B) end).
  set (y := match j with 1%nat => (M + B) / (A + M + B) | 2%nat => (A + M) / (A + M + B) | 3%nat => - ((M + B) / (A + M + B)) | _ => - ((A + M) / (A + M + B)) end).
  exists q, x, y. split; [exact Eq|].
  assert (N1 : 0 <= (A + M) / (A + M + B)) by (apply Rmult_le_pos; [lra|left; apply Rinv_0_lt_compat; lra]).
  assert (N2 : 0 <= (M + B) / (A + M + B)) by (apply Rmult_le_pos; [lra|left; apply Rinv_0_lt_compat; lra]).
  split; [unfold x, y; destruct j as [|[|[|[|[|j]]]]]; try lia; lra|].
  assert (Co : forall i, (i < dim)%nat -> q i = match i with O => r1 * x | 1%nat => r2 * y | _ => 0 end + ce i).
  { intros i Hi. rewrite Qc, PV' by exact Hi. subst l. unfold x, y.
    destruct j as [|[|[|[|[|j]]]]]; try lia; unfold pole, epoles; cbn [map nth Nat.mul Nat.add Nat.sub];
    rewrite !pole_coord by lia; destruct (Nat.ltb_spec i dim); try lia; destruct i as [|[|i]]; unfold M; field; fold M; lra. }
  split; [rewrite Co by lia; ring|]. split; [rewrite Co by lia; ring|].
  split; [intros i Hi; rewrite Co by lia; destruct i as [|[|i]]; try lia; ring|].
  assert (T0 : t = 0 -> (M + B) / (A + M + B) = 0 /\ (A + M) / (A + M + B) = 1).
  { intros Z. assert (M = 0) by (unfold M; rewrite Z; ring). assert (B = 0) by (unfold B; rewrite Z; ring).
    rewrite H, H0 in *. split; field; lra. }
  assert (T1 : t = 1 -> (A + M) / (A + M + B) = 0 /\ (M + B) / (A + M + B) = 1).
  { intros Z. assert (M = 0) by (unfold M; rewrite Z; ring). assert (A = 0) by (unfold A; rewrite Z; ring).
    rewrite H, H0 in *. split; field; lra. }
  set (e := (A + M) / (A + M + B)) in *. set (f := (M + B) / (A + M + B)) in *. clearbody e f.
  assert (Ut : u = (t + INR (j - 1)) / 4) by (unfold t; field).
  clearbody t. clear - Hj Ht T0 T1 N1 N2 Ut.
  destruct (Req_dec t 0) as [Z0|Z0]; [destruct (T0 Z0) as (-> & ->)|clear T0; destruct (Req_dec t 1) as [Z1|Z1];
    [destruct (T1 Z1) as (-> & ->)|clear T1]];
  destruct j as [|[|[|[|[|j]]]]]; try lia; cbn [Nat.sub INR] in Ut; unfold x, y; repeat split; intros; try lra;
    (destruct H; lra) || idtac.
Qed.

Lemma sqlen_xy dim a : (2 <= dim)%nat -> (forall i, (2 <= i < dim)%nat -> a i = 0) -> sqlen dim a = a 0%nat ^ 2 + a 1%nat ^ 2.
Proof.
  induction dim as [|m IH]; intros Hd Hz; [lia|]. cbn [sqlen]. destruct (Nat.eq_dec m 1) as [->|Hne]; [cbn [sqlen]; ring|].
  rewrite IH, (Hz m) by (try intros; try apply Hz; lia). ring.
Qed.
Lemma circle_on dim r ce : 0 <= eps -> (2 <= dim)%nat ->
  exists c, build_circle sqrt dim r ce = Ok c /\ bounds c = (0, 1) /\
  forall u, 0 <= u <= 1 -> exists q, rational_value dim c u 0 = Ok q /\
    sqlen dim (fun i => q i - ce i) = r ^ 2 /\ forall i, (2 <= i < dim)%nat -> q i = ce i.
Proof.
  intros He Hd. destruct (ellipse_on dim r r ce He Hd) as (c & E & B & V). exists c. split; [exact E|]. split; [exact B|].
  intros u Hu. destruct (V u Hu) as (q & x & y & Eq & C & Q0 & Q1 & Qi & _). exists q. split; [exact Eq|]. split; [|exact Qi].
  rewrite sqlen_xy by (auto; intros; rewrite Qi by lia; ring). rewrite Q0, Q1.
  replace (ce 0%nat + r * x - ce 0%nat) with (r * x) by ring. replace (ce 1%nat + r * y - ce 1%nat) with (r * y) by ring.
  replace ((r * x) ^ 2 + (r * y) ^ 2) with (r ^ 2 * (x ^ 2 + y ^ 2)) by ring. rewrite C. ring.
Qed.
End AtR.
