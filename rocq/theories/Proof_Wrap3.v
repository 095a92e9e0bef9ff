(** Lines, circles, surfaces of revolution. *)
From Coq Require Import List Arith ZArith Reals Lia Lra.
From Verif Require Import Model_Base Model_Vec Model_Motion Model_Knots Model_Curve Model_Wrap
  Spec_Base Spec_Basis Spec_Build Spec_Motion Spec_Wrap Proof_Base Proof_Insert Proof_Build Proof_Motion Proof_Wrap Proof_Wrap2.
Import ListNotations.
Local Open Scope R_scope.

Lemma rot_ext n a x y i : same 3 x y -> (i < 3)%nat -> rot n a x i = rot n a y i.
Proof. intros S Hi. unfold rot, dot3, cross3. rewrite (S i Hi), !(S 0%nat), !(S 1%nat), !(S 2%nat) by lia. reflexivity. Qed.
Lemma cross3_ext n x y : same 3 x y -> same 3 (cross3 n x) (cross3 n y).
Proof. intros S. intros i Hi. unfold cross3. rewrite !(S 0%nat), !(S 1%nat), !(S 2%nat) by lia. reflexivity. Qed.
Lemma rot_lin n a s t p q i : (i < 3)%nat -> rot n a (fun j => s * p j + t * q j) i = s * rot n a p i + t * rot n a q i.
Proof. revert i. apply lt3; unfold rot, dot3, cross3; ring. Qed.
Lemma cross3_lin n s t p q : same 3 (cross3 n (fun j => s * p j + t * q j)) (fun j => s * cross3 n p j + t * cross3 n q j).
Proof. intros i. revert i. apply lt3; unfold cross3; ring. Qed.
Lemma dot_cross n x : dot3 n (cross3 n x) = 0.
Proof. unfold dot3, cross3. ring. Qed.

Lemma rot_deriv n x v i : dot3 n n = 1 -> (i < 3)%nat ->
  derivable_pt_lim (fun v => rot n v x i) v (rot n v (cross3 n x) i).
Proof.
  intros Hn Hi.
  assert (E : rot n v (cross3 n x) i = 0 + (- sin v * (x i - dot3 n x * n i) + cos v * 0 + (cos v * cross3 n x i + sin v * 0))).
  { unfold rot. rewrite dot_cross.
    assert (C : cross3 n (cross3 n x) i = dot3 n x * n i - x i).
    { transitivity (dot3 n x * n i - dot3 n n * x i); [|rewrite Hn; ring]. revert i Hi. apply lt3; unfold cross3, dot3; ring. }
    rewrite C. ring. }
  rewrite E. unfold rot.
  apply (derivable_pt_lim_ext (fun v => dot3 n x * n i + (cos v * (x i - dot3 n x * n i) + sin v * cross3 n x i))); [intros; ring|].
  apply (derivable_pt_lim_plus (fun _ => dot3 n x * n i)); [apply derivable_pt_lim_const|].
  apply (derivable_pt_lim_plus (fun v => cos v * (x i - dot3 n x * n i)) (fun v => sin v * cross3 n x i)).
  - apply (derivable_pt_lim_mult cos (fun _ => x i - dot3 n x * n i)); [apply derivable_pt_lim_cos|apply derivable_pt_lim_const].
  - apply (derivable_pt_lim_mult sin (fun _ => cross3 n x i)); [apply derivable_pt_lim_sin|apply derivable_pt_lim_const].
Qed.

Lemma rot_quarter n y i : dot3 n y = 0 -> rot n (PI / 2) y i = cross3 n y i.
Proof. intros H. unfold rot. rewrite H, cos_PI2, sin_PI2. ring. Qed.
Lemma cross_rot n a y : dot3 n n = 1 -> dot3 n y = 0 -> same 3 (cross3 n (rot n a y)) (rot n (a + PI / 2) y).
Proof.
  intros Hn H i Hi. rewrite <- (rot_rot n Hn a (PI / 2) y i Hi). symmetry. apply rot_quarter. rewrite rot_dot by exact Hn. exact H.
Qed.

(** The value of a surface of revolution: the profile plane is spanned by the unit axis n
    (first coordinate) and the unit direction w (second coordinate). *)
Definition rev_fun (n w : vec) (c : nat -> nat -> R -> R) (du dv i : nat) (u v : R) : R :=
  let W := fun j => c du 0%nat u * n j + c du 1%nat u * w j in
  match dv with
  | O => rot n v W i
  | S k => rot n v (rot n (INR k * PI / 2) (cross3 n W)) i
  end.

Lemma rev_dv n w c du dv i u v : dot3 n n = 1 -> (i < 3)%nat ->
  derivable_pt_lim (fun v => rev_fun n w c du dv i u v) v (rev_fun n w c du (S dv) i u v).
Proof.
  intros Hn Hi. unfold rev_fun. set (W := fun j => c du 0%nat u * n j + c du 1%nat u * w j). destruct dv as [|k].
  - assert (E : rot n v (rot n (INR 0 * PI / 2) (cross3 n W)) i = rot n v (cross3 n W) i).
    { apply rot_ext; auto. intros j Hj. replace (INR 0 * PI / 2) with 0 by (cbn [INR]; field). apply rot_0. }
    rewrite E. apply rot_deriv; auto.
  - assert (E : rot n v (rot n (INR (S k) * PI / 2) (cross3 n W)) i = rot n v (cross3 n (rot n (INR k * PI / 2) (cross3 n W))) i).
    { apply rot_ext; auto. intros j Hj. rewrite cross_rot by (auto using dot_cross). f_equal. rewrite S_INR. field. }
    rewrite E. apply rot_deriv; auto.
Qed.

Lemma rev_du n w c du dv i u v : (i < 3)%nat ->
  (forall j, derivable_pt_lim (c du j) u (c (S du) j u)) ->
  derivable_pt_lim (fun u => rev_fun n w c du dv i u v) u (rev_fun n w c (S du) dv i u v).
Proof.
  intros Hi Hc.
  assert (K : exists A B, forall e x, rev_fun n w c e dv i x v = c e 0%nat x * A + c e 1%nat x * B).
  { destruct dv as [|k].
    - exists (rot n v n i), (rot n v w i). intros e x. unfold rev_fun. apply rot_lin. exact Hi.
    - exists (rot n v (rot n (INR k * PI / 2) (cross3 n n)) i), (rot n v (rot n (INR k * PI / 2) (cross3 n w)) i).
      intros e x. unfold rev_fun. rewrite <- rot_lin by exact Hi. apply rot_ext; auto. intros j Hj.
      rewrite (rot_ext _ _ _ _ j (cross3_lin n _ _ _ _) Hj). apply rot_lin. exact Hj. }
  destruct K as (A & B & K). rewrite K.
  apply (derivable_pt_lim_ext (fun u => c du 0%nat u * A + c du 1%nat u * B)); [intros; symmetry; apply K|].
  replace (c (S du) 0%nat u * A + c (S du) 1%nat u * B) with ((c (S du) 0%nat u * A + c du 0%nat u * 0) + (c (S du) 1%nat u * B + c du 1%nat u * 0)) by ring.
  apply (derivable_pt_lim_plus (fun u => c du 0%nat u * A) (fun u => c du 1%nat u * B)).
  - apply (derivable_pt_lim_mult (c du 0%nat) (fun _ => A)); [apply Hc|apply derivable_pt_lim_const].
  - apply (derivable_pt_lim_mult (c du 1%nat) (fun _ => B)); [apply Hc|apply derivable_pt_lim_const].
Qed.

Lemma rot_ext_n n m a x i : same 3 n m -> (i < 3)%nat -> rot n a x i = rot m a x i.
Proof.
  intros S. assert (E : n 0%nat = m 0%nat /\ n 1%nat = m 1%nat /\ n 2%nat = m 2%nat) by (repeat split; apply S; lia).
  destruct E as (E0 & E1 & E2). revert i. apply lt3; unfold rot, dot3, cross3; rewrite E0, E1, E2; reflexivity.
Qed.
Lemma period_Z x (k : Z) : cos (x - IZR k * (2 * PI)) = cos x /\ sin (x - IZR k * (2 * PI)) = sin x.
Proof.
  destruct (Z_le_gt_dec 0 k) as [H|H].
  - rewrite <- (Z2Nat.id k) by exact H. rewrite <- INR_IZR_INZ. set (m := Z.to_nat k).
    pose proof (cos_period (x - INR m * (2 * PI)) m) as C. pose proof (sin_period (x - INR m * (2 * PI)) m) as S.
    replace (x - INR m * (2 * PI) + 2 * INR m * PI) with x in C, S by ring. auto.
  - replace (IZR k) with (- INR (Z.to_nat (- k))) by (rewrite INR_IZR_INZ, Z2Nat.id by lia; rewrite opp_IZR; ring).
    set (m := Z.to_nat (- k)). pose proof (cos_period x m) as C. pose proof (sin_period x m) as S.
    replace (x - - INR m * (2 * PI)) with (x + 2 * INR m * PI) by ring. auto.
Qed.
Lemma rot_fmod fm n v x i : is_fmod fm -> rot n (fm v) x i = rot n v x i.
Proof. intros H. destruct (H v) as (k & E). unfold rot. rewrite E. destruct (period_Z v k) as (-> & ->). reflexivity. Qed.

Section AtR.
Variable eps : R.
Local Hint Extern 0 (Num R) => exact (NumR eps) : typeclass_instances.

Lemma pdiv_unit (a : pt R) : nonzero 3 a -> exists q, pdiv a (norm sqrt 3 a) = Ok q /\ forall i, q i = unit 3 a i.
Proof.
  intros H. destruct (len_pos 3 a H) as (_ & L). rewrite (norm_R eps). fold (len 3 a). rewrite (pdiv_ok eps) by lra.
  eexists. split; [reflexivity|]. intros i. unfold unit. try reflexivity. unfold pscal; nsimp; field; lra.
Qed.

Lemma rev_matrix (F : frame R) : nonzero 3 (f_z F) -> nonzero 3 (f_x F) ->
  exists LM, trf_from_to sqrt (mkf (p3 n0 n0 n0) (p3 n0 n1 n0) (p3 n0 n0 n1)) F = Ok LM /\
  forall a b i, (i < 3)%nat -> transform (p3 a b n0) LM i = f_o F i + a * unit 3 (f_z F) i + b * unit 3 (f_x F) i.
Proof.
  intros Hz Hx. destruct (frame_map eps F Hz Hx) as (M & E & V). unfold trf_from_to. rewrite E. cbn [bind].
  assert (N : norm sqrt 3 (p3 n0 n1 n0) = 1 /\ norm sqrt 3 (p3 n0 n0 n1) = 1).
  { split; rewrite (norm_R eps); cbn [sqlen p3]; replace (_ + _) with 1 by (nsimp; ring); apply sqrt_1. }
  destruct N as (N1 & N2). unfold trf_loc_mat. cbn [f_x f_z f_o]. rewrite N1, N2. rewrite !(pdiv_ok eps) by lra. cbn [bind].
  eexists. split; [reflexivity|]. intros a b i Hi.
  specialize (V (fun j => match j with O => b | 1%nat => 0 | _ => a end) i Hi).
  transitivity (transform (fun j => match j with O => b | 1%nat => 0 | _ => a end) (f_o F, M) i).
  - unfold transform, mvec, mmul, padd, psub, cross, p3. nsimp. field.
  - rewrite V. ring.
Qed.

Lemma rotate3_unit (x : pt R) a (z n : pt R) : nonzero 3 z -> same 3 n (unit 3 z) ->
  exists q, rotate3 sqrt cos sin x a n = Ok q /\ same 3 q (rot (unit 3 z) a x).
Proof.
  intros Hz Sn. pose proof (unit_unit z Hz) as U. destruct (len_pos 3 z Hz) as (_ & L).
  assert (Hn : nonzero 3 n).
  { destruct Hz as (i & Hi & Hz'). exists i. split; auto. rewrite Sn by auto. unfold unit. intros E. apply Hz'.
    apply (f_equal (Rmult (len 3 z))) in E. rewrite Rmult_0_r in E. rewrite <- E. field. lra. }
  destruct (rotate3_ok eps x a n Hn) as (q & E & Sq). exists q. split; [exact E|].
  intros i Hi. rewrite Sq by exact Hi. apply rot_ext_n; auto. intros j Hj. unfold unit at 1. rewrite (Sn j Hj).
  replace (len 3 n) with 1; [field|]. unfold len. rewrite sqlen3.
  replace (dot3 n n) with (dot3 (unit 3 z) (unit 3 z)); [rewrite U; symmetry; apply sqrt_1|].
  unfold dot3. rewrite !(Sn 0%nat), !(Sn 1%nat), !(Sn 2%nat) by lia. reflexivity.
Qed.

Lemma revolution_general fm crv F c D a b : is_fmod fm -> nonzero 3 (f_z F) -> nonzero 3 (f_x F) -> represents crv c a b D ->
  exists s, revolution sqrt cos sin PI fm crv F = Ok s /\
  forall u v du dv, a <= u <= b -> (du <= D)%nat ->
    let n := unit 3 (f_z F) in
    let W := fun j => c du 0%nat u * n j + c du 1%nat u * unit 3 (f_x F) j in
    exists q, s u v du dv = Ok q /\ same 3 q (match dv with
      | O => rot n v (fun j => f_o F j + W j)
      | S k => rot n v (rot n (INR k * PI / 2) (cross3 n (if (du =? 0)%nat then W else fun j => f_o F j + W j))) end).
Proof.
  intros Hf Hz Hx (Vc & _). destruct (pdiv_unit _ Hz) as (axz & Ea & Va). destruct (rev_matrix F Hz Hx) as (LM & EM & VM).
  unfold revolution. rewrite Ea. cbn [bind]. rewrite EM. cbn [bind]. eexists. split; [reflexivity|].
  intros u v du dv Hu Hd. set (n := unit 3 (f_z F)). set (W := fun j => c du 0%nat u * n j + c du 1%nat u * unit 3 (f_x F) j).
  destruct (Vc u du Hu Hd) as (q2 & Eq & Q2). rewrite Eq. cbn [bind]. rewrite !Q2.
  set (P := transform (p3 (c du 0%nat u) (c du 1%nat u) n0) LM).
  assert (VP : same 3 P (fun j => f_o F j + W j)).
  { intros j Hj. unfold P. rewrite VM by exact Hj. unfold W, n. ring. }
  assert (Sn : same 3 axz n) by (intros j Hj; apply Va).
  destruct dv as [|k].
  - destruct (rotate3_unit P (fm v) (f_z F) axz Hz Sn) as (q & E & Sq). exists q. split; [exact E|].
    intros i Hi. rewrite Sq by exact Hi. rewrite rot_fmod by exact Hf. apply rot_ext; auto.
  - unfold divc. cbn zeta.
    replace (neqb (nadd n1 n1) n0) with false by (symmetry; apply (neqb_R_false eps); cbn [n0 n1 nadd NumR]; lra).
    cbn [bind].
    set (P' := if (du =? 0)%nat then psub P (f_o F) else P).
    assert (VP' : same 3 (cross axz P') (cross3 n (if (du =? 0)%nat then W else fun j => f_o F j + W j))).
    { intros j Hj. transitivity (cross3 n P' j).
      - revert j Hj. apply lt3; unfold cross, cross3; rewrite !(Va _); unfold n; nsimp; reflexivity.
      - apply cross3_ext; [|exact Hj]. unfold P'. destruct (du =? 0)%nat.
        + intros l Hl. unfold psub. nsimp. rewrite (VP l Hl). ring.
        + exact VP. }
    destruct (rotate3_unit (cross axz P') (ndiv (nmul (nofnat k) PI) (nadd n1 n1)) (f_z F) axz Hz Sn) as (q1 & E1 & S1).
    rewrite E1. cbn [bind].
    destruct (rotate3_unit q1 (fm v) (f_z F) axz Hz Sn) as (q & E & Sq). exists q. split; [exact E|].
    intros i Hi. rewrite Sq by exact Hi. rewrite rot_fmod by exact Hf. apply rot_ext; auto.
    intros j Hj. rewrite S1 by exact Hj. fold n. rewrite (rot_ext _ _ _ _ j VP' Hj). f_equal. rewrite (nofnat_R eps). nsimp.
    replace (1 + 1) with 2 by ring. reflexivity.
Qed.

(** The axis passes through the origin of coordinates: everything is right. *)
Lemma revolution_origin fm crv F c D a b : is_fmod fm -> nonzero 3 (f_z F) -> nonzero 3 (f_x F) -> represents crv c a b D ->
  same 3 (f_o F) (fun _ => 0) ->
  exists s S, revolution sqrt cos sin PI fm crv F = Ok s /\
  (forall u v du dv, a <= u <= b -> (du <= D)%nat -> exists q, s u v du dv = Ok q /\ forall i, (i < 3)%nat -> q i = S du dv i u v) /\
  (forall u v i, (i < 3)%nat -> S 0%nat 0%nat i u v =
     rot (unit 3 (f_z F)) v (fun j => c 0%nat 0%nat u * unit 3 (f_z F) j + c 0%nat 1%nat u * unit 3 (f_x F) j) i) /\
  (forall u v du dv i, (i < 3)%nat -> derivable_pt_lim (fun v => S du dv i u v) v (S du (dv + 1)%nat i u v)) /\
  (forall u v du dv i, (i < 3)%nat -> a < u < b -> (du < D)%nat -> derivable_pt_lim (fun u => S du dv i u v) u (S (du + 1)%nat dv i u v)).
Proof.
  intros Hf Hz Hx Hc HO. destruct (revolution_general fm crv F c D a b Hf Hz Hx Hc) as (s & E & V).
  exists s, (rev_fun (unit 3 (f_z F)) (unit 3 (f_x F)) c). split; [exact E|]. split; [|split; [|split]].
  - intros u v du dv Hu Hd. destruct (V u v du dv Hu Hd) as (q & Eq & Sq). exists q. split; [exact Eq|].
    intros i Hi. rewrite Sq by exact Hi. unfold rev_fun. destruct dv as [|k].
    + apply rot_ext; auto. intros j Hj. rewrite (HO j Hj). ring.
    + apply rot_ext; auto. intros j Hj. apply rot_ext; auto. apply cross3_ext. intros l Hl. destruct (du =? 0)%nat; [reflexivity|].
      rewrite (HO l Hl). ring.
  - reflexivity.
  - intros u v du dv i Hi. rewrite Nat.add_1_r. apply rev_dv; auto. apply unit_unit. exact Hz.
  - intros u v du dv i Hi Hu Hd. rewrite Nat.add_1_r. apply rev_du; auto. intros j. apply (proj2 Hc); auto.
Qed.

(** The axis passes through the origin of coordinates, the frame sits elsewhere on it: the
    points and their derivatives in v are right. *)
Lemma revolution_axis fm crv F c D a b lam : is_fmod fm -> nonzero 3 (f_z F) -> nonzero 3 (f_x F) -> represents crv c a b D ->
  same 3 (f_o F) (fun j => lam * f_z F j) ->
  exists s S, revolution sqrt cos sin PI fm crv F = Ok s /\
  (forall u v dv, a <= u <= b -> exists q, s u v 0%nat dv = Ok q /\ forall i, (i < 3)%nat -> q i = S dv i u v) /\
  (forall u v i, (i < 3)%nat -> S 0%nat i u v = f_o F i +
     rot (unit 3 (f_z F)) v (fun j => c 0%nat 0%nat u * unit 3 (f_z F) j + c 0%nat 1%nat u * unit 3 (f_x F) j) i) /\
  (forall u v dv i, (i < 3)%nat -> derivable_pt_lim (fun v => S dv i u v) v (S (dv + 1)%nat i u v)).
Proof.
  intros Hf Hz Hx Hc HO. destruct (revolution_general fm crv F c D a b Hf Hz Hx Hc) as (s & E & V).
  pose proof (unit_unit _ Hz) as U. destruct (len_pos 3 _ Hz) as (_ & L).
  exists s, (fun dv i u v => (if (dv =? 0)%nat then f_o F i else 0) + rev_fun (unit 3 (f_z F)) (unit 3 (f_x F)) c 0 dv i u v).
  split; [exact E|]. split; [|split].
  - intros u v dv Hu. destruct (V u v 0%nat dv Hu ltac:(lia)) as (q & Eq & Sq). exists q. split; [exact Eq|].
    intros i Hi. rewrite Sq by exact Hi. unfold rev_fun. destruct dv as [|k]; [|cbn [Nat.eqb]; ring].
    cbn [Nat.eqb]. set (n := unit 3 (f_z F)) in *. set (W := fun j => c 0%nat 0%nat u * n j + c 0%nat 1%nat u * unit 3 (f_x F) j).
    set (m := lam * len 3 (f_z F)).
    transitivity (rot n v (fun j => 1 * (m * n j) + 1 * W j) i).
    + apply rot_ext; auto. intros j Hj. rewrite (HO j Hj). unfold W, m, n. cbv beta.
      assert (En : lam * len 3 (f_z F) * unit 3 (f_z F) j = lam * f_z F j) by (unfold unit; field; lra). rewrite En. ring.
    + rewrite (rot_lin n v 1 1 (fun j => m * n j) W i Hi). rewrite rot_axis by auto. rewrite (HO i Hi).
      assert (En : m * n i = lam * f_z F i) by (unfold m, n, unit; field; lra). rewrite En. ring.
  - intros u v i Hi. reflexivity.
  - intros u v dv i Hi. rewrite Nat.add_1_r. cbn [Nat.eqb].
    apply (derivable_pt_lim_plus (fun _ => if (dv =? 0)%nat then f_o F i else 0)); [apply derivable_pt_lim_const|].
    apply rev_dv; auto.
Qed.
End AtR.
