(** Rotations and frames. *)
From Coq Require Import List Arith ZArith Reals Lia Lra.
From Verif Require Import Model_Base Model_Vec Model_Motion Spec_Build Spec_Motion Proof_Base Proof_Build.
Import ListNotations.
Local Open Scope R_scope.

Lemma lt3 (P : nat -> Prop) : P 0%nat -> P 1%nat -> P 2%nat -> forall i, (i < 3)%nat -> P i.
Proof. intros A B C i H. destruct i as [|[|[|i]]]; auto. lia. Qed.

Lemma sqlen3 a : sqlen 3 a = dot3 a a.
Proof. unfold dot3. cbn [sqlen]. ring. Qed.
Lemma len_pos dim a : nonzero dim a -> 0 < sqlen dim a /\ 0 < len dim a.
Proof.
  intros (i & Hi & Hn). assert (0 < sqlen dim a).
  { destruct (sqlen_nonneg dim a) as [|E]; auto. exfalso. apply Hn. exact (sqlen_zero dim a (eq_sym E) i Hi). }
  split; auto. apply sqrt_lt_R0; auto.
Qed.
Lemma len_sq dim a : len dim a * len dim a = sqlen dim a.
Proof. apply sqrt_sqrt. apply sqlen_nonneg. Qed.
Lemma unit_len dim a : nonzero dim a -> sqlen dim (unit dim a) = 1.
Proof.
  intros H. destruct (len_pos dim a H) as (H1 & H2).
  rewrite (sqlen_ext dim (unit dim a) (fun i => / len dim a * a i)) by (intros; unfold unit, Rdiv; ring).
  rewrite sqlen_scal, <- len_sq. field. lra.
Qed.
Lemma unit_unit a : nonzero 3 a -> dot3 (unit 3 a) (unit 3 a) = 1.
Proof. intros H. rewrite <- sqlen3. apply unit_len. exact H. Qed.

(** ** Algebra of the spatial rotation *)
Section Rot.
Variable n : vec.
Hypothesis Hn : dot3 n n = 1.

Lemma rot_dot a x : dot3 n (rot n a x) = dot3 n x.
Proof using Hn.
  transitivity (dot3 n x * dot3 n n + cos a * (dot3 n x - dot3 n x * dot3 n n)).
  - unfold rot, dot3, cross3. ring.
  - rewrite Hn. ring.
Qed.
Lemma rot_cross a x i : (i < 3)%nat ->
  cross3 n (rot n a x) i = cos a * cross3 n x i + sin a * (dot3 n x * n i - x i).
Proof using Hn.
  intros Hi. transitivity (cos a * cross3 n x i + sin a * (dot3 n x * n i - dot3 n n * x i)).
  - revert i Hi. apply lt3; unfold rot, dot3, cross3; ring.
  - rewrite Hn. ring.
Qed.
Lemma rot_rot a b x i : (i < 3)%nat -> rot n b (rot n a x) i = rot n (a + b) x i.
Proof using Hn.
  intros Hi. unfold rot at 1. rewrite rot_dot, rot_cross by exact Hi. unfold rot. rewrite cos_plus, sin_plus. ring.
Qed.
Lemma rot_0 x i : rot n 0 x i = x i.
Proof. unfold rot. rewrite cos_0, sin_0. ring. Qed.
Lemma rot_axis a s i : (i < 3)%nat -> rot n a (fun j => s * n j) i = s * n i.
Proof using Hn.
  intros Hi. assert (E : dot3 n (fun j => s * n j) = s). { transitivity (s * dot3 n n); [unfold dot3; ring|rewrite Hn; ring]. }
  unfold rot. rewrite E. revert i Hi. apply lt3; unfold cross3; ring.
Qed.
Lemma rot_sub a x y i : (i < 3)%nat -> rot n a x i - rot n a y i = rot n a (fun j => x j - y j) i.
Proof. revert i. apply lt3; unfold rot, dot3, cross3; ring. Qed.
Lemma rot_len a x : sqlen 3 (rot n a x) = sqlen 3 x.
Proof using Hn.
  rewrite !sqlen3. set (c := cos a). set (s := sin a). set (D := dot3 n x).
  transitivity (D * D * dot3 n n + c * c * (dot3 x x - 2 * D * D + D * D * dot3 n n) + s * s * (dot3 n n * dot3 x x - D * D)
    + 2 * c * (D * D - D * D * dot3 n n)).
  - unfold rot, c, s, D. unfold dot3, cross3. ring.
  - rewrite Hn. pose proof (sin2_cos2 a) as E. unfold Rsqr in E. fold c s in E.
    transitivity ((s * s + c * c) * (dot3 x x - D * D) + D * D); [ring|]. rewrite E. ring.
Qed.
Lemma rot_dist a x y : sqdist 3 (rot n a x) (rot n a y) = sqdist 3 x y.
Proof using Hn.
  unfold sqdist. rewrite <- (rot_len a (fun i => x i - y i)). apply sqlen_ext. intros i Hi. apply rot_sub. exact Hi.
Qed.
End Rot.

Section AtR.
Variable eps : R.
Local Hint Extern 0 (Num R) => exact (NumR eps) : typeclass_instances.

Lemma adim_ok dim (a : pt R) : nonzero dim a -> adim sqrt dim a = Ok (unit dim a).
Proof.
  intros H. destruct (len_pos dim a H) as (_ & HL). unfold adim. rewrite (norm_R eps). fold (len dim a).
  replace (neqb (len dim a) n0) with false by (symmetry; apply (neqb_R_false eps); cbn [n0 NumR]; lra). reflexivity.
Qed.
Lemma adim_zero dim (a : pt R) : (forall i, (i < dim)%nat -> a i = 0) -> adim sqrt dim a = Undef DivByZero.
Proof.
  intros H. unfold adim. rewrite (norm_R eps).
  assert (E : sqlen dim a = 0).
  { rewrite (sqlen_ext dim a (fun i => 0 * a i)) by (intros i Hi; rewrite (H i Hi); ring). rewrite sqlen_scal. ring. }
  rewrite E, sqrt_0. replace (neqb 0 n0) with true by (symmetry; apply (neqb_R eps); reflexivity). reflexivity.
Qed.

Lemma rotate3_ok (x : pt R) a ax : nonzero 3 ax ->
  exists q, rotate3 sqrt cos sin x a ax = Ok q /\ same 3 q (rot (unit 3 ax) a x).
Proof.
  intros H. unfold rotate3. rewrite adim_ok by exact H. cbn [bind]. eexists. split; [reflexivity|].
  set (n := unit 3 ax). intros i Hi. revert i Hi. apply lt3; unfold p3, rot, dot3, cross3; nsimp; ring.
Qed.

Lemma rotate2_spec (x : pt R) a : rotate2 cos sin x a 0%nat = x 0%nat * cos a - x 1%nat * sin a /\
  rotate2 cos sin x a 1%nat = x 0%nat * sin a + x 1%nat * cos a.
Proof. split; unfold rotate2, p2; nsimp; reflexivity. Qed.

Lemma rotate2_laws (x y : pt R) a b :
  sqdist 2 (rotate2 cos sin x a) (rotate2 cos sin y a) = sqdist 2 x y /\
  same 2 (rotate2 cos sin (rotate2 cos sin x a) b) (rotate2 cos sin x (a + b)) /\
  same 2 (rotate2 cos sin (rotate2 cos sin x a) (- a)) x /\
  (forall r t, x 0%nat = r * cos t -> x 1%nat = r * sin t ->
     rotate2 cos sin x a 0%nat = r * cos (t + a) /\ rotate2 cos sin x a 1%nat = r * sin (t + a)).
Proof.
  assert (C : forall z e f, same 2 (rotate2 cos sin (rotate2 cos sin z e) f) (rotate2 cos sin z (e + f))).
  { intros z e f i Hi. destruct (rotate2_spec z e) as (E0 & E1). destruct (rotate2_spec z (e + f)) as (F0 & F1).
    destruct (rotate2_spec (rotate2 cos sin z e) f) as (G0 & G1). rewrite E0, E1 in G0, G1.
    destruct i as [|[|i]]; [rewrite G0, F0|rewrite G1, F1|lia]; rewrite cos_plus, sin_plus; ring. }
  destruct (rotate2_spec x a) as (X0 & X1). destruct (rotate2_spec y a) as (Y0 & Y1).
  split; [|split; [apply C|split]].
  - unfold sqdist. cbn [sqlen]. rewrite X0, X1, Y0, Y1. pose proof (sin2_cos2 a) as E. unfold Rsqr in E.
    transitivity ((sin a * sin a + cos a * cos a) * ((x 0%nat - y 0%nat) ^ 2 + (x 1%nat - y 1%nat) ^ 2)); [ring|]. rewrite E. ring.
  - intros i Hi. rewrite (C x a (- a) i Hi). replace (a + - a) with 0 by ring. destruct (rotate2_spec x 0) as (Z0 & Z1).
    rewrite cos_0, sin_0 in Z0, Z1. destruct i as [|[|i]]; [rewrite Z0|rewrite Z1|lia]; ring.
  - intros r t E0 E1. rewrite X0, X1, E0, E1, cos_plus, sin_plus. split; ring.
Qed.

Lemma rotate2_about_laws (x y : pt R) a O :
  sqdist 2 (rotate2_about cos sin x a O) (rotate2_about cos sin y a O) = sqdist 2 x y /\
  same 2 (rotate2_about cos sin O a O) O /\
  same 2 (fun i => rotate2_about cos sin x a O i - O i) (rotate2 cos sin (fun i => x i - O i) a) /\
  same 2 (rotate2_about cos sin (rotate2_about cos sin x a O) (- a) O) x.
Proof.
  assert (Sp : forall z e, rotate2_about cos sin z e O 0%nat = (z 0%nat - O 0%nat) * cos e - (z 1%nat - O 1%nat) * sin e + O 0%nat /\
     rotate2_about cos sin z e O 1%nat = (z 0%nat - O 0%nat) * sin e + (z 1%nat - O 1%nat) * cos e + O 1%nat).
  { intros z e. split; reflexivity. }
  destruct (Sp x a) as (X0 & X1). destruct (Sp y a) as (Y0 & Y1). destruct (Sp O a) as (O0 & O1).
  pose proof (sin2_cos2 a) as E. unfold Rsqr in E.
  split; [|split; [|split]].
  - unfold sqdist. cbn [sqlen]. rewrite X0, X1, Y0, Y1.
    transitivity ((sin a * sin a + cos a * cos a) * ((x 0%nat - y 0%nat) ^ 2 + (x 1%nat - y 1%nat) ^ 2)); [ring|]. rewrite E. ring.
  - intros i Hi. destruct i as [|[|i]]; [rewrite O0|rewrite O1|lia]; ring.
  - intros i Hi. destruct (rotate2_spec (fun i => x i - O i) a) as (Z0 & Z1).
    destruct i as [|[|i]]; [rewrite X0, Z0|rewrite X1, Z1|lia]; ring.
  - intros i Hi. destruct (Sp (rotate2_about cos sin x a O) (- a)) as (G0 & G1). rewrite X0, X1, cos_neg, sin_neg in G0, G1.
    destruct i as [|[|i]]; [rewrite G0|rewrite G1|lia].
    + transitivity ((x 0%nat - O 0%nat) * (sin a * sin a + cos a * cos a) + O 0%nat); [ring|rewrite E; ring].
    + transitivity ((x 1%nat - O 1%nat) * (sin a * sin a + cos a * cos a) + O 1%nat); [ring|rewrite E; ring].
Qed.

Lemma rotate3_laws (ax : pt R) a b x y : nonzero 3 ax ->
  exists qx qy qz, rotate3 sqrt cos sin x a ax = Ok qx /\ rotate3 sqrt cos sin y a ax = Ok qy /\
    rotate3 sqrt cos sin ax a ax = Ok qz /\
    same 3 qx (rot (unit 3 ax) a x) /\
    sqdist 3 qx qy = sqdist 3 x y /\ same 3 qz ax /\
    exists r1 r2 r3, rotate3 sqrt cos sin qx b ax = Ok r1 /\ rotate3 sqrt cos sin x (a + b) ax = Ok r2 /\
      rotate3 sqrt cos sin qx (- a) ax = Ok r3 /\ same 3 r1 r2 /\ same 3 r3 x.
Proof.
  intros H. pose proof (unit_unit ax H) as Hu. destruct (len_pos 3 ax H) as (_ & HL).
  destruct (rotate3_ok x a ax H) as (qx & Ex & Sx). destruct (rotate3_ok y a ax H) as (qy & Ey & Sy).
  destruct (rotate3_ok ax a ax H) as (qz & Ez & Sz).
  destruct (rotate3_ok qx b ax H) as (r1 & E1 & S1). destruct (rotate3_ok x (a + b) ax H) as (r2 & E2 & S2).
  destruct (rotate3_ok qx (- a) ax H) as (r3 & E3 & S3).
  assert (Ext : forall z w c, same 3 z w -> same 3 (rot (unit 3 ax) c z) (rot (unit 3 ax) c w)).
  { intros z w c S. intros i Hi. unfold rot, dot3, cross3. rewrite (S i Hi), !(S 0%nat), !(S 1%nat), !(S 2%nat) by lia. reflexivity. }
  exists qx, qy, qz. repeat (split; [assumption|]). split; [|split].
  - rewrite <- (rot_dist (unit 3 ax) Hu a x y). unfold sqdist. apply sqlen_ext. intros i Hi. rewrite Sx, Sy by exact Hi. reflexivity.
  - intros i Hi. rewrite Sz by exact Hi.
    transitivity (rot (unit 3 ax) a (fun j => len 3 ax * unit 3 ax j) i).
    + apply Ext; [|exact Hi]. intros j Hj. unfold unit. field. lra.
    + rewrite rot_axis by auto. unfold unit. field. lra.
  - exists r1, r2, r3. repeat (split; [assumption|]). split.
    + intros i Hi. rewrite S1, S2, (Ext qx _ b Sx) by exact Hi. apply rot_rot; auto.
    + intros i Hi. rewrite S3, (Ext qx _ (- a) Sx) by exact Hi. rewrite rot_rot by auto.
      replace (a + - a) with 0 by ring. apply rot_0.
Qed.

Lemma rotate3_zero (ax : pt R) a x : (forall i, (i < 3)%nat -> ax i = 0) -> rotate3 sqrt cos sin x a ax = Undef DivByZero.
Proof. intros H. unfold rotate3. rewrite adim_zero by exact H. reflexivity. Qed.

(** ** Frames *)
Lemma frame_map (F : frame R) : nonzero 3 (f_z F) -> nonzero 3 (f_x F) ->
  exists M, trf_loc_mat sqrt F = Ok (f_o F, M) /\
  forall x i, (i < 3)%nat -> transform x (f_o F, M) i =
    f_o F i + x 0%nat * unit 3 (f_x F) i + x 1%nat * cross3 (unit 3 (f_z F)) (unit 3 (f_x F)) i + x 2%nat * unit 3 (f_z F) i.
Proof.
  intros Hz Hx. destruct (len_pos 3 _ Hz) as (_ & Lz). destruct (len_pos 3 _ Hx) as (_ & Lx).
  unfold trf_loc_mat. rewrite !(norm_R eps). fold (len 3 (f_x F)) (len 3 (f_z F)).
  rewrite !(pdiv_ok eps) by lra. cbn [bind]. eexists. split; [reflexivity|].
  intros x i Hi. unfold transform, mvec, padd. nsimp.
  revert i Hi. apply lt3; unfold cross, cross3, unit; nsimp; field; lra.
Qed.

Lemma frame_dist (F : frame R) M : dot3 (f_z F) (f_x F) = 0 -> nonzero 3 (f_z F) -> nonzero 3 (f_x F) ->
  trf_loc_mat sqrt F = Ok (f_o F, M) ->
  forall x y, sqdist 3 (transform x (f_o F, M)) (transform y (f_o F, M)) = sqdist 3 x y.
Proof.
  intros Ho Hz Hx E x y. destruct (frame_map F Hz Hx) as (M' & E' & V). rewrite E in E'. injection E' as <-.
  pose proof (unit_unit _ Hz) as Uz. pose proof (unit_unit _ Hx) as Ux.
  destruct (len_pos 3 _ Hz) as (_ & Lz). destruct (len_pos 3 _ Hx) as (_ & Lx).
  set (z := unit 3 (f_z F)) in *. set (w := unit 3 (f_x F)) in *.
  assert (Ow : dot3 z w = 0).
  { unfold z, w, unit, dot3. unfold dot3 in Ho. transitivity ((f_z F 0%nat * f_x F 0%nat + f_z F 1%nat * f_x F 1%nat + f_z F 2%nat * f_x F 2%nat) / (len 3 (f_z F) * len 3 (f_x F))); [field; lra|].
    rewrite Ho. field. lra. }
  unfold sqdist.
  set (d := fun i => x i - y i).
  rewrite (sqlen_ext 3 (fun i => transform x (f_o F, M) i - transform y (f_o F, M) i) (fun i => d 0%nat * w i + d 1%nat * cross3 z w i + d 2%nat * z i))
    by (intros i Hi; rewrite !V by exact Hi; unfold d; ring).
  rewrite !sqlen3.
  transitivity (d 0%nat ^ 2 * dot3 w w + d 1%nat ^ 2 * (dot3 z z * dot3 w w - dot3 z w ^ 2) + d 2%nat ^ 2 * dot3 z z + 2 * d 0%nat * d 2%nat * dot3 z w).
  - unfold dot3, cross3. ring.
  - rewrite Uz, Ux, Ow. unfold dot3. ring.
Qed.

(** From the world axes at an arbitrary origin to a frame. *)
Lemma from_world (F : frame R) O : nonzero 3 (f_z F) -> nonzero 3 (f_x F) ->
  exists LM, trf_from_to sqrt (mkf O (p3 0 0 1) (p3 1 0 0)) F = Ok LM /\
  forall x i, (i < 3)%nat -> transform (fun j => O j + x j) LM i =
    f_o F i + x 0%nat * unit 3 (f_x F) i + x 1%nat * cross3 (unit 3 (f_z F)) (unit 3 (f_x F)) i + x 2%nat * unit 3 (f_z F) i.
Proof.
  intros Hz Hx. destruct (frame_map F Hz Hx) as (M & E & V). unfold trf_from_to. rewrite E. cbn [bind].
  assert (N : norm sqrt 3 (p3 0 0 1) = 1 /\ norm sqrt 3 (p3 1 0 0) = 1).
  { split; rewrite (norm_R eps); cbn [sqlen p3]; replace (_ + _) with 1 by (nsimp; ring); apply sqrt_1. }
  destruct N as (N1 & N2). unfold trf_loc_mat. cbn [f_x f_z f_o]. rewrite N1, N2. rewrite !(pdiv_ok eps) by lra. cbn [bind].
  eexists. split; [reflexivity|]. intros x i Hi. rewrite <- V by exact Hi.
  unfold transform, mvec, mmul, padd, psub, cross, p3. nsimp. field.
Qed.
End AtR.

(** Identity expected, a half turn obtained. *)
Lemma from_to_wrong (sqrtf : R -> R) : sqrtf 1 = 1 -> let F := mkf (fun _ => 0) (@p3 R (NumR 0) 0 0 1) (@p3 R (NumR 0) 0 1 0) in
  exists LM, @trf_from_to R (NumR 0) sqrtf F F = Ok LM /\ @transform R (NumR 0) (@p3 R (NumR 0) 0 1 0) LM 1%nat = -1.
Proof.
  intros H1 F. unfold trf_from_to, trf_loc_mat, norm. cbn [f_x f_z f_o F].
  assert (N : @sq_norm R (NumR 0) 3 (@p3 R (NumR 0) 0 0 1) = 1 /\ @sq_norm R (NumR 0) 3 (@p3 R (NumR 0) 0 1 0) = 1).
  { split; rewrite (sq_norm_R 0); cbn [sqlen p3]; nsimp; ring. }
  destruct N as (-> & ->). rewrite H1. rewrite !(pdiv_ok 0) by lra. cbn [bind].
  eexists. split; [reflexivity|]. unfold transform, mvec, mmul, padd, psub, cross, p3. nsimp. field.
Qed.
