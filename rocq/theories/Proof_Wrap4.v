(** Lines, circles; counterexamples. *)
From Coq Require Import List Arith ZArith Reals Lia Lra.
From Verif Require Import Model_Base Model_Vec Model_Motion Model_Knots Model_Curve Model_Wrap
  Spec_Base Spec_Basis Spec_Build Spec_Motion Spec_Wrap Proof_Base Proof_Insert Proof_Build Proof_Motion Proof_Wrap Proof_Wrap2 Proof_Wrap3.
Import ListNotations.
Local Open Scope R_scope.

Lemma derivable_zero u : derivable_pt_lim (fun _ => 0) u 0.
Proof. apply derivable_pt_lim_const. Qed.

Section AtR.
Variable eps : R.
Local Hint Extern 0 (Num R) => exact (NumR eps) : typeclass_instances.

(** ** Lines *)
Lemma line_prop tiny huge dim (a b : pt R) : (exists i, (i < dim)%nat /\ a i <> b i) ->
  let L := len dim (fun i => b i - a i) in
  exists g, line_points sqrt tiny huge dim a b = Ok g /\ g_lo g = tiny /\ g_hi g = huge /\ 0 < L /\
  exists f, (forall x y D, represents g f x y D) /\
    (forall i u, f 0%nat i u = a i + u * ((b i - a i) / L)) /\
    (forall u, sqlen dim (fun i => f 1%nat i u) = 1) /\
    (forall i, f 0%nat i 0 = a i) /\ (forall i, f 0%nat i L = b i).
Proof.
  intros (j & Hj & Hn) L.
  assert (Hz : nonzero dim (fun i => b i - a i)) by (exists j; split; auto; lra).
  destruct (len_pos dim _ Hz) as (_ & HL). fold L in HL.
  unfold line_points. rewrite (norm_R eps). change (sqrt (sqlen dim (psub b a))) with L. rewrite (pdiv_ok eps) by lra. cbn [bind].
  eexists. split; [reflexivity|]. split; [reflexivity|]. split; [reflexivity|]. split; [exact HL|].
  exists (fun d i u => match d with O => a i + (b i - a i) / L * (u - 0) | 1%nat => (b i - a i) / L | _ => 0 end).
  split; [intros x y D; split|split; [|split; [|split]]].
  - intros u d _ _. cbn [g_value]. destruct d as [|[|d]]; eexists; (split; [reflexivity|]); intros i.
    + unfold padd, pscal, psub. nsimp. field. lra.
    + unfold psub. nsimp. field. lra.
    + reflexivity.
  - intros u d i _ _. destruct d as [|[|d]].
    + apply derivable_affine.
    + apply derivable_pt_lim_const.
    + apply derivable_zero.
  - intros i u. ring.
  - intros u. apply (unit_len dim _ Hz).
  - intros i. field. lra.
  - intros i. field. lra.
Qed.

(** ** Circles *)
Lemma quarter_turns_R d : quarter_turns PI d = Ok (INR d * (PI / 2)).
Proof.
  unfold quarter_turns. unfold divc.
  replace (neqb (nadd n1 n1) n0) with false by (symmetry; apply (neqb_R_false eps); cbn [n0 n1 nadd NumR]; lra).
  cbn [bind]. rewrite (nofnat_R eps). nsimp. apply f_equal. field.
Qed.
Lemma quarter_step u d : u + INR (S d) * (PI / 2) = PI / 2 + (u + INR d * (PI / 2)).
Proof. rewrite S_INR. ring. Qed.

Lemma circle2_prop r (C : pt R) :
  let g := circle2 cos sin PI r C in
  g_lo g = 0 /\ g_hi g = 2 * PI /\
  exists f, (forall x y D, represents g f x y D) /\
    forall u, f 0%nat 0%nat u = C 0%nat + r * cos u /\ f 0%nat 1%nat u = C 1%nat + r * sin u.
Proof.
  intros g. split; [reflexivity|]. split; [unfold g, circle2; cbn [g_hi]; nsimp; ring|].
  exists (fun d i u => (if (d =? 0)%nat then C i else 0) +
    match i with O => r * cos (u + INR d * (PI / 2)) | 1%nat => r * sin (u + INR d * (PI / 2)) | _ => 0 end).
  split; [intros x y D; split|].
  - intros u d _ _. unfold g, circle2; cbn [g_value]. rewrite quarter_turns_R. cbn [bind]. eexists. split; [reflexivity|].
    assert (M : min_coord 2 (p2 (@n0 R _) (@n1 R _)) = 0%nat).
    { cbn [min_coord]. nsimp. repeat (cbn [p2]; match goal with |- context [Rltb ?a ?b] => destruct (Rltb_spec a b); [exfalso; cbn in *; lra|] end). reflexivity. }
    intros i. unfold circle_start. rewrite M. unfold rotate2, p2. cbn [Nat.eqb].
    destruct d as [|d]; cbn [Nat.eqb]; [unfold padd|]; destruct i as [|[|i]]; nsimp; ring.
  - intros u d i _ _. cbn [Nat.eqb]. rewrite quarter_step.
    apply (derivable_pt_lim_plus (fun _ => if (d =? 0)%nat then C i else 0)); [apply derivable_pt_lim_const|].
    assert (Id : derivable_pt_lim (fun u => u + INR d * (PI / 2)) u 1).
    { replace 1 with (1 + 0) by ring. apply (derivable_pt_lim_plus (fun u => u) (fun _ => INR d * (PI / 2)));
      [apply derivable_pt_lim_id|apply derivable_pt_lim_const]. }
    set (w := u + INR d * (PI / 2)) in *.
    destruct i as [|[|i]]; [| |apply derivable_zero].
    + apply (derivable_pt_lim_scal (fun u => cos (u + INR d * (PI / 2)))).
      replace (cos (PI / 2 + w)) with (- sin w * 1) by (rewrite (sin_cos w); ring).
      apply (derivable_pt_lim_comp (fun u => u + INR d * (PI / 2)) cos); [exact Id|]. apply derivable_pt_lim_cos.
    + apply (derivable_pt_lim_scal (fun u => sin (u + INR d * (PI / 2)))).
      replace (sin (PI / 2 + w)) with (cos w * 1) by (rewrite (cos_sin w); ring).
      apply (derivable_pt_lim_comp (fun u => u + INR d * (PI / 2)) sin); [exact Id|]. apply derivable_pt_lim_sin.
  - intros u. cbn [Nat.eqb INR]. rewrite Rmult_0_l, Rplus_0_r. split; ring.
Qed.

Lemma circle3_gen (x0 z C : pt R) : nonzero 3 z -> dot3 z x0 = 0 ->
  let g := circle3 sqrt cos sin PI x0 z C in
  g_lo g = 0 /\ g_hi g = 2 * PI /\
  exists f, (forall x y D, represents g f x y D) /\
    forall i u, (i < 3)%nat -> f 0%nat i u = C i + (cos u * x0 i + sin u * cross3 (unit 3 z) x0 i).
Proof.
  intros Hz Ho g. split; [reflexivity|]. split; [unfold g, circle3; cbn [g_hi]; nsimp; ring|].
  pose proof (unit_unit z Hz) as U. destruct (len_pos 3 z Hz) as (_ & L). set (n := unit 3 z) in *.
  assert (On : dot3 n x0 = 0).
  { transitivity (dot3 z x0 / len 3 z); [unfold n, unit, dot3; field; lra|]. rewrite Ho. field. lra. }
  exists (fun d i u => (if (d =? 0)%nat then C i else 0) + (if (i <? 3)%nat then rot n (u + INR d * (PI / 2)) x0 i else 0)).
  split; [intros x y D; split|].
  - intros u d _ _. unfold g, circle3; cbn [g_value]. rewrite quarter_turns_R. cbn [bind].
    destruct (rotate3_ok eps x0 (nadd u (INR d * (PI / 2))) z Hz) as (q & E & Sq). rewrite E. cbn [bind]. eexists. split; [reflexivity|].
    assert (Q3 : forall i, q i = if (i <? 3)%nat then rot n (u + INR d * (PI / 2)) x0 i else 0).
    { intros i. destruct (Nat.ltb_spec i 3) as [Hi|Hi]; [apply Sq; exact Hi|].
      unfold rotate3 in E. rewrite (adim_ok eps) in E by exact Hz. cbn [bind] in E. injection E as <-.
      destruct i as [|[|[|i]]]; try lia. reflexivity. }
    intros i. destruct d as [|d]; cbn [Nat.eqb].
    + unfold padd. nsimp. rewrite Q3. ring. + rewrite Q3. ring.
  - intros u d i _ _. cbn [Nat.eqb].
    apply (derivable_pt_lim_plus (fun _ => if (d =? 0)%nat then C i else 0)); [apply derivable_pt_lim_const|].
    destruct (Nat.ltb_spec i 3) as [Hi|Hi]; [|apply derivable_zero].
    assert (E : rot n (u + INR (S d) * (PI / 2)) x0 i = rot n (u + INR d * (PI / 2)) (cross3 n x0) i * 1).
    { rewrite Rmult_1_r. rewrite quarter_step. rewrite <- rot_rot by auto. apply rot_ext; auto. intros j Hj. apply rot_quarter. exact On. }
    rewrite E.
    apply (derivable_pt_lim_comp (fun u => u + INR d * (PI / 2)) (fun a => rot n a x0 i)).
    + replace 1 with (1 + 0) by ring. apply (derivable_pt_lim_plus (fun u => u) (fun _ => INR d * (PI / 2)));
      [apply derivable_pt_lim_id|apply derivable_pt_lim_const].
    + apply rot_deriv; auto.
  - intros i u Hi. cbn [Nat.eqb INR]. apply Nat.ltb_lt in Hi. rewrite Hi. rewrite Rmult_0_l, Rplus_0_r. unfold rot. rewrite On. ring.
Qed.

Lemma circle3_frame_prop r (F : frame R) : nonzero 3 (f_z F) -> nonzero 3 (f_x F) -> dot3 (f_z F) (f_x F) = 0 ->
  exists g, circle3_frame sqrt cos sin PI r F = Ok g /\ g_lo g = 0 /\ g_hi g = 2 * PI /\
  exists f, (forall x y D, represents g f x y D) /\
    forall i u, (i < 3)%nat -> f 0%nat i u = f_o F i + r * (cos u * unit 3 (f_x F) i + sin u * cross3 (unit 3 (f_z F)) (unit 3 (f_x F)) i).
Proof.
  intros Hz Hx Ho. destruct (len_pos 3 _ Hx) as (_ & L). unfold circle3_frame, circle_start_frame. rewrite (norm_R eps).
  fold (len 3 (f_x F)). rewrite (divc_ok eps) by lra. cbn [bind]. eexists. split; [reflexivity|].
  set (x0 := pscal (r / len 3 (f_x F)) (f_x F)).
  assert (X0 : forall i, x0 i = r * unit 3 (f_x F) i) by (intros i; unfold x0, pscal, unit; nsimp; field; lra).
  destruct (circle3_gen x0 (f_z F) (f_o F) Hz) as (A & B & f & Rf & Vf).
  { unfold dot3. rewrite !X0. unfold dot3 in Ho. transitivity (r / len 3 (f_x F) * (f_z F 0%nat * f_x F 0%nat + f_z F 1%nat * f_x F 1%nat + f_z F 2%nat * f_x F 2%nat)); [unfold unit; field; lra|]. rewrite Ho. ring. }
  split; [exact A|]. split; [exact B|]. exists f. split; [exact Rf|]. intros i u Hi. rewrite Vf by exact Hi. rewrite X0.
  apply f_equal. replace (cross3 (unit 3 (f_z F)) x0 i) with (r * cross3 (unit 3 (f_z F)) (unit 3 (f_x F)) i); [ring|].
  revert i Hi. apply lt3; unfold cross3; rewrite !X0; ring.
Qed.

Lemma min_coord_lt n (z : pt R) : (0 < n)%nat -> (min_coord n z < n)%nat.
Proof.
  induction n as [|n IH]; intros Hn; [lia|]. cbn [min_coord]. nsimp. destruct (Rltb _ _); [lia|].
  destruct n; [cbn; lia|]. specialize (IH ltac:(lia)). lia.
Qed.
Lemma min_coord_le n (z : pt R) i : (i < n)%nat -> z (min_coord n z) <= z i.
Proof.
  induction n as [|n IH]; intros Hi; [lia|]. cbn [min_coord]. nsimp. destruct (Rltb_spec (z n) (z (min_coord n z))) as [H|H].
  - destruct (Nat.eq_dec i n) as [->|N]; [lra|]. specialize (IH ltac:(lia)). lra.
  - destruct (Nat.eq_dec i n) as [->|N]; [exact H|]. apply IH. lia.
Qed.

Lemma circle3_axis_prop r (C z : pt R) : nonzero 3 z -> (forall i, (i < 3)%nat -> 0 <= z i) -> (exists i, (i < 3)%nat /\ z i = 0) ->
  let g := circle3_axis sqrt cos sin PI r C z in
  g_lo g = 0 /\ g_hi g = 2 * PI /\
  exists f, (forall x y D, represents g f x y D) /\
    forall u, dot3 z (fun i => f 0%nat i u - C i) = 0 /\ sqdist 3 (fun i => f 0%nat i u) C = r ^ 2.
Proof.
  intros Hz Hp (j & Hj & Zj). pose proof (min_coord_le 3 z j Hj) as M1. pose proof (min_coord_lt 3 z ltac:(lia)) as M2.
  assert (Zm : z (min_coord 3 z) = 0) by (specialize (Hp _ M2); lra).
  set (m := min_coord 3 z) in *. set (x0 := circle_start 3 r z).
  assert (X0 : forall i, x0 i = if (i =? m)%nat then r else 0) by (intros i; reflexivity).
  assert (Ho : dot3 z x0 = 0).
  { unfold dot3. rewrite !X0. destruct m as [|[|[|m]]]; cbn [Nat.eqb]; [rewrite Zm; ring|rewrite Zm; ring|rewrite Zm; ring|lia]. }
  destruct (circle3_gen x0 z C Hz Ho) as (A & B & f & Rf & Vf). intros g. split; [exact A|]. split; [exact B|].
  exists f. split; [exact Rf|]. intros u.
  pose proof (unit_unit z Hz) as U. destruct (len_pos 3 z Hz) as (_ & L). set (n := unit 3 z) in *.
  assert (On : dot3 n x0 = 0).
  { transitivity (dot3 z x0 / len 3 z); [unfold n, unit, dot3; field; lra|]. rewrite Ho. field. lra. }
  assert (V : same 3 (fun i => f 0%nat i u - C i) (rot n u x0)).
  { intros i Hi. cbv beta. rewrite Vf by exact Hi. unfold rot. fold n. rewrite On. ring. }
  split.
  - transitivity (len 3 z * dot3 n (rot n u x0)).
    + pose proof (V 0%nat ltac:(lia)) as V0. pose proof (V 1%nat ltac:(lia)) as V1. pose proof (V 2%nat ltac:(lia)) as V2. cbv beta in V0, V1, V2.
      unfold dot3. rewrite V0, V1, V2. generalize (rot n u x0 0%nat) (rot n u x0 1%nat) (rot n u x0 2%nat). intros. unfold n, unit. field. lra.
    + rewrite rot_dot by exact U. rewrite On. ring.
  - unfold sqdist. rewrite (sqlen_ext 3 _ (rot n u x0)) by exact V. rewrite rot_len by exact U.
    rewrite sqlen3. unfold dot3. rewrite !X0. destruct m as [|[|[|m]]]; cbn [Nat.eqb]; [ring|ring|ring|lia].
Qed.

(** The smallest coordinate is taken with its sign: with the axis (-1,0,0) the start
    direction is the axis itself and the circle is one point. *)
Lemma circle3_axis_wrong r (C : pt R) :
  forall u, exists q, g_value (circle3_axis sqrt cos sin PI r C (p3 (-1) 0 0)) u 0 = Ok q /\
    q 0%nat = C 0%nat + r /\ q 1%nat = C 1%nat /\ q 2%nat = C 2%nat.
Proof.
  intros u. set (z := p3 (-1) 0 0).
  assert (Hz : nonzero 3 z) by (exists 0%nat; split; [lia|unfold z, p3; lra]).
  assert (M : min_coord 3 z = 0%nat).
  { unfold z. cbn [min_coord]. nsimp. repeat (cbn [p3]; match goal with |- context [Rltb ?a ?b] => destruct (Rltb_spec a b); [exfalso; cbn in *; lra|] end). reflexivity. }
  unfold circle3_axis, circle3; cbn [g_value]. rewrite quarter_turns_R. cbn [bind].
  destruct (rotate3_ok eps (circle_start 3 r z) (nadd u (INR 0 * (PI / 2))) z Hz) as (q & E & Sq). rewrite E. cbn [bind Nat.eqb].
  eexists. split; [reflexivity|]. unfold padd. nsimp.
  assert (Ul : len 3 z = 1). { unfold len. rewrite sqlen3. unfold dot3, z, p3. replace (_ + _) with 1 by (nsimp; ring). apply sqrt_1. }
  assert (K : forall i, (i < 3)%nat -> q i = circle_start 3 r z i).
  { intros i Hi. rewrite Sq by exact Hi.
    transitivity (rot (unit 3 z) (nadd u (INR 0 * (PI / 2))) (fun j => - r * unit 3 z j) i).
    - apply rot_ext; auto. intros j Hj. revert j Hj. apply lt3; unfold circle_start; rewrite M; unfold unit; rewrite Ul; unfold z, p3; cbn [Nat.eqb]; nsimp; field.
    - rewrite rot_axis by (auto using unit_unit). revert i Hi. apply lt3; unfold circle_start; rewrite M; unfold unit; rewrite Ul; unfold z, p3; cbn [Nat.eqb]; nsimp; field. }
  rewrite !K by lia. unfold circle_start. rewrite M. cbn [Nat.eqb]. nsimp. repeat split; ring.
Qed.

(** ** Counterexamples *)
Definition parab : gcurve R := mkg 0 1 (fun t d => Ok (match d with O => p2 0 (t * t) | 1%nat => p2 0 (2 * t) | 2%nat => p2 0 2 | _ => pzero end)).
Definition parab_f (d i : nat) (t : R) : R := match i with 1%nat => match d with O => t * t | 1%nat => 2 * t | 2%nat => 2 | _ => 0 end | _ => 0 end.
Definition plane : gsurf R := fun u v du dv => Ok (match du, dv with O, O => p2 v 0 | O, 1%nat => p2 1 0 | _, _ => pzero end).
Definition plane_f (du dv i : nat) (u v : R) : R := match i, du, dv with O, O, O => v | O, O, 1%nat => 1 | _, _, _ => 0 end.

Lemma parab_represents : represents parab parab_f 0 1 2.
Proof.
  split.
  - intros t d _ _. cbn [parab g_value]. eexists. split; [reflexivity|].
    intros i. unfold parab_f. destruct d as [|[|[|d]]]; destruct i as [|[|i]]; reflexivity.
  - intros t d i _ Hd. destruct i as [|[|i]]; [apply derivable_zero| |apply derivable_zero].
    destruct d as [|[|d]]; [| |lia]; cbn [parab_f].
    + replace (2 * t) with (1 * t + t * 1) by ring. apply (derivable_pt_lim_mult (fun t => t) (fun t => t)); apply derivable_pt_lim_id.
    + apply (derivable_local (fun x => 0 + 2 * (x - 0)) _ t 2 1); [lra| |apply derivable_affine]. intros x _. cbn. ring.
Qed.
Lemma plane_represents : surface_represents plane plane_f 2.
Proof.
  split.
  - intros u v du dv _. unfold plane. eexists. split; [reflexivity|]. intros i. unfold plane_f.
    destruct i as [|[|i]]; destruct du as [|du]; try reflexivity; destruct dv as [|[|dv]]; reflexivity.
  - intros u v du dv i _ e He. exists 1. split; [lra|]. intros h k _ _.
    pose proof (Rabs_pos h). pose proof (Rabs_pos k).
    assert (P : 0 <= e * (Rabs h + Rabs k)) by (apply Rmult_le_pos; lra).
    replace (_ - _ - _ - _) with 0; [rewrite Rabs_R0; exact P|].
    unfold plane_f. destruct i as [|i]; [|ring]. destruct du as [|du]; [|ring]. destruct dv as [|[|dv]]; ring.
Qed.
Lemma second_wrong t : 0 <= t <= 1 -> exists q1 q2, g_value (on_surface parab plane) t 1 = Ok q1 /\ q1 0%nat = 2 * t /\
  g_value (on_surface parab plane) t 2 = Ok q2 /\ q2 0%nat = 0.
Proof.
  intros _. unfold on_surface; cbn [parab plane g_value bind]. eexists. eexists. split; [reflexivity|].
  split; [unfold padd, pscal, p2, pzero; nsimp; ring|]. split; [reflexivity|]. unfold padd, pscal, p2, pzero; nsimp; ring.
Qed.

Definition zaxis (o : pt R) : frame R := mkf o (p3 0 0 1) (p3 1 0 0).
Lemma zaxis_unit o : same 3 (unit 3 (f_z (zaxis o))) (p3 0 0 1) /\ same 3 (unit 3 (f_x (zaxis o))) (p3 1 0 0) /\
  nonzero 3 (f_z (zaxis o)) /\ nonzero 3 (f_x (zaxis o)).
Proof.
  assert (Lz : len 3 (f_z (zaxis o)) = 1). { unfold len. rewrite sqlen3. unfold dot3, zaxis, p3. cbn [f_z]. replace (_ + _) with 1 by ring. apply sqrt_1. }
  assert (Lx : len 3 (f_x (zaxis o)) = 1). { unfold len. rewrite sqlen3. unfold dot3, zaxis, p3. cbn [f_x]. replace (_ + _) with 1 by ring. apply sqrt_1. }
  repeat split.
  - intros i Hi. unfold unit. rewrite Lz. cbn [zaxis f_z]. field.
  - intros i Hi. unfold unit. rewrite Lx. cbn [zaxis f_x]. field.
  - exists 2%nat. split; [lia|]. cbn. lra.
  - exists 0%nat. split; [lia|]. cbn. lra.
Qed.

(** the profile (u, 1) *)
Definition straight : gcurve R := mkg 0 1 (fun t d => Ok (match d with O => p2 t 1 | 1%nat => p2 1 0 | _ => pzero end)).
Definition straight_f (d i : nat) (t : R) : R := match i, d with O, O => t | O, 1%nat => 1 | 1%nat, O => 1 | _, _ => 0 end.
Lemma straight_represents D : represents straight straight_f 0 1 D.
Proof.
  split.
  - intros t d _ _. cbn [straight g_value]. eexists. split; [reflexivity|].
    intros i. unfold straight_f. destruct d as [|[|d]]; destruct i as [|[|i]]; reflexivity.
  - intros t d i _ Hd. destruct i as [|[|i]]; [|destruct d; [apply derivable_pt_lim_const|apply derivable_zero]|apply derivable_zero].
    destruct d as [|[|d]]; cbn [straight_f]; [apply derivable_pt_lim_id|apply derivable_pt_lim_const|apply derivable_zero].
Qed.

(** Axis x = 1, y = 0: the half turn of the point (2,0,u) is (0,0,u), the surface gives
    (-2,0,u). *)
Lemma revolution_off_axis fm : is_fmod fm ->
  exists s, revolution sqrt cos sin PI fm straight (zaxis (p3 1 0 0)) = Ok s /\
  forall u, 0 <= u <= 1 -> exists q0 q, s u 0 0%nat 0%nat = Ok q0 /\ q0 0%nat = 2 /\ q0 1%nat = 0 /\
    s u PI 0%nat 0%nat = Ok q /\ q 0%nat = -2 /\ q 1%nat = 0.
Proof.
  intros Hf. destruct (zaxis_unit (p3 1 0 0)) as (Uz & Ux & Hz & Hx).
  destruct (revolution_general eps fm straight _ straight_f 0 0 1 Hf Hz Hx (straight_represents 0)) as (s & E & V).
  exists s. split; [exact E|]. intros u Hu.
  assert (K : forall v, exists q, s u v 0%nat 0%nat = Ok q /\ q 0%nat = cos v * 2 /\ q 1%nat = sin v * 2).
  { intros v. destruct (V u v 0%nat 0%nat Hu ltac:(lia)) as (q & Eq & Sq). exists q. split; [exact Eq|].
    assert (G : forall i, (i < 3)%nat -> q i = rot (p3 0 0 1) v (p3 2 0 u) i).
    { intros i Hi. rewrite (Sq i Hi). rewrite (rot_ext_n _ _ _ _ i Uz Hi). apply rot_ext; auto.
      intros j Hj. rewrite (Uz j Hj), (Ux j Hj). revert j Hj. apply lt3; cbn; ring. }
    rewrite !G by lia. unfold rot, dot3, cross3, p3. split; ring. }
  destruct (K 0) as (q0 & E0 & A0 & B0). destruct (K PI) as (q & E1 & A1 & B1). exists q0, q.
  rewrite cos_0 in A0. rewrite sin_0 in B0. rewrite cos_PI in A1. rewrite sin_PI in B1.
  split; [exact E0|]. split; [rewrite A0; ring|]. split; [rewrite B0; ring|]. split; [exact E1|]. split; [rewrite A1; ring|rewrite B1; ring].
Qed.

(** Frame at (0,0,1) on the z axis: z = 1 + u, but its derivative in u comes out as 2. *)
Lemma revolution_derivative fm : is_fmod fm ->
  exists s, revolution sqrt cos sin PI fm straight (zaxis (p3 0 0 1)) = Ok s /\
  forall u v, 0 <= u <= 1 -> exists q0 q1, s u v 0%nat 0%nat = Ok q0 /\ q0 2%nat = 1 + u /\
    s u v 1%nat 0%nat = Ok q1 /\ q1 2%nat = 2.
Proof.
  intros Hf. destruct (zaxis_unit (p3 0 0 1)) as (Uz & Ux & Hz & Hx).
  destruct (revolution_general eps fm straight _ straight_f 1 0 1 Hf Hz Hx (straight_represents 1)) as (s & E & V).
  exists s. split; [exact E|]. intros u v Hu.
  destruct (V u v 0%nat 0%nat Hu ltac:(lia)) as (q0 & E0 & S0). destruct (V u v 1%nat 0%nat Hu ltac:(lia)) as (q1 & E1 & S1).
  exists q0, q1. split; [exact E0|]. split; [|split; [exact E1|]].
  - rewrite (S0 2%nat) by lia. rewrite (rot_ext_n _ _ _ _ 2%nat Uz) by lia.
    rewrite (rot_ext _ _ _ (p3 1 0 (1 + u)) 2%nat) by (try lia; intros j Hj; rewrite (Uz j Hj), (Ux j Hj); revert j Hj; apply lt3; cbn; ring).
    unfold rot, dot3, cross3, p3. ring.
  - rewrite (S1 2%nat) by lia. rewrite (rot_ext_n _ _ _ _ 2%nat Uz) by lia.
    rewrite (rot_ext _ _ _ (p3 0 0 2) 2%nat) by (try lia; intros j Hj; rewrite (Uz j Hj), (Ux j Hj); revert j Hj; apply lt3; cbn; ring).
    unfold rot, dot3, cross3, p3. ring.
Qed.

Lemma second_refuted : exists g s c F, represents g c 0 1 2 /\ g_lo g = 0 /\ g_hi g = 1 /\ surface_represents s F 2 /\
  forall t, 0 <= t <= 1 -> exists q1 q2, g_value (on_surface g s) t 1 = Ok q1 /\ q1 0%nat = 2 * t /\
    g_value (on_surface g s) t 2 = Ok q2 /\ q2 0%nat = 0.
Proof.
  exists parab, plane, parab_f, plane_f. split; [exact parab_represents|]. split; [reflexivity|]. split; [reflexivity|].
  split; [exact plane_represents|]. exact second_wrong.
Qed.

Lemma clamped_refuted lowest highest : exists g f, g_lo g = 0 /\ g_hi g = 1 /\ (forall D, represents g f 0 1 D) /\
  forall u, u < 0 -> exists q0 q1, g_value (extended lowest highest g true) u 0 = Ok q0 /\ q0 0%nat = 0 /\
    g_value (extended lowest highest g true) u 1 = Ok q1 /\ q1 0%nat = 1.
Proof.
  exists straight, straight_f. split; [reflexivity|]. split; [reflexivity|]. split; [exact straight_represents|].
  intros u Hu. destruct (extended_clamped eps lowest highest straight u 0) as (A & _). destruct (extended_clamped eps lowest highest straight u 1) as (B & _).
  rewrite A, B by exact Hu. cbn. eexists. eexists. repeat split; reflexivity.
Qed.

Lemma revolution_off_refuted fm : is_fmod fm -> exists crv c, (forall D, represents crv c 0 1 D) /\
  (forall u, c 0%nat 0%nat u = u /\ c 0%nat 1%nat u = 1) /\
  exists s, revolution sqrt cos sin PI fm crv (mkf (p3 1 0 0) (p3 0 0 1) (p3 1 0 0)) = Ok s /\
  forall u, 0 <= u <= 1 -> exists q0 q, s u 0 0%nat 0%nat = Ok q0 /\ q0 0%nat = 2 /\ q0 1%nat = 0 /\
    s u PI 0%nat 0%nat = Ok q /\ q 0%nat = -2 /\ q 1%nat = 0.
Proof.
  intros Hf. exists straight, straight_f. split; [exact straight_represents|]. split; [intros u; split; reflexivity|].
  exact (revolution_off_axis fm Hf).
Qed.
Lemma revolution_deriv_refuted fm : is_fmod fm -> exists crv c, (forall D, represents crv c 0 1 D) /\
  (forall u, c 0%nat 0%nat u = u /\ c 0%nat 1%nat u = 1) /\
  exists s, revolution sqrt cos sin PI fm crv (mkf (p3 0 0 1) (p3 0 0 1) (p3 1 0 0)) = Ok s /\
  forall u v, 0 <= u <= 1 -> exists q0 q1, s u v 0%nat 0%nat = Ok q0 /\ q0 2%nat = 1 + u /\
    s u v 1%nat 0%nat = Ok q1 /\ q1 2%nat = 2.
Proof.
  intros Hf. exists straight, straight_f. split; [exact straight_represents|]. split; [intros u; split; reflexivity|].
  exact (revolution_derivative fm Hf).
Qed.

Lemma line_bounds tiny huge dim (a b : pt R) g : 0 < tiny -> (exists i, (i < dim)%nat /\ a i <> b i) ->
  line_points sqrt tiny huge dim a b = Ok g ->
  (exists q, g_value g 0 0 = Ok q /\ forall i, q i = a i) /\ 0 < g_lo g.
Proof.
  intros Ht Hn E. destruct (line_prop tiny huge dim a b Hn) as (g' & E' & Lo & _ & _ & f & Rf & V0 & _ & Va & _).
  rewrite E in E'. injection E' as <-. split; [|rewrite Lo; exact Ht].
  destruct (proj1 (Rf 0 0 0%nat) 0 0%nat ltac:(lra) ltac:(lia)) as (q & Eq & Q). exists q. split; [exact Eq|].
  intros i. rewrite Q. apply Va.
Qed.
Lemma wrap_hyps : exists g f, g_lo g = 0 /\ g_hi g = 1 /\ represents g f 0 1 2 /\
  (forall i, right_deriv (f 0%nat i) 0 (f 1%nat i 0) /\ left_deriv (f 0%nat i) 1 (f 1%nat i 1)) /\
  (forall m, 0 <= m <= 1 -> 0 <= f 0%nat 0%nat m <= 1) /\ (forall m, 0 < m < 1 -> 0 < f 0%nat 0%nat m < 1) /\
  f 2%nat 0%nat (1 / 2) <> 0.
Proof.
  set (f := fun (d i : nat) t => match d with O => t * t | 1%nat => 2 * t | 2%nat => 2 | _ => 0 end).
  exists (mkg 0 1 (fun t d => Ok (fun i => f d i t))), f.
  assert (Dr : forall t d i, (d < 2)%nat -> derivable_pt_lim (f d i) t (f (S d) i t)).
  { intros t d i Hd. destruct d as [|[|d]]; [| |lia]; cbn [f].
    - replace (2 * t) with (1 * t + t * 1) by ring. apply (derivable_pt_lim_mult (fun t => t) (fun t => t)); apply derivable_pt_lim_id.
    - apply (derivable_local (fun x => 0 + 2 * (x - 0)) _ t 2 1); [lra| |apply derivable_affine]. intros x _. cbn. ring. }
  split; [reflexivity|]. split; [reflexivity|]. split; [split|].
  - intros u d _ _. eexists. split; [reflexivity|]. reflexivity.
  - intros u d i _ Hd. apply Dr. exact Hd.
  - split; [|split; [|split]].
    + intros i. split; intros e He.
      * exists e. split; [lra|]. intros h Hh. cbn [f]. replace (_ - _) with h by (field; lra). rewrite Rabs_right; lra.
      * exists e. split; [lra|]. intros h Hh. cbn [f]. replace (_ - _) with (- h) by (field; lra). rewrite Rabs_Ropp, Rabs_right; lra.
    + intros m Hm. cbn [f]. nra.
    + intros m Hm. cbn [f]. nra.
    + cbn [f]. lra.
Qed.
End AtR.
