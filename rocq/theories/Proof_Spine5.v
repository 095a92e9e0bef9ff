(** The two theorems about lofts along a spine: sections of points and rational sections. *)
From Coq Require Import List Arith ZArith Reals Lia Lra Bool.
From Verif Require Import Model_Base Model_Knots Model_Math Model_Basis Model_Curve Model_Rational Model_Interp Model_Surface Model_Unify Model_Skin Model_Spine
  Spec_Base Spec_Basis Spec_Eval Spec_Knots Spec_Interp Spec_Surface Spec_Unify Spec_Skin Spec_Spine Proof_Base Proof_Eval
  Proof_Interp Proof_Surface Proof_SurfEdit Proof_SurfEdit2 Proof_Surface3 Proof_Surface2 Proof_PropSurface Proof_PropBasis Proof_Curve Proof_Skin1 Proof_Skin3 Proof_Skin7 Proof_Skin9 Proof_Spine4.
Import ListNotations.
Local Open Scope R_scope.

Section AtR.
Variable eps : R.
Local Hint Extern 0 (Num R) => exact (NumR eps) : typeclass_instances.

(** The value of section j in its common form, as a sum over its column of poles. *)
Lemma section_sum c0 cs m k us nu j c x du : 0 <= eps -> common_form eps c0 cs m k us -> knots_ok k nu m -> (nu + m + 1 = length k)%nat -> (m <= 12)%nat ->
  nth_error cs j = Some c -> c_lo c <= x <= c_hi c -> kn k m <= rescale (c_knots c0) (c_knots c) x <= kn k nu -> kn k m = c_lo c0 -> kn k nu = c_hi c0 ->
  exists z, value c x du = Ok z /\
    forall d, z d = ratio (c_knots c0) (c_knots c) ^ du * sumn nu (fun i => rv eps k nu m (rescale (c_knots c0) (c_knots c) x) du i * pts_at (pole_column us i) j d).
Proof.
  intros He (LU & CF) Kk Hnu Hm Hj Hx HR Kp Kn. destruct (CF j c Hj) as (P & N & LP & V). destruct (V x du Hx) as (z & z' & Z & Z' & R').
  exists z. split; [exact Z|]. intros d. rewrite <- R'. f_equal.
  rewrite (value_guard_eval eps) in Z' by (cbn [c_lo c_hi]; lra). cbn [c_knots c_poles c_deg] in Z'.
  assert (D : eval_dom eps k nu m) by (left; unfold stack_max; lia).
  destruct (rv_eval eps k nu m Kk _ du P HR ltac:(lia) D) as (w & W & We). rewrite Z' in W. injection W as <-. rewrite We.
  apply sumn_ext. intros i Hi. f_equal. rewrite (column_at us i j _ N). reflexivity.
Qed.

(** A spline function as a sum, and its sign. *)
Lemma spline_at_sum k nu m (f : nat -> R) x : knots_ok k nu m -> (m <= 12)%nat -> kn k m <= x <= kn k nu ->
  spline_at eps k m (map f (seq 0 nu)) x (sumn nu (fun i => rv eps k nu m x 0 i * f i)).
Proof.
  intros Kk Hm Hx. assert (D : eval_dom eps k nu m) by (left; unfold stack_max; lia).
  destruct (rv_eval eps k nu m Kk x 0 (map (fun a _ => a) (map f (seq 0 nu))) Hx ltac:(rewrite !map_length, seq_length; reflexivity) D) as (w & W & We).
  exists w. split; [exact W|]. rewrite We. apply sumn_ext. intros i Hi. f_equal. unfold pole.
  rewrite map_map. rewrite (nth_error_nth _ _ _ (map_nth_error _ _ _ (nth_error_nth' (seq 0 nu) 0%nat ltac:(rewrite seq_length; exact Hi)))).
  rewrite seq_nth by exact Hi. reflexivity.
Qed.

Lemma spline_at_nonneg k m coefs x y n : 0 <= eps -> knots_ok k n m -> (m <= 12)%nat -> length coefs = n -> kn k m <= x <= kn k n ->
  (forall a, In a coefs -> 0 <= a) -> spline_at eps k m coefs x y -> 0 <= y.
Proof.
  intros He Kk Hm Lc Hx Hp (z & Z & <-).
  assert (Hev : evaluable eps k n m) by (left; lia).
  destruct (eval_value_hull eps k n m (map (fun a _ => a) coefs) x Kk ltac:(rewrite map_length; exact Lc) Hev Hx) as (i & q & w & _ & E & Hw & _ & V).
  rewrite Z in E. injection E as <-. rewrite V. apply sumn_nonneg. intros r Hr. apply Rmult_le_pos; [apply Hw; lia|].
  unfold polec, pole. destruct (nth_in_or_default (i - m + r) (map (fun a (_ : nat) => a) coefs) (fun _ => 0)) as [H|H].
  - apply in_map_iff in H as (a & Ha & Hin). refine (Rle_trans _ _ _ (Hp a Hin) (Req_le _ _ (f_equal (fun g : nat -> R => g 0%nat) Ha))).
  - exact (Req_le _ _ (eq_sym (f_equal (fun g : nat -> R => g 0%nat) H))).
Qed.

Lemma rescale_in c0 c cs x : 0 < eps -> loftable eps c0 cs -> In c0 cs -> In c cs -> c_lo c <= x <= c_hi c ->
  c_lo c0 <= rescale (c_knots c0) (c_knots c) x <= c_hi c0.
Proof.
  intros He Hl H0 Hc Hx. destruct (proj1 Hl c Hc) as ((CI & O1 & O2) & _). destruct (proj1 Hl c0 H0) as ((CI0 & O3 & O4) & _).
  pose proof (clamped_span eps _ _ _ He CI) as H1. pose proof (clamped_span eps _ _ _ He CI0) as H2.
  unfold rescale. rewrite O1, O2 in Hx. rewrite O3, O4.
  set (a := first_knot (c_knots c)) in *. set (b := last_knot (c_knots c)) in *. set (a0 := first_knot (c_knots c0)) in *. set (b0 := last_knot (c_knots c0)) in *.
  assert (T : 0 <= (x - a) / (b - a) <= 1).
  { split; [apply Rle_mult_inv_pos; lra|]. apply (Rmult_le_reg_r (b - a)); [lra|]. unfold Rdiv. rewrite Rmult_assoc, Rinv_l by lra. lra. }
  match goal with |- _ <= ?t <= _ => replace t with (a0 + (x - a) / (b - a) * (b0 - a0)) by (field; lra) end. split; nra.
Qed.

(** Sections given by their points. *)
Lemma spine_ok (lu : solver) dist norm2 (extrema : curve R -> curve R -> result R) (dim : nat) c0 rest spine q s : let cs := c0 :: rest in
  let m := list_max (map c_deg cs) in
  0 < eps -> exact_solver lu -> (0 < dim)%nat -> separates dim dist -> loftable eps c0 cs ->
  (forall j c c', nth_error cs j = Some c -> nth_error cs (S j) = Some c' -> sections_differ eps dim c c') ->
  loft_spine lu (fun l => curve_parametrization dist sqrt l ChordLength true) norm2 extrema false dim cs spine q = Ok s -> evaluable_surface eps s ->
  (2 <= length cs)%nat /\ s_degU s = m /\ s_degV s = Nat.max (Nat.min q (length cs - 1)) 1 /\ s_u1 s = c_lo c0 /\ s_u2 s = c_hi c0 /\
  exists us nu v ts feet D, common_form eps c0 cs m (s_ku s) us /\ (nu + m + 1 = length (s_ku s))%nat /\
    mean_params eps dist ChordLength (pole_columns us nu) (length cs) v /\ s_v1 s = 0 /\ s_v2 s = kn v (length cs - 1) /\
    Forall2 (fun c t => extrema spine c = Ok t) us ts /\ Forall2 (fun t x => value spine t 0 = Ok x) ts feet /\ Forall2 (fun t x => value spine t 1 = Ok x) ts D /\
    forall j c, nth_error cs j = Some c -> carries eps dim s c0 c (nth j v 0) /\
      around (length cs) j (steps norm2 feet) <> 0 /\
      forall x, c_lo c0 <= x <= c_hi c0 -> exists z lam, surf_value s x (nth j v 0) 0 1 = Ok z /\
        spline_at eps (s_ku s) m (map (fun i => stretch norm2 (pole_column us i) feet j) (seq 0 nu)) x lam /\
        (forall i, (i < dim)%nat -> z i = lam * pts_at D j i) /\
        ((forall a b, 0 <= norm2 a b) -> 0 <= lam).
Proof.
  intros cs m He Hex Hdim Hd Hl Hdiff E Hev.
  destruct (spine_core eps lu dist extrema false dim c0 rest spine q s He Hex Hdim Hd Hl Hdiff norm2 E Hev)
    as (Hn & A1 & A2 & HO & HN & A3 & A4 & k & us & nu & v & ts & feet & D & Ek & CF & Hnu & Pnu & Kk & Kp & Kn & Hm & MV & B1 & B2 & F1 & F2 & F3 & LF & LD & HA & H0 & H1).
  fold cs in A1, A2, Hm, CF, Hnu, Kk, Kp, MV, B2, HA, H0, H1. fold m in A1, Hm, CF, Hnu, Kk, Kp, H0, H1. repeat (split; [assumption|]).
  exists us, nu, v, ts, feet, D. subst k. repeat (split; [assumption|]).
  intros j c Hj. assert (Hjl : (j < length cs)%nat) by (apply nth_error_Some; congruence). split; [|split; [apply HA, Hjl|]].
  - intros x du Hx. pose proof (rescale_in c0 c cs x He Hl (or_introl eq_refl) (nth_error_In _ _ Hj) Hx) as HR.
    destruct (section_sum c0 cs m _ us nu j c x du ltac:(lra) CF Kk Hnu Hm Hj Hx ltac:(rewrite Kp, Kn; exact HR) Kp Kn) as (z & Z & Ze).
    destruct (H0 j _ du Hjl HR) as (_ & z' & Z' & _ & Ze'). exists z, z'. split; [exact Z|]. split; [exact Z'|].
    intros i Hi. rewrite Ze, (Ze' i Hi). reflexivity.
  - intros x Hx. destruct (H1 j x 0%nat Hjl Hx) as (z & Z & _ & Ze). rewrite <- Kp, <- Kn in Hx.
    pose proof (spline_at_sum _ nu m (fun i => stretch norm2 (pole_column us i) feet j) x Kk Hm Hx) as SP.
    eexists z, _. split; [exact Z|]. split; [exact SP|]. split.
    + intros i Hi. rewrite (Ze i Hi), Rmult_comm, <- sumn_scal. apply sumn_ext. intros r Hr. unfold spine_tangent_to_pole, projected. rewrite map_id. nsimp. unfold pts_at. ring.
    + intros Hp. refine (spline_at_nonneg _ m _ x _ nu ltac:(lra) Kk Hm ltac:(rewrite map_length, seq_length; reflexivity) Hx _ SP).
      intros a Ha. apply in_map_iff in Ha as (i & <- & _). unfold stretch, steps. rewrite LF.
      pose proof (HA j Hjl) as NZ. unfold steps in NZ. fold cs in NZ |- *.
      assert (P : forall l, 0 <= around (length cs) j (fun t => norm2 (pts_at l t) (pts_at l (S t)))).
      { intros l. unfold around. destruct (j =? 0)%nat; [apply Hp|]. destruct (j =? length cs - 1)%nat; [apply Hp|]. apply Rplus_le_le_0_compat; apply Hp. }
      apply Rle_mult_inv_pos; [apply P|]. pose proof (P feet). lra.
Qed.

(** Rational sections. *)
Lemma spine_rational_ok (lu : solver) dist norm2 (extrema : curve R -> curve R -> result R) (dim : nat) c0 rest spine q s : let cs := c0 :: rest in
  let m := list_max (map c_deg cs) in
  0 < eps -> exact_solver lu -> separates (S dim) dist -> loftable eps c0 cs ->
  (forall j c c', nth_error cs j = Some c -> nth_error cs (S j) = Some c' -> sections_differ eps (S dim) c c') ->
  loft_spine lu (fun l => curve_parametrization dist sqrt l ChordLength true) norm2 extrema true dim cs spine q = Ok s -> evaluable_surface eps s ->
  (2 <= length cs)%nat /\ s_degU s = m /\ s_degV s = Nat.max (Nat.min q (length cs - 1)) 1 /\ s_u1 s = c_lo c0 /\ s_u2 s = c_hi c0 /\
  exists us nu v ts feet D, common_form eps c0 cs m (s_ku s) us /\ (nu + m + 1 = length (s_ku s))%nat /\
    mean_params eps dist ChordLength (pole_columns us nu) (length cs) v /\ s_v1 s = 0 /\ s_v2 s = kn v (length cs - 1) /\
    Forall2 (fun c t => extrema spine c = Ok t) us ts /\ Forall2 (fun t x => value spine t 0 = Ok x) ts feet /\ Forall2 (fun t x => value spine t 1 = Ok x) ts D /\
    forall j c, nth_error cs j = Some c -> carries_rational eps dim s c0 c (nth j v 0) /\
      around (length cs) j (steps norm2 feet) <> 0 /\
      forall x w, c_lo c <= x <= c_hi c -> value c x 0 = Ok w -> w dim <> 0 -> exists z lam,
        surf_rational_value dim s (rescale (c_knots c0) (c_knots c) x) (nth j v 0) 0 1 = Ok z /\
        spline_at eps (s_ku s) m (map (fun i => stretch norm2 (map (weight_projection dim) (pole_column us i)) feet j * pts_at (pole_column us i) j dim) (seq 0 nu))
          (rescale (c_knots c0) (c_knots c) x) (lam * w dim) /\
        forall i, (i < dim)%nat -> z i = lam * pts_at D j i.
Proof.
  intros cs m He Hex Hd Hl Hdiff E Hev. replace (S dim) with (dim + 1)%nat in Hd, Hdiff by lia.
  destruct (spine_core eps lu dist extrema true dim c0 rest spine q s He Hex ltac:(cbn; lia) Hd Hl Hdiff norm2 E Hev)
    as (Hn & A1 & A2 & HO & HN & A3 & A4 & k & us & nu & v & ts & feet & D & Ek & CF & Hnu & Pnu & Kk & Kp & Kn & Hm & MV & B1 & B2 & F1 & F2 & F3 & LF & LD & HA & H0 & H1).
  fold cs in A1, A2, Hm, CF, Hnu, Kk, Kp, MV, B2, HA, H0, H1. fold m in A1, Hm, CF, Hnu, Kk, Kp, H0, H1. repeat (split; [assumption|]).
  exists us, nu, v, ts, feet, D. subst k. repeat (split; [assumption|]).
  intros j c Hj. assert (Hjl : (j < length cs)%nat) by (apply nth_error_Some; congruence). split; [|split; [apply HA, Hjl|]].
  - intros x Hx. pose proof (rescale_in c0 c cs x He Hl (or_introl eq_refl) (nth_error_In _ _ Hj) Hx) as HR.
    destruct (section_sum c0 cs m _ us nu j c x 0 ltac:(lra) CF Kk Hnu Hm Hj Hx ltac:(rewrite Kp, Kn; exact HR) Kp Kn) as (z & Z & Ze).
    destruct (H0 j _ 0%nat Hjl HR) as (_ & z' & Z1 & Z' & Ze'). exists (weight_projection dim z), (weight_projection dim z'). split; [|split].
    + unfold rational_value. rewrite (value_guard_eval eps) in Z by lra. destruct (oob_spec eps c x); [lra|]. unfold eval_rational_value, eval_rational_rec. cbn [Nat.eqb]. rewrite Z. reflexivity.
    + unfold surf_rational_value. unfold surf_value in Z1. destruct (out_u s _); [discriminate|]. destruct (out_v s _); [discriminate|].
      cbn [andb Nat.eqb]. rewrite Z'. reflexivity.
    + intros i Hi. unfold weight_projection.
      assert (Z4 : forall i, (i < S dim)%nat -> z' i = z i) by (intros i0 Hi0; rewrite (Ze i0), (Ze' i0) by lia; cbn [pow]; symmetry; apply Rmult_1_l).
      rewrite (Z4 dim) by lia. destruct (neqb (z dim) n0); [reflexivity|]. rewrite (Z4 i) by lia. reflexivity.
  - intros x w Hx Hw Hw0. pose proof (rescale_in c0 c cs x He Hl (or_introl eq_refl) (nth_error_In _ _ Hj) Hx) as HR.
    destruct (section_sum c0 cs m _ us nu j c x 0 ltac:(lra) CF Kk Hnu Hm Hj Hx ltac:(rewrite Kp, Kn; exact HR) Kp Kn) as (z & Z & Ze).
    rewrite Hw in Z. injection Z as <-. cbn [pow] in Ze.
    set (y := rescale (c_knots c0) (c_knots c) x) in *.
    destruct (H0 j y 0%nat Hjl HR) as (IN & z0 & Z0 & _ & Z0e). destruct (H1 j y 0%nat Hjl HR) as (z1 & Z1 & _ & Z1e).
    assert (W0 : z0 dim = w dim) by (rewrite (Z0e dim), (Ze dim) by lia; ring).
    assert (WD : z1 dim = 0).
    { rewrite (Z1e dim) by lia. unfold spine_tangent_to_pole. rewrite Nat.ltb_irrefl. rewrite (sumn_ext _ _ (fun _ => 0)) by (intros; nsimp; ring). apply sumn_zero. intros; reflexivity. }
    destruct (surface_value eps s y (nth j v 0) ltac:(lra) HO HN Hev IN) as (z0' & Z0' & V0). rewrite Z0 in Z0'. injection Z0' as <-.
    destruct (rational_rq2 eps dim s y (nth j v 0) 0 1 ltac:(lra) HO HN Hev IN) as (zr & Zr & Zre); [unfold tns; rewrite <- V0, W0; exact Hw0|lia|lia|].
    rewrite <- Kp, <- Kn in HR.
    pose proof (spline_at_sum _ nu m (fun i => stretch norm2 (map (weight_projection dim) (pole_column us i)) feet j * pts_at (pole_column us i) j dim) y Kk Hm HR) as SP.
    set (S := sumn nu _) in SP. exists zr, (S / w dim). split; [exact Zr|]. split; [replace (S / w dim * w dim) with S by (field; exact Hw0); exact SP|].
    intros i Hi. rewrite (Zre i Hi), rq2_eq. rewrite Z0, Z1. cbn [val sumn Nat.sub]. rewrite ?Z0, ?Z1. cbn [val]. rewrite WD, W0, (Z1e i) by lia.
    assert (ES : sumn nu (fun i0 => rv eps (s_ku s) nu m y 0 i0 * spine_tangent_to_pole true dim (stretch norm2 (map (projected true dim) (pole_column us i0)) feet j) (nth j D (fun _ => 0)) (pts_at (pole_column us i0) j) i) = S * pts_at D j i).
    { unfold S. rewrite Rmult_comm, <- sumn_scal. apply sumn_ext. intros r Hr. unfold spine_tangent_to_pole, projected. rewrite (proj2 (Nat.ltb_lt i dim) Hi).
      change (map (fun q0 : pt R => weight_projection dim q0) (pole_column us r)) with (map (weight_projection dim) (pole_column us r)). change (nth j D (fun _ => 0) i) with (pts_at D j i). cbn [nmul NumR]. ring. }
    rewrite ES. field. exact Hw0.
Qed.
End AtR.
