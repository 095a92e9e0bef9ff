(** Gordon surfaces: the sum of the three surfaces. *)
From Coq Require Import List Arith ZArith Reals Lia Lra Bool.
From Verif Require Import Model_Base Spec_Base Spec_Basis Spec_Knots Spec_Eval Spec_Interp Spec_Surface Spec_Elevate Spec_Unify Spec_Solve Spec_Skin Spec_Gordon
  Model_Basis Model_Knots Model_Curve Model_Surface Model_Elevate Model_Unify Model_Interp Model_Skin Model_Gordon
  Proof_Base Proof_Basis Proof_Eval Proof_Insert Proof_Curve Proof_Trim Proof_Tfi
  Proof_Knots Proof_Builders Proof_Elevate2 Proof_Elevate3 Proof_Elevate4 Proof_Elevate5 Proof_Unify Proof_Unify2 Proof_Unify3 Proof_Unify4
  Proof_Interp Proof_Surface Proof_SurfEdit Proof_Grid Proof_Skin1 Proof_Skin3 Proof_Skin6 Proof_Skin7 Proof_Skin8 Proof_SW2 Proof_Gordon1 Proof_Gordon2 Proof_Gordon3 Proof_Gordon4 Proof_Gordon5.
Import ListNotations.
Local Open Scope R_scope.

Section AtR.
Variable eps : R.
Local Hint Extern 0 (Num R) => exact (NumR eps) : typeclass_instances.

Lemma transform2_len f (a b : list (pt R)) : length (transform2 f a b) = length a.
Proof. revert b. induction a as [|x a IH]; intros [|y b]; cbn; auto. Qed.
Lemma transform2_nth f (a b : list (pt R)) : length a = length b -> forall t, (t < length a)%nat ->
  nth t (transform2 f a b) (fun _ => 0) = f (nth t a (fun _ => 0)) (nth t b (fun _ => 0)).
Proof.
  revert b. induction a as [|x a IH]; intros [|y b] L t Ht; cbn [length] in *; try lia; try discriminate.
  destruct t as [|t]; [reflexivity|]. cbn [transform2 nth]. apply IH; lia.
Qed.

Definition sum3 (a b c : list (pt R)) : list (pt R) := transform2 psub (transform2 padd a b) c.
Lemma sum3_len a b c : length (sum3 a b c) = length a.
Proof. unfold sum3. rewrite !transform2_len. reflexivity. Qed.
Lemma sum3_pole a b d t c : length a = length b -> length a = length d -> (t < length a)%nat ->
  pole (sum3 a b d) c t = pole a c t + pole b c t - pole d c t.
Proof.
  intros L1 L2 Ht. unfold pole, sum3.
  refine (eq_trans (f_equal (fun z => z c) (transform2_nth _ _ _ _ t _)) _); [rewrite transform2_len; exact L2|rewrite transform2_len; exact Ht|].
  unfold psub at 1. nsimp. f_equal. exact (f_equal (fun z => z c) (transform2_nth _ _ _ L1 t Ht)).
Qed.

Lemma clamped_sinfo_n p q g ku kv : clamped_sinfo eps p q (g, ku, kv, p, q) -> 0 < eps ->
  ckn_of eps p ku (length ku - p - 1) /\ ckn_of eps q kv (length kv - q - 1) /\ rectangular g (length kv - q - 1) (length ku - p - 1).
Proof.
  intros (_ & _ & U & M & V & N & CU & EU & CV & EV & RG) He. cbn [u_knots v_knots rows_in] in *.
  assert (C1 : ckn_of eps p ku (poles_for p M)) by (exists U, M; auto). assert (C2 : ckn_of eps q kv (poles_for q N)) by (exists V, N; auto).
  destruct (ckn_ok eps He _ _ _ C1) as ((L1 & _) & _). destruct (ckn_ok eps He _ _ _ C2) as ((L2 & _) & _).
  replace (length ku - p - 1)%nat with (poles_for p M) by lia. replace (length kv - q - 1)%nat with (poles_for q N) by lia. auto.
Qed.

Lemma surf_sum p q ku kv (A B C : list (pt R)) x y du dv n m : knots_ok ku n p -> knots_ok kv m q -> evaluable2 eps ku n p kv m q ->
  length A = (n * m)%nat -> length B = (n * m)%nat -> length C = (n * m)%nat -> in_rect ku n p kv m q x y ->
  exists a b c z, surf_eval x y ku kv A p q du dv = Ok a /\ surf_eval x y ku kv B p q du dv = Ok b /\
    surf_eval x y ku kv C p q du dv = Ok c /\ surf_eval x y ku kv (sum3 A B C) p q du dv = Ok z /\ forall i, z i = a i + b i - c i.
Proof.
  intros K1 K2 Hev LA LB LC Hin.
  destruct (surf_rv eps ku kv n m p q K1 K2 Hev A x y du dv LA Hin) as (a & Ea & Va).
  destruct (surf_rv eps ku kv n m p q K1 K2 Hev B x y du dv LB Hin) as (b & Eb & Vb).
  destruct (surf_rv eps ku kv n m p q K1 K2 Hev C x y du dv LC Hin) as (c & Ec & Vc).
  destruct (surf_rv eps ku kv n m p q K1 K2 Hev (sum3 A B C) x y du dv ltac:(rewrite sum3_len; exact LA) Hin) as (z & Ez & Vz).
  exists a, b, c, z. repeat (split; [assumption|]). intros i. rewrite Va, Vb, Vc, Vz.
  rewrite <- sumn_plus, <- sumn_minus. apply sumn_ext. intros j Hj.
  rewrite (sumn_ext n _ (fun i0 => (rv eps ku n p x du i0 * pole A i (i0 + n * j) + rv eps ku n p x du i0 * pole B i (i0 + n * j)) - rv eps ku n p x du i0 * pole C i (i0 + n * j))).
  2:{ intros t Ht. rewrite sum3_pole by (rewrite ?LA, ?LB, ?LC; try reflexivity; nia). ring. }
  rewrite sumn_minus, sumn_plus. ring.
Qed.

Lemma gordon_sum s1 s2 s3 p q (S S' : R -> Prop) : 0 < eps -> csurf eps s1 -> csurf eps s2 -> csurf eps s3 ->
  s_degU s1 = p -> s_degU s2 = p -> s_degU s3 = p -> s_degV s1 = q -> s_degV s2 = q -> s_degV s3 = q ->
  (forall x y, in_surface s2 x y <-> in_surface s1 x y) -> (forall x y, in_surface s3 x y <-> in_surface s1 x y) ->
  (forall x, In x (s_ku s1) \/ In x (s_ku s2) \/ In x (s_ku s3) -> S x) ->
  (forall x, In x (s_kv s1) \/ In x (s_kv s2) \/ In x (s_kv s3) -> S' x) ->
  (forall x y, S x -> S y -> x = y \/ eps < Rabs (x - y)) -> (forall x y, S' x -> S' y -> x = y \/ eps < Rabs (x - y)) ->
  exists i1 i2 i3 ku kv r1 r2 r3, surf_info s1 = Ok i1 /\ surf_info s2 = Ok i2 /\ surf_info s3 = Ok i3 /\
    unify_surfaces [i1; i2; i3] = Ok [(r1, ku, kv, p, q); (r2, ku, kv, p, q); (r3, ku, kv, p, q)] /\
    (forall x, In x ku -> S x) /\ (forall y, In y kv -> S' y) /\
    ckn_of eps p ku (length ku - p - 1) /\ ckn_of eps q kv (length kv - q - 1) /\
    length (concat r1) = ((length ku - p - 1) * (length kv - q - 1))%nat /\
    forall s, mk_surf (sum3 (concat r1) (concat r2) (concat r3)) ku kv p q = Ok s ->
      csurf eps s /\ s_degU s = p /\ s_degV s = q /\ s_u1 s = s_u1 s1 /\ s_u2 s = s_u2 s1 /\ s_v1 s = s_v1 s1 /\ s_v2 s = s_v2 s1 /\
      (forall x y, in_surface s x y <-> in_surface s1 x y) /\
      forall x y du dv, in_surface s1 x y -> exists z1 z2 z3 z, surf_value s1 x y du dv = Ok z1 /\
        surf_value s2 x y du dv = Ok z2 /\ surf_value s3 x y du dv = Ok z3 /\ surf_value s x y du dv = Ok z /\
        forall c, z c = z1 c + z2 c - z3 c.
Proof.
  intros He H1 H2 H3 U1 U2 U3 V1 V2 V3 I2 I3 HS HS' AS AS'.
  pose proof H1 as (O1 & N1 & CU1 & CV1 & DU & DV). pose proof H2 as (O2 & N2 & CU2 & CV2 & _). pose proof H3 as (O3 & N3 & CU3 & CV3 & _).
  assert (Dom : forall s, csurf eps s -> forall x y, in_surface s x y <-> first_knot (s_ku s) <= x <= last_knot (s_ku s) /\ first_knot (s_kv s) <= y <= last_knot (s_kv s)).
  { intros s (Hs & _ & Cu & Cv & _) x y. destruct (ckn_ok eps He _ _ _ Cu) as (_ & _ & A & B & _). destruct (ckn_ok eps He _ _ _ Cv) as (_ & _ & A' & B' & _).
    unfold in_surface, in_rect. rewrite A, B, A', B'. tauto. }
  assert (Lt : forall s, csurf eps s -> first_knot (s_ku s) < last_knot (s_ku s) /\ first_knot (s_kv s) < last_knot (s_kv s)).
  { intros s (Hs & _ & Cu & Cv & _). destruct (ckn_ok eps He _ _ _ Cu) as (_ & _ & _ & _ & A). destruct (ckn_ok eps He _ _ _ Cv) as (_ & _ & _ & _ & B). auto. }
  assert (Same : forall s, csurf eps s -> (forall x y, in_surface s x y <-> in_surface s1 x y) ->
    first_knot (s_ku s) = first_knot (s_ku s1) /\ last_knot (s_ku s) = last_knot (s_ku s1) /\
    first_knot (s_kv s) = first_knot (s_kv s1) /\ last_knot (s_kv s) = last_knot (s_kv s1)).
  { intros s Hs Hi. destruct (Lt s Hs) as [L1 L2]. destruct (Lt s1 H1) as [L3 L4].
    pose proof (fun x y => proj1 (Dom s1 H1 x y)) as D1. pose proof (fun x y => proj2 (Dom s1 H1 x y)) as D1'.
    pose proof (fun x y => proj1 (Dom s Hs x y)) as D. pose proof (fun x y => proj2 (Dom s Hs x y)) as D'.
    pose proof (D _ _ (proj2 (Hi _ _) (D1' (first_knot (s_ku s1)) (first_knot (s_kv s1)) ltac:(lra)))).
    pose proof (D _ _ (proj2 (Hi _ _) (D1' (last_knot (s_ku s1)) (last_knot (s_kv s1)) ltac:(lra)))).
    pose proof (D1 _ _ (proj1 (Hi _ _) (D' (first_knot (s_ku s)) (first_knot (s_kv s)) ltac:(lra)))).
    pose proof (D1 _ _ (proj1 (Hi _ _) (D' (last_knot (s_ku s)) (last_knot (s_kv s)) ltac:(lra)))). lra. }
  destruct (Same s2 H2 I2) as (B21 & B22 & B23 & B24). destruct (Same s3 H3 I3) as (B31 & B32 & B33 & B34).
  destruct (surf_info_ok eps s1 O1) as (g1 & E1 & R1 & C1). destruct (surf_info_ok eps s2 O2) as (g2 & E2 & R2 & C2). destruct (surf_info_ok eps s3 O3) as (g3 & E3 & R3 & C3).
  rewrite U1, V1 in E1. rewrite U2, V2 in E2. rewrite U3, V3 in E3.
  set (i1 := (g1, s_ku s1, s_kv s1, p, q)) in *. set (i2 := (g2, s_ku s2, s_kv s2, p, q)) in *. set (i3 := (g3, s_ku s3, s_kv s3, p, q)) in *.
  assert (CI : forall s g, csurf eps s -> s_degU s = p -> s_degV s = q -> rectangular g (s_nV s) (s_nU s) -> clamped_sinfo eps p q (g, s_ku s, s_kv s, p, q)).
  { intros s g (_ & _ & (U & M & A1 & A2 & A3) & (V & N & A4 & A5 & A6) & _) EU EV RG. split; [reflexivity|]. split; [reflexivity|]. cbn [u_knots v_knots rows_in].
    rewrite EU in *. rewrite EV in *. exists U, M, V, N. rewrite <- A3, <- A6. auto. }
  assert (Id : forall k, first_knot k = first_knot (s_ku s1) -> last_knot k = last_knot (s_ku s1) -> forall x, rescale (s_ku s1) k x = x /\ ratio (s_ku s1) k = 1).
  { intros k F L x. destruct (Lt s1 H1). unfold rescale, ratio. rewrite F, L. split; field; lra. }
  assert (Id' : forall k, first_knot k = first_knot (s_kv s1) -> last_knot k = last_knot (s_kv s1) -> forall x, rescale (s_kv s1) k x = x /\ ratio (s_kv s1) k = 1).
  { intros k F L x. destruct (Lt s1 H1). unfold rescale, ratio. rewrite F, L. split; field; lra. }
  destruct (unify_surfaces_ok eps p q i1 [i2; i3]) as (ku & kv & ss & EU & LS & _ & _ & F1 & F2 & F3 & F4 & CKU & CKV & VV); [exact He| | | |].
  { repeat constructor; apply CI; auto. }
  { intros c c' x y Hc Hc' Hx Hy.
    assert (Q : forall c x, In c (map u_info [i1; i2; i3]) -> In x (knots_of c) -> rescale (s_ku s1) (knots_of c) x = x /\ S x).
    { clear c c' x y Hc Hc' Hx Hy. intros c x [<-|[<-|[<-|[]]]] Hx; unfold knots_of in *; cbn [u_info fst snd u_knots i1 i2 i3] in *; (split; [apply Id; auto|apply HS; auto]). }
    destruct (Q c x Hc Hx) as [Q1 Q2]. destruct (Q c' y Hc' Hy) as [Q3 Q4]. change (u_knots i1) with (s_ku s1). rewrite Q1, Q3. apply AS; assumption. }
  { intros c c' x y Hc Hc' Hx Hy.
    assert (Q : forall c x, In c (map v_info [i1; i2; i3]) -> In x (knots_of c) -> rescale (s_kv s1) (knots_of c) x = x /\ S' x).
    { clear c c' x y Hc Hc' Hx Hy. intros c x [<-|[<-|[<-|[]]]] Hx; unfold knots_of in *; cbn [v_info fst snd v_knots i1 i2 i3] in *; (split; [apply Id'; auto|apply HS'; auto]). }
    destruct (Q c x Hc Hx) as [Q1 Q2]. destruct (Q c' y Hc' Hy) as [Q3 Q4]. change (v_knots i1) with (s_kv s1). rewrite Q1, Q3. apply AS'; assumption. }
  destruct ss as [|t1 [|t2 [|t3 [|t4 ss]]]]; try discriminate LS. clear LS.
  destruct (VV 0%nat i1 eq_refl) as (r1 & N1' & K1 & W1). destruct (VV 1%nat i2 eq_refl) as (r2 & N2' & K2 & W2). destruct (VV 2%nat i3 eq_refl) as (r3 & N3' & K3 & W3).
  cbn [nth_error] in N1', N2', N3'. injection N1' as ->. injection N2' as ->. injection N3' as ->.
  destruct (clamped_sinfo_n p q r1 ku kv K1 He) as (CU & CV & G1). destruct (clamped_sinfo_n p q r2 ku kv K2 He) as (_ & _ & G2). destruct (clamped_sinfo_n p q r3 ku kv K3 He) as (_ & _ & G3).
  exists i1, i2, i3, ku, kv, r1, r2, r3. split; [exact E1|]. split; [exact E2|]. split; [exact E3|]. split; [exact EU|].
  assert (MapId : forall f (l : list R), (forall x, f x = x) -> map f l = l) by (intros f l Hf; rewrite (map_ext f id) by exact Hf; apply map_id).
  split.
  { intros x Hx. apply (count_occ_In Req_EM_T) in Hx. rewrite CKU in Hx. unfold max_multiplicity in Hx. cbn [map u_info knots_of fst snd list_max fold_right] in Hx.
    change (u_knots i1) with (s_ku s1) in Hx. change (u_knots i2) with (s_ku s2) in Hx. change (u_knots i3) with (s_ku s3) in Hx.
    rewrite !MapId in Hx by (intros y; apply Id; auto). apply HS. rewrite !(count_occ_In Req_EM_T). lia. }
  split.
  { intros x Hx. apply (count_occ_In Req_EM_T) in Hx. rewrite CKV in Hx. unfold max_multiplicity in Hx. cbn [map v_info knots_of fst snd list_max fold_right] in Hx.
    change (v_knots i1) with (s_kv s1) in Hx. change (v_knots i2) with (s_kv s2) in Hx. change (v_knots i3) with (s_kv s3) in Hx.
    rewrite !MapId in Hx by (intros y; apply Id'; auto). apply HS'. rewrite !(count_occ_In Req_EM_T). lia. }
  split; [exact CU|]. split; [exact CV|]. set (n := (length ku - p - 1)%nat) in *. set (m := (length kv - q - 1)%nat) in *.
  pose proof (concat_rect _ _ _ G1) as L1. pose proof (concat_rect _ _ _ G2) as L2. pose proof (concat_rect _ _ _ G3) as L3.
  split; [exact L1|]. intros s Es. apply (mk_surf_inv eps) in Es.
  destruct (ckn_ok eps He _ _ _ CU) as (Ku & _ & Ku1 & Ku2 & Ku3). destruct (ckn_ok eps He _ _ _ CV) as (Kv & _ & Kv1 & Kv2 & Kv3).
  assert (Lku : length ku = (n + p + 1)%nat) by apply Ku. assert (Lkv : length kv = (m + q + 1)%nat) by apply Kv.
  assert (NU : s_nU s = n) by (subst s; reflexivity). assert (NV : s_nV s = m) by (subst s; reflexivity).
  assert (HC : csurf eps s).
  { split; [unfold surface_ok; rewrite NU, NV; subst s; split; [exact Ku|split; [exact Kv|cbn [s_poles]; rewrite sum3_len; exact L1]]|].
    split; [unfold natural_surface; rewrite NU, NV; subst s; cbn [s_u1 s_u2 s_v1 s_v2 s_ku s_kv s_degU s_degV]; repeat split; f_equal; lia|].
    rewrite NU, NV. subst s. cbn [s_ku s_kv s_degU s_degV]. split; [exact CU|]. split; [exact CV|]. lia. }
  assert (Ds : forall x y, in_surface s x y <-> in_surface s1 x y).
  { intros x y. rewrite (Dom s HC), (Dom s1 H1). subst s. cbn [s_ku s_kv]. cbn [i1 u_knots v_knots] in F1, F2, F3, F4. rewrite F1, F2, F3, F4. tauto. }
  split; [exact HC|]. split; [subst s; reflexivity|]. split; [subst s; reflexivity|].
  destruct N1 as (X1 & X2 & X3 & X4).
  assert (Y1 : kn (s_ku s1) (s_nU s1 + s_degU s1) = last_knot (s_ku s1)) by (unfold last_knot; f_equal; destruct O1 as ((L & _) & _); lia).
  assert (Y2 : kn (s_kv s1) (s_nV s1 + s_degV s1) = last_knot (s_kv s1)) by (unfold last_knot; f_equal; destruct O1 as (_ & (L & _) & _); lia).
  split; [rewrite X1; subst s; exact F1|]. split; [rewrite X2, Y1; subst s; exact F2|]. split; [rewrite X3; subst s; exact F3|]. split; [rewrite X4, Y2; subst s; exact F4|].
  split; [exact Ds|]. intros x y du dv Hin.
  pose proof (proj1 (Dom s1 H1 x y) Hin) as [Hx Hy].
  pose proof (proj2 (Ds x y) Hin) as Hin'.
  assert (Hev : evaluable2 eps ku n p kv m q) by (left; lia).
  assert (Hr : in_rect ku n p kv m q x y) by (unfold in_surface in Hin'; rewrite NU, NV in Hin'; subst s; exact Hin').
  destruct (surf_sum p q ku kv (concat r1) (concat r2) (concat r3) x y du dv n m Ku Kv Hev L1 L2 L3 Hr) as (a & b & c & z & Ea & Eb & Ec & Ez & Vz).
  assert (Get : forall s' g r zz, csurf eps s' -> s_degU s' = p -> s_degV s' = q -> (forall x y, in_surface s' x y <-> in_surface s1 x y) -> concat g = s_poles s' ->
    (forall x y du dv, first_knot (u_knots (g, s_ku s', s_kv s', p, q)) <= x <= last_knot (u_knots (g, s_ku s', s_kv s', p, q)) ->
       first_knot (v_knots (g, s_ku s', s_kv s', p, q)) <= y <= last_knot (v_knots (g, s_ku s', s_kv s', p, q)) ->
       same_surface_value eps (g, s_ku s', s_kv s', p, q) x y (r, ku, kv, p, q) (rescale (u_knots i1) (s_ku s') x) (rescale (v_knots i1) (s_kv s') y)
         (ratio (u_knots i1) (s_ku s')) (ratio (v_knots i1) (s_kv s')) du dv) ->
    surf_eval x y ku kv (concat r) p q du dv = Ok zz -> exists w, surf_value s' x y du dv = Ok w /\ forall i, w i = zz i).
  { intros s' g r zz Hs' EU' EV' Hi' Cg HW Ezz. destruct (Same s' Hs' Hi') as (B1 & B2 & B3 & B4).
    destruct (HW x y du dv) as (w & w' & Ew & Ew' & Vw). { cbn [u_knots]. rewrite B1, B2. exact Hx. } { cbn [v_knots]. rewrite B3, B4. exact Hy. }
    cbn [u_knots v_knots rows_in u_degree v_degree i1] in *. destruct (Id _ B1 B2 x) as [P1 P2]. destruct (Id' _ B3 B4 y) as [P3 P4].
    rewrite P1, P3 in Ew'. rewrite Ezz in Ew'. injection Ew' as <-. exists w. split.
    - rewrite (surf_value_in eps) by (try apply Hs'; try lra; apply Hi'; exact Hin). rewrite EU', EV', <- Cg. exact Ew.
    - intros i. rewrite <- Vw, P2, P4, !pow1. ring. }
  destruct (Get s1 g1 r1 a H1 U1 V1 ltac:(tauto) C1 W1 Ea) as (z1 & Z1 & Q1).
  destruct (Get s2 g2 r2 b H2 U2 V2 I2 C2 W2 Eb) as (z2 & Z2 & Q2). destruct (Get s3 g3 r3 c H3 U3 V3 I3 C3 W3 Ec) as (z3 & Z3 & Q3).
  exists z1, z2, z3, z. split; [exact Z1|]. split; [exact Z2|]. split; [exact Z3|]. split.
  - rewrite (surf_value_in eps) by (try apply HC; try lra; exact Hin'). subst s. exact Ez.
  - intros i. rewrite Vz, Q1, Q2, Q3. reflexivity.
Qed.
End AtR.
