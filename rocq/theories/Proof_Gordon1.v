(** Unifying the knots of a grid of poles, row by row. *)
From Coq Require Import List Arith ZArith Reals Lia Lra Bool.
From Verif Require Import Model_Base Spec_Base Spec_Basis Spec_Knots Spec_Eval Spec_Surface Spec_Elevate Spec_Unify
  Model_Basis Model_Knots Model_Curve Model_Surface Model_Elevate Model_Unify Model_Gordon
  Proof_Base Proof_Basis Proof_Eval Proof_Insert Proof_Curve Proof_Trim
  Proof_Knots Proof_Builders Proof_Elevate2 Proof_Elevate3 Proof_Elevate4 Proof_Unify Proof_Unify2 Proof_Unify3 Proof_Unify4
  Proof_Interp Proof_Surface Proof_Grid.
Import ListNotations.
Local Open Scope R_scope.

Section AtR.
Variable eps : R.
Local Hint Extern 0 (Num R) => exact (NumR eps) : typeclass_instances.

(** The value of the row P at x, as a sum. *)
Definition RS (k : list R) (n p : nat) (x : R) (d : nat) (P : list (pt R)) (c : nat) : R :=
  sumn n (fun i => rv eps k n p x d i * pole P c i).
(** The value of the grid at (x, y). *)
Definition SV (ku : list R) (n p : nat) (kv : list R) (m q : nat) (g : list (list (pt R))) (x y : R) (du dv c : nat) : R :=
  sumn m (fun j => rv eps kv m q y dv j * RS ku n p x du (nth j g []) c).

Lemma SV_swap ku n p kv m q g g' x y du dv c :
  (forall i j, (i < n)%nat -> (j < m)%nat -> at2 (fun _ => 0) g' i j = at2 (fun _ => 0) g j i) ->
  SV kv m q ku n p g' y x dv du c = SV ku n p kv m q g x y du dv c.
Proof.
  intros H. unfold SV, RS.
  rewrite (sumn_ext n _ (fun i => sumn m (fun j => rv eps ku n p x du i * (rv eps kv m q y dv j * pole (nth j g []) c i)))).
  2:{ intros i Hi. rewrite <- sumn_scal. apply sumn_ext. intros j Hj. f_equal. f_equal.
      exact (f_equal (fun z => z c) (H i j Hi Hj)). }
  rewrite sumn_swap. apply sumn_ext. intros j Hj. rewrite <- sumn_scal.
  apply sumn_ext. intros i Hi.
  assert (X : forall a b d : R, a * (b * d) = b * (a * d)) by (intros; ring). apply X.
Qed.

Lemma SV_rows ku n p ku' n' p' kv m q g g' x x' y du dv c s :
  (forall j, (j < m)%nat -> s * RS ku' n' p' x' du (nth j g' []) c = RS ku n p x du (nth j g []) c) ->
  s * SV ku' n' p' kv m q g' x' y du dv c = SV ku n p kv m q g x y du dv c.
Proof.
  intros H. unfold SV. rewrite <- sumn_scal. apply sumn_ext. intros j Hj. rewrite <- H by exact Hj. ring.
Qed.

Lemma RS_same k P p x k' P' y s d n n' : knots_ok k n p -> evaluable eps k n p -> length P = n -> kn k p <= x <= kn k n ->
  knots_ok k' n' p -> evaluable eps k' n' p -> length P' = n' -> kn k' p <= y <= kn k' n' ->
  same_value eps k P p x k' P' p y s d -> forall c, s ^ d * RS k' n' p y d P' c = RS k n p x d P c.
Proof.
  intros Hk He LP Hx Hk' He' LP' Hy (z & z' & E & E' & V) c.
  destruct (rv_eval eps k n p Hk x d P Hx LP He) as (w & Ew & Vw).
  destruct (rv_eval eps k' n' p Hk' y d P' Hy LP' He') as (w' & Ew' & Vw').
  rewrite E in Ew. injection Ew as <-. rewrite E' in Ew'. injection Ew' as <-.
  unfold RS. rewrite <- Vw, <- Vw'. apply V.
Qed.

Section Unify.
Hypothesis He : 0 < eps.
Variable S : R -> Prop.
Hypothesis Apart : forall x y, S x -> S y -> x = y \/ eps < Rabs (x - y).

Lemma kmok_ok p km : kmok p km -> knots_ok (fk km) (npol p km) p.
Proof. intros H. apply (ck_knots_ok p _ _ H). Qed.

(** Nonempty by construction. *)
Lemma npol_pos p km : kmok p km -> (p < npol p km)%nat.
Proof. intros H. pose proof (kmok_ok p km H) as (_ & L & _). exact L. Qed.

Lemma same_cv_RS p km P km' P' : kmok p km -> inS S km -> length P = npol p km ->
  kmok p km' -> inS S km' -> length P' = npol p km' -> lo km' = lo km -> hi km' = hi km ->
  same_cv p km P km' P' -> forall x d c, lo km <= x <= hi km ->
  RS (fk km') (npol p km') p x d P' c = RS (fk km) (npol p km) p x d P c.
Proof.
  intros H HS LP H' HS' LP' E1 E2 HV x d c Hx.
  pose proof (spaced_S eps p S Apart km H HS) as Sp. pose proof (spaced_S eps p S Apart km' H' HS') as Sp'.
  destruct (eval_same eps He p km P km' P' x d H Sp LP H' Sp' LP' E1 E2 HV Hx) as (z & z' & Z1 & Z2 & Z3).
  destruct (fk_dom p km H) as (D1 & D2). destruct (fk_dom p km' H') as (D1' & D2').
  assert (E : 1 ^ d * RS (fk km') (npol p km') p x d P' c = RS (fk km) (npol p km) p x d P c).
  { apply (RS_same (fk km) P p x (fk km') P' x 1 d); auto using kmok_ok, fk_evaluable.
    - rewrite D1, D2. exact Hx.
    - rewrite D1', D2', E1, E2. exact Hx.
    - exists z, z'. split; [exact Z1|]. split; [exact Z2|]. intros c'. rewrite Z3, pow1. ring. }
  rewrite pow1, Rmult_1_l in E. exact E.
Qed.

Lemma km_eq p km km' : kmok p km -> inS S km -> kmok p km' -> inS S km' -> (forall x, mlt km x = mlt km' x) -> km = km'.
Proof.
  intros H HS H' HS' HM. assert (EF : fk km = fk km').
  { apply sorted_count_eq; [apply (kmok_nd p), H|apply (kmok_nd p), H'|]. intros x. rewrite <- !(kmok_mlt p) by assumption. apply HM. }
  pose proof (unflat_fk eps He p km H (spaced_S eps p S Apart km H HS)) as U1.
  pose proof (unflat_fk eps He p km' H' (spaced_S eps p S Apart km' H' HS')) as U2.
  rewrite EF, U2 in U1. injection U1 as <-. reflexivity.
Qed.

Definition rows_rel p km rows km' rows' : Prop :=
  length rows' = length rows /\
  forall j, (j < length rows)%nat -> length (nth j rows' []) = npol p km' /\ same_cv p km (nth j rows []) km' (nth j rows' []).

Lemma rows_ok p km kin rows : kmok p km -> inS S km -> (forall r, In r rows -> length r = npol p km) -> rows <> [] ->
  Forall (fits S p (lo km) (hi km)) kin ->
  exists km' rows', unify_rows p km (fk km) rows kin = Ok (km', fk km', rows') /\
    kmok p km' /\ inS S km' /\ lo km' = lo km /\ hi km' = hi km /\
    (forall x, mlt km' x = max (mlt km x) (mlt kin x)) /\ rows_rel p km rows km' rows'.
Proof.
  intros H HS HL HN HF.
  destruct (into_ok eps S He Apart p kin km (repeat (fun _ => 0) (npol p km)) H HS (repeat_length _ _) HF)
    as (km' & P0 & _ & C' & S' & _ & A' & B' & M' & _).
  assert (One : forall P, length P = npol p km -> exists P', unify_into p (km, fk km, P) kin = Ok (km', fk km', P') /\
     length P' = npol p km' /\ same_cv p km P km' P').
  { intros P LP. destruct (into_ok eps S He Apart p kin km P H HS LP HF) as (km2 & P2 & U2 & C2 & S2 & L2 & A2 & B2 & M2 & V2).
    assert (E : km2 = km') by (apply (km_eq p); auto; intros x; rewrite M2, M'; reflexivity).
    subst km2. exists P2. auto. }
  assert (Gen : forall rows done a b, (forall r, In r rows -> length r = npol p km) ->
    exists rows', foldM (fun (st : list (R * nat) * list R * list (list (pt R))) P =>
        let '(_, _, done) := st in
        let* (km', k', P') := unify_into p (km, fk km, P) kin in
        Ok (km', k', done ++ [P'])) (a, b, done) rows =
      Ok (match rows with [] => a | _ => km' end, match rows with [] => b | _ => fk km' end, done ++ rows') /\
      rows_rel p km rows km' rows').
  { clear HL HN rows. induction rows as [|P rows IH]; intros done a b HL.
    - exists []. split; [cbn [foldM]; rewrite app_nil_r; reflexivity|]. split; [reflexivity|]. intros j Hj. cbn in Hj. lia.
    - destruct (One P (HL P (or_introl eq_refl))) as (P' & U & L & V). cbn [foldM]. rewrite U. cbn [bind].
      destruct (IH (done ++ [P']) km' (fk km')) as (rows' & UU & L' & V'). { intros r Hr. apply HL. right. exact Hr. }
      exists (P' :: rows'). split.
      { rewrite UU, <- app_assoc. destruct rows; reflexivity. }
      split; [cbn [length]; rewrite L'; reflexivity|]. intros [|j] Hj; cbn [nth]; [split; auto|]. apply V'. cbn [length] in Hj. lia. }
  destruct (Gen rows [] [] [] HL) as (rows' & U & RR). exists km', rows'. split.
  { unfold unify_rows. rewrite U. destruct rows; [contradiction|reflexivity]. }
  auto 10.
Qed.

End Unify.

(** The grid keeps its values through both passes. *)
Definition sv p q kmU kmV g := SV (fk kmU) (npol p kmU) p (fk kmV) (npol q kmV) q g.
Lemma rect_in {A} (g : list (list A)) a b j : rectangular g a b -> (j < a)%nat -> length (nth j g []) = b.
Proof. intros (L & H) Hj. apply H, nth_In. lia. Qed.
Lemma rect_of {A} (g : list (list A)) a b : length g = a -> (forall j, (j < a)%nat -> length (nth j g []) = b) -> rectangular g a b.
Proof. intros L H. split; [exact L|]. intros r Hr. apply (In_nth _ _ []) in Hr as (j & Hj & <-). apply H. lia. Qed.

Lemma grid_unify p q kmU kmV inU inV g (S S' : R -> Prop) : 0 < eps ->
  (forall x y, S x -> S y -> x = y \/ eps < Rabs (x - y)) -> (forall x y, S' x -> S' y -> x = y \/ eps < Rabs (x - y)) ->
  kmok p kmU -> inS S kmU -> kmok q kmV -> inS S' kmV -> rectangular g (npol q kmV) (npol p kmU) ->
  Forall (fits S p (lo kmU) (hi kmU)) inU -> Forall (fits S' q (lo kmV) (hi kmV)) inV ->
  exists kmU' kmV' g', unify_grid p q kmU kmV (fk kmU) (fk kmV) g inU inV = Ok (kmU', kmV', fk kmU', fk kmV', g') /\
    kmok p kmU' /\ inS S kmU' /\ lo kmU' = lo kmU /\ hi kmU' = hi kmU /\ (forall x, mlt kmU' x = max (mlt kmU x) (mlt inU x)) /\
    kmok q kmV' /\ inS S' kmV' /\ lo kmV' = lo kmV /\ hi kmV' = hi kmV /\ (forall x, mlt kmV' x = max (mlt kmV x) (mlt inV x)) /\
    rectangular g' (npol q kmV') (npol p kmU') /\
    forall x y du dv c, lo kmU <= x <= hi kmU -> lo kmV <= y <= hi kmV ->
      sv p q kmU' kmV' g' x y du dv c = sv p q kmU kmV g x y du dv c.
Proof.
  intros He AS AS' HU IU HV IV Hg FU FV. pose proof (npol_pos p kmU HU) as NU. pose proof (npol_pos q kmV HV) as NV.
  destruct (rows_ok He S AS p kmU inU g HU IU (proj2 Hg)) as (kmU' & g1 & U1 & CU & SU & AU & BU & MU & L1 & R1); [|exact FU|].
  { intros E. rewrite E in Hg. destruct Hg as (L & _). cbn in L. lia. }
  pose proof (npol_pos p kmU' CU) as NU'.
  assert (G1 : rectangular g1 (npol q kmV) (npol p kmU')).
  { destruct Hg as (Lg & _). apply rect_of; [lia|]. intros j Hj. apply R1. lia. }
  destruct (transpose_spec (@pzero R (NumR eps)) g1 _ _ G1 ltac:(lia)) as (g2 & T1 & G2 & A2).
  destruct (rows_ok He S' AS' q kmV inV g2 HV IV (proj2 G2)) as (kmV' & g3 & U3 & CV & SV' & AV & BV & MV & L3 & R3); [|exact FV|].
  { intros E. rewrite E in G2. destruct G2 as (L & _). cbn in L. lia. }
  assert (G3 : rectangular g3 (npol p kmU') (npol q kmV')).
  { destruct G2 as (Lg & _). apply rect_of; [lia|]. intros j Hj. apply R3. lia. }
  destruct (transpose_spec (@pzero R (NumR eps)) g3 _ _ G3 ltac:(lia)) as (g4 & T3 & G4 & A4).
  exists kmU', kmV', g4. split.
  { unfold unify_grid. rewrite U1. cbn [bind]. rewrite T1. cbn [bind]. rewrite U3. cbn [bind]. rewrite T3. reflexivity. }
  do 10 (split; [assumption|]). split; [exact G4|].
  intros x y du dv c Hx Hy. unfold sv.
  rewrite <- (SV_swap (fk kmU') (npol p kmU') p (fk kmV') (npol q kmV') q g4 g3).
  2:{ intros i j Hi Hj. symmetry. apply A4; assumption. }
  transitivity (SV (fk kmV) (npol q kmV) q (fk kmU') (npol p kmU') p g2 y x dv du c).
  { rewrite <- (Rmult_1_l (SV (fk kmV') _ _ _ _ _ _ _ _ _ _ _)). apply SV_rows. intros j Hj. rewrite Rmult_1_l.
    destruct (R3 j) as (LJ & VJ); [destruct G2; lia|].
    apply (same_cv_RS He S' AS' q kmV (nth j g2 []) kmV' (nth j g3 [])); auto. apply (rect_in _ _ _ _ G2 Hj). }
  rewrite (SV_swap (fk kmU') (npol p kmU') p (fk kmV) (npol q kmV) q g1 g2).
  2:{ intros i j Hi Hj. apply A2; assumption. }
  rewrite <- (Rmult_1_l (SV (fk kmU') _ _ _ _ _ _ _ _ _ _ _)). apply SV_rows. intros j Hj. rewrite Rmult_1_l.
  destruct (R1 j) as (LJ & VJ); [destruct Hg; lia|].
  apply (same_cv_RS He S AS p kmU (nth j g []) kmU' (nth j g1 [])); auto. apply (rect_in _ _ _ _ Hg Hj).
Qed.
End AtR.
