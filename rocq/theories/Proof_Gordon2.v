(** unify_knots for surfaces. *)
From Coq Require Import List Arith ZArith Reals Lia Lra Bool.
From Verif Require Import Model_Base Spec_Base Spec_Basis Spec_Knots Spec_Eval Spec_Surface Spec_Elevate Spec_Unify Spec_Gordon
  Model_Basis Model_Knots Model_Curve Model_Surface Model_Elevate Model_Unify Model_Gordon
  Proof_Base Proof_Basis Proof_Eval Proof_Insert Proof_Curve Proof_Trim
  Proof_Knots Proof_Builders Proof_Elevate2 Proof_Elevate3 Proof_Elevate4 Proof_Unify Proof_Unify2 Proof_Unify3 Proof_Unify4
  Proof_Interp Proof_Surface Proof_Grid Proof_Skin1 Proof_Gordon1.
Import ListNotations.
Local Open Scope R_scope.

Lemma concat_rect {A} (g : list (list A)) m n : rectangular g m n -> length (concat g) = (n * m)%nat.
Proof.
  revert m. induction g as [|r g IH]; intros m (L & H); cbn [length] in L; subst m; [cbn; lia|].
  cbn [concat]. rewrite app_length, (IH (length g)).
  - rewrite (H r (or_introl eq_refl)). lia.
  - split; [reflexivity|]. intros r' Hr. apply H. right. exact Hr.
Qed.
Lemma nth_concat {A} (d : A) (g : list (list A)) m n i j : rectangular g m n -> (i < n)%nat -> (j < m)%nat ->
  nth (i + n * j) (concat g) d = nth i (nth j g []) d.
Proof.
  revert m j. induction g as [|r g IH]; intros m j (L & H) Hi Hj; cbn [length] in L; subst m; [lia|].
  cbn [concat]. pose proof (H r (or_introl eq_refl)) as Lr. destruct j as [|j]; cbn [nth].
  - rewrite app_nth1 by lia. f_equal. lia.
  - rewrite app_nth2 by nia. rewrite <- (IH (length g) j); [f_equal; nia| |exact Hi|lia].
    split; [reflexivity|]. intros r' Hr. apply H. right. exact Hr.
Qed.

Section AtR.
Variable eps : R.
Local Hint Extern 0 (Num R) => exact (NumR eps) : typeclass_instances.
Hypothesis He : 0 < eps.

Definition ckn_of p k n : Prop := exists U M, clamped_knots eps p U M /\ k = repeat_each U M /\ n = poles_for p M.

Lemma ckn_km p k n : ckn_of p k n -> exists km, kmok p km /\ spaced eps (map fst km) /\ k = fk km /\ n = npol p km.
Proof.
  intros (U & M & HK & -> & ->). destruct (info_km eps p (repeat (fun _ => 0) (poles_for p M), repeat_each U M, p)) as (km & A & B & C & D & _).
  - lra.
  - split; [reflexivity|]. exists U, M. split; [exact HK|]. split; [reflexivity|]. apply repeat_length.
  - exists km. unfold poles_of in D. cbn [fst snd] in D. rewrite repeat_length in D. auto.
Qed.
Lemma km_ckn p km : kmok p km -> spaced eps (map fst km) -> ckn_of p (fk km) (npol p km).
Proof. intros H Hs. destruct H as (A & B & C & D). exists (map fst km), (map snd km).
  split; [|split; reflexivity]. split; [exact A|]. split; [exact B|]. split; [exact Hs|exact D].
Qed.
Lemma ckn_ok p k n : ckn_of p k n -> knots_ok k n p /\ evaluable eps k n p /\ first_knot k = kn k p /\ last_knot k = kn k n /\ first_knot k < last_knot k.
Proof.
  intros H. destruct (ckn_km p k n H) as (km & A & B & -> & ->). destruct (fk_dom p km A) as (D1 & D2).
  destruct (fk_first p km A) as (E1 & E2). pose proof (lo_hi p km A).
  split; [apply (kmok_ok p km A)|]. split; [apply fk_evaluable; auto|]. split; [congruence|]. split; [congruence|lra].
Qed.

Section Move.
Variable p : nat.
Variable k0 : list R.
Variable S : R -> Prop.
Hypothesis Apart : forall x y, S x -> S y -> x = y \/ eps < Rabs (x - y).
Hypothesis Hab : first_knot k0 < last_knot k0.

Definition movedk (k : list R) (n : nat) (km : list (R * nat)) : Prop :=
  kmok p km /\ inS S km /\ lo km = first_knot k0 /\ hi km = last_knot k0 /\ fk km = map (rescale k0 k) k /\ n = npol p km /\
  change_bounds (first_knot k0) (last_knot k0) k = Ok (fk km) /\
  forall x, first_knot k <= x <= last_knot k -> lo km <= rescale k0 k x <= hi km /\
    forall d P c, length P = n -> ratio k0 k ^ d * RS eps (fk km) n p (rescale k0 k x) d P c = RS eps k n p x d P c.

Lemma movedk_ex k n : ckn_of p k n -> (forall x, In x k -> S (rescale k0 k x)) -> exists km, movedk k n km.
Proof.
  intros HK HS. pose proof (ckn_ok p k n HK) as (OK & EV & F1 & F2 & F3). pose proof HK as (U & M & CK & Ek & En).
  assert (O : forall P : list (pt R), length P = n -> okinfo eps p k0 S (P, k, p)).
  { intros P LP. split; [|exact HS]. split; [reflexivity|]. exists U, M. split; [exact CK|]. split; [exact Ek|]. exact (eq_trans LP En). }
  destruct (moved_ex eps He p k0 S Apart Hab (repeat (fun _ => 0) n, k, p) (O _ (repeat_length _ _)))
    as (km & H & I & A & B & F & L & Ch & _ & _).
  unfold knots_of, poles_of in F, L, Ch. cbn [fst snd] in F, L, Ch. rewrite repeat_length in L.
  destruct (fk_dom p km H) as (D1 & D2). pose proof (spaced_S eps p S Apart km H I) as Sp.
  exists km. do 7 (split; [assumption|]). intros x Hx.
  assert (Hr : lo km <= rescale k0 k x <= hi km).
  { destruct (moved_ex eps He p k0 S Apart Hab (repeat (fun _ => 0) n, k, p) (O _ (repeat_length _ _)))
      as (km2 & _ & _ & _ & _ & _ & _ & _ & _ & V). rewrite A, B. apply (V x 0%nat Hx). }
  split; [exact Hr|]. intros d P c LP.
  destruct (moved_ex eps He p k0 S Apart Hab (P, k, p) (O P LP)) as (km2 & _ & _ & _ & _ & F' & _ & _ & _ & V).
  destruct (V x d Hx) as (_ & SVx). unfold knots_of, poles_of in F', SVx. cbn [fst snd] in F', SVx. rewrite F', <- F in SVx.
  rewrite L at 1. apply (RS_same eps k P p x (fk km) P (rescale k0 k x) (ratio k0 k) d n (npol p km)); auto.
  - rewrite <- F1, <- F2. exact Hx.
  - apply kmok_ok, H.
  - apply fk_evaluable; auto.
  - congruence.
  - rewrite D1, D2. exact Hr.
Qed.
End Move.

Section Surfaces.
Variables (p q : nat) (ku0 kv0 : list R) (S S' : R -> Prop).
Hypothesis AS : forall x y, S x -> S y -> x = y \/ eps < Rabs (x - y).
Hypothesis AS' : forall x y, S' x -> S' y -> x = y \/ eps < Rabs (x - y).
Hypothesis Hab : first_knot ku0 < last_knot ku0.
Hypothesis Hcd : first_knot kv0 < last_knot kv0.
Let a := first_knot ku0.
Let b := last_knot ku0.
Let c := first_knot kv0.
Let d := last_knot kv0.

Definition oksinfo (s : @sinfo R) : Prop :=
  clamped_sinfo eps p q s /\ (forall x, In x (u_knots s) -> S (rescale ku0 (u_knots s) x)) /\
  (forall y, In y (v_knots s) -> S' (rescale kv0 (v_knots s) y)).

(** Values of the data of a surface. *)
Definition svi (s : @sinfo R) (n m : nat) := SV eps (u_knots s) n (u_degree s) (v_knots s) m (v_degree s) (rows_in s).
Definition in_s (s : @sinfo R) x y : Prop :=
  first_knot (u_knots s) <= x <= last_knot (u_knots s) /\ first_knot (v_knots s) <= y <= last_knot (v_knots s).
Definition moved2 (s : @sinfo R) (kmU kmV : list (R * nat)) : Prop :=
  exists n m, ckn_of p (u_knots s) n /\ ckn_of q (v_knots s) m /\ rectangular (rows_in s) m n /\
  u_degree s = p /\ v_degree s = q /\ movedk p ku0 S (u_knots s) n kmU /\ movedk q kv0 S' (v_knots s) m kmV.

Lemma moved2_ex s : oksinfo s -> exists kmU kmV, moved2 s kmU kmV.
Proof.
  intros ((Ep & Eq & U & M & V & N & CU & EU & CV & EV & RG) & HS & HS').
  assert (K1 : ckn_of p (u_knots s) (poles_for p M)) by (exists U, M; auto).
  assert (K2 : ckn_of q (v_knots s) (poles_for q N)) by (exists V, N; auto).
  destruct (movedk_ex p ku0 S AS Hab _ _ K1 HS) as (kmU & MU). destruct (movedk_ex q kv0 S' AS' Hcd _ _ K2 HS') as (kmV & MV).
  exists kmU, kmV, (poles_for p M), (poles_for q N). auto 10.
Qed.

Lemma moved2_value s kmU kmV n m : ckn_of p (u_knots s) n -> ckn_of q (v_knots s) m -> rectangular (rows_in s) m n ->
  u_degree s = p -> v_degree s = q -> movedk p ku0 S (u_knots s) n kmU -> movedk q kv0 S' (v_knots s) m kmV ->
  forall x y du dv k, in_s s x y ->
    ratio ku0 (u_knots s) ^ du * ratio kv0 (v_knots s) ^ dv *
      sv eps p q kmU kmV (rows_in s) (rescale ku0 (u_knots s) x) (rescale kv0 (v_knots s) y) du dv k = svi s n m x y du dv k.
Proof.
  intros K1 K2 RG Ep Eq MU MV x y du dv k (Hx & Hy). unfold svi, sv. rewrite Ep, Eq.
  destruct MU as (_ & _ & _ & _ & _ & NU & _ & VU). destruct MV as (_ & _ & _ & _ & _ & NV & _ & VV).
  rewrite <- NU, <- NV. destruct (VU x Hx) as (_ & WU). destruct (VV y Hy) as (_ & WV).
  destruct (transpose_spec (fun _ : nat => 0) (rows_in s) m n RG) as (g & _ & RG' & Tg).
  { destruct (ckn_ok q _ _ K2) as (OK & _). destruct OK as (_ & L & _). lia. }
  rewrite (Rmult_comm (ratio ku0 _ ^ du)), Rmult_assoc.
  rewrite (SV_rows eps (u_knots s) n p (fk kmU) n p (fk kmV) m q (rows_in s) (rows_in s) x).
  2:{ intros j Hj. apply WU. apply (rect_in _ _ _ _ RG Hj). }
  rewrite <- (SV_swap eps (u_knots s) n p (fk kmV) m q (rows_in s) g) by (intros i j Hi Hj; apply Tg; assumption).
  rewrite <- (SV_swap eps (u_knots s) n p (v_knots s) m q (rows_in s) g) by (intros i j Hi Hj; apply Tg; assumption).
  apply SV_rows. intros j Hj. apply WV. apply (rect_in _ _ _ _ RG' Hj).
Qed.

Definition moved_sinfo (s s1 : @sinfo R) : Prop :=
  exists kmU kmV, moved2 s kmU kmV /\ s1 = (rows_in s, fk kmU, fk kmV, p, q).

Definition ku_max l x := list_max (map (fun s => count (map (rescale ku0 (u_knots s)) (u_knots s)) x) l).
Definition kv_max l x := list_max (map (fun s => count (map (rescale kv0 (v_knots s)) (v_knots s)) x) l).

Lemma phase1s rest : Forall oksinfo rest -> forall kmU kmV g done, kmok p kmU -> inS S kmU -> lo kmU = a -> hi kmU = b ->
  kmok q kmV -> inS S' kmV -> lo kmV = c -> hi kmV = d -> rectangular g (npol q kmV) (npol p kmU) ->
  exists kmU' kmV' g' rest', foldM (fun st (S : sinfo) =>
        let '(kmU0, kmV0, ku0, kv0, rows0, done) := st in
        let '(rows, ku, kv, _p, _q) := S in
        let* ku := change_bounds a b ku in
        let* kv := change_bounds c d kv in
        let* kmU := unflat_pairs ku in
        let* kmV := unflat_pairs kv in
        let* (kmU0, kmV0, ku0, kv0, rows0) := unify_grid p q kmU0 kmV0 ku0 kv0 rows0 kmU kmV in
        Ok (kmU0, kmV0, ku0, kv0, rows0, done ++ [(rows, ku, kv, _p, _q)]))
      (kmU, kmV, fk kmU, fk kmV, g, done) rest = Ok (kmU', kmV', fk kmU', fk kmV', g', done ++ rest') /\
    kmok p kmU' /\ inS S kmU' /\ lo kmU' = a /\ hi kmU' = b /\ kmok q kmV' /\ inS S' kmV' /\ lo kmV' = c /\ hi kmV' = d /\
    rectangular g' (npol q kmV') (npol p kmU') /\
    (forall x y du dv k, a <= x <= b -> c <= y <= d -> sv eps p q kmU' kmV' g' x y du dv k = sv eps p q kmU kmV g x y du dv k) /\
    Forall2 moved_sinfo rest rest' /\
    (forall x, mlt kmU' x = max (mlt kmU x) (ku_max rest x)) /\ (forall x, mlt kmV' x = max (mlt kmV x) (kv_max rest x)).
Proof.
  induction 1 as [|s rest Hs HF IH]; intros kmU kmV g done HU IU A1 A2 HV IV B1 B2 RG.
  - exists kmU, kmV, g, []. rewrite app_nil_r. split; [reflexivity|]. do 9 (split; [assumption|]).
    split; [reflexivity|]. split; [constructor|]. split; intros x; cbn; lia.
  - destruct (moved2_ex s Hs) as (mU & mV & M2). pose proof M2 as (n & m & K1 & K2 & RS' & Ep & Eq & MU & MV).
    destruct MU as (HU2 & IU2 & C1 & C2 & FU & NU & ChU & _). destruct MV as (HV2 & IV2 & D1 & D2 & FV & NV & ChV & _).
    destruct s as [[[[gs ks] ls] ps] qs]. unfold u_knots, v_knots, u_degree, v_degree in *. cbn [foldM].
    fold a b in ChU. fold c d in ChV. rewrite ChU. cbn [bind]. rewrite ChV. cbn [bind].
    rewrite (unflat_fk eps He p mU HU2 (spaced_S eps p S AS mU HU2 IU2)). cbn [bind].
    rewrite (unflat_fk eps He q mV HV2 (spaced_S eps q S' AS' mV HV2 IV2)). cbn [bind].
    destruct (grid_unify eps p q kmU kmV mU mV g S S' He AS AS' HU IU HV IV RG) as
      (kmU1 & kmV1 & g1 & U1 & CU1 & SU1 & E1 & E2 & MU1 & CV1 & SV1 & F1 & F2 & MV1 & G1 & V1).
    { rewrite A1, A2. apply (fits_of p ku0 S mU); auto. } { rewrite B1, B2. apply (fits_of q kv0 S' mV); auto. }
    rewrite U1. cbn [bind].
    destruct (IH kmU1 kmV1 g1 (done ++ [(gs, fk mU, fk mV, ps, qs)]) CU1 SU1 ltac:(congruence) ltac:(congruence) CV1 SV1 ltac:(congruence) ltac:(congruence) G1)
      as (kmU2 & kmV2 & g2 & rest' & U2 & CU2 & SU2 & E3 & E4 & CV2 & SV2 & F3 & F4 & G2 & V2 & FA & MU2 & MV2).
    exists kmU2, kmV2, g2, ((gs, fk mU, fk mV, ps, qs) :: rest'). rewrite U2, <- app_assoc. split; [reflexivity|].
    do 9 (split; [assumption|]).
    split. { intros x y du dv k Hx Hy. rewrite V2 by assumption. apply V1; [rewrite A1, A2; exact Hx|rewrite B1, B2; exact Hy]. }
    split. { constructor; [|exact FA]. exists mU, mV. split; [exact M2|]. rewrite Ep, Eq. reflexivity. }
    split; intros x.
    + rewrite MU2, MU1. unfold ku_max. cbn [map]. rewrite list_max_cons. cbn [u_knots]. rewrite <- FU, (kmok_mlt p mU) by exact HU2. lia.
    + rewrite MV2, MV1. unfold kv_max. cbn [map]. rewrite list_max_cons. cbn [v_knots]. rewrite <- FV, (kmok_mlt q mV) by exact HV2. lia.
Qed.

Definition final_sinfo (kmU0 kmV0 : list (R * nat)) (s s' : @sinfo R) : Prop :=
  exists g', s' = (g', fk kmU0, fk kmV0, p, q) /\ rectangular g' (npol q kmV0) (npol p kmU0) /\
    exists n m, ckn_of p (u_knots s) n /\ ckn_of q (v_knots s) m /\ rectangular (rows_in s) m n /\
      u_degree s = p /\ v_degree s = q /\
    forall x y du dv k, in_s s x y ->
      (a <= rescale ku0 (u_knots s) x <= b /\ c <= rescale kv0 (v_knots s) y <= d) /\
      ratio ku0 (u_knots s) ^ du * ratio kv0 (v_knots s) ^ dv *
        sv eps p q kmU0 kmV0 g' (rescale ku0 (u_knots s) x) (rescale kv0 (v_knots s) y) du dv k = svi s n m x y du dv k.

Lemma phase2s kmU0 kmV0 rest : forall rest', kmok p kmU0 -> inS S kmU0 -> lo kmU0 = a -> hi kmU0 = b ->
  kmok q kmV0 -> inS S' kmV0 -> lo kmV0 = c -> hi kmV0 = d ->
  Forall2 moved_sinfo rest rest' ->
  (forall s x, In s rest -> (count (map (rescale ku0 (u_knots s)) (u_knots s)) x <= mlt kmU0 x)%nat) ->
  (forall s x, In s rest -> (count (map (rescale kv0 (v_knots s)) (v_knots s)) x <= mlt kmV0 x)%nat) ->
  exists rest2, mapM (fun S : sinfo =>
        let '(rows, ku, kv, p, q) := S in
        let* kmU := unflat_pairs ku in
        let* kmV := unflat_pairs kv in
        let* (_, _, ku, kv, rows) := unify_grid p q kmU kmV ku kv rows kmU0 kmV0 in
        Ok (rows, ku, kv, p, q)) rest' = Ok rest2 /\ Forall2 (final_sinfo kmU0 kmV0) rest rest2.
Proof.
  induction rest as [|s rest IH]; intros rest' HU IU A1 A2 HV IV B1 B2 HF LU LV; inversion HF as [|? s' ? r' HM HF']; subst.
  { exists []. split; [reflexivity|constructor]. }
  destruct (IH r' HU IU A1 A2 HV IV B1 B2 HF') as (rest2 & ER & FR);
    [intros t x Ht; apply LU; right; exact Ht|intros t x Ht; apply LV; right; exact Ht|].
  destruct HM as (mU & mV & M2 & ->). pose proof M2 as (n & m & K1 & K2 & RG & Ep & Eq & MU & MV).
  pose proof MU as (HU2 & IU2 & C1 & C2 & FU & NU & ChU & VU). pose proof MV as (HV2 & IV2 & D1 & D2 & FV & NV & ChV & VV).
  cbn [mapM]. rewrite (unflat_fk eps He p mU HU2 (spaced_S eps p S AS mU HU2 IU2)). cbn [bind].
  rewrite (unflat_fk eps He q mV HV2 (spaced_S eps q S' AS' mV HV2 IV2)). cbn [bind].
  rewrite NU, NV in RG.
  destruct (grid_unify eps p q mU mV kmU0 kmV0 (rows_in s) S S' He AS AS' HU2 IU2 HV2 IV2 RG) as
    (kmU1 & kmV1 & g1 & U1 & CU1 & SU1 & E1 & E2 & MU1 & CV1 & SV1 & F1 & F2 & MV1 & G1 & V1).
  { rewrite C1, C2. apply (fits_of p ku0 S kmU0); auto. } { rewrite D1, D2. apply (fits_of q kv0 S' kmV0); auto. }
  rewrite U1. cbn [bind]. rewrite ER. cbn [bind].
  assert (EU : kmU1 = kmU0).
  { apply (km_eq eps He S AS p); auto. intros x. rewrite MU1. specialize (LU s x (or_introl eq_refl)).
    rewrite <- FU, <- (kmok_mlt p) in LU by exact HU2. lia. }
  assert (EV : kmV1 = kmV0).
  { apply (km_eq eps He S' AS' q); auto. intros x. rewrite MV1. specialize (LV s x (or_introl eq_refl)).
    rewrite <- FV, <- (kmok_mlt q) in LV by exact HV2. lia. }
  subst kmU1 kmV1. exists ((g1, fk kmU0, fk kmV0, p, q) :: rest2). split; [reflexivity|]. constructor; [|exact FR].
  exists g1. split; [reflexivity|]. split; [exact G1|]. exists n, m. rewrite NU, NV.
  split; [rewrite <- NU; exact K1|]. split; [rewrite <- NV; exact K2|]. split; [exact RG|]. split; [exact Ep|]. split; [exact Eq|].
  intros x y du dv k Hxy. pose proof Hxy as (Hx & Hy). destruct (VU x Hx) as (RU & _). destruct (VV y Hy) as (RV & _).
  split; [rewrite C1, C2 in RU; rewrite D1, D2 in RV; split; assumption|].
  rewrite V1 by assumption. rewrite <- NU, <- NV. rewrite <- NU, <- NV in RG. apply moved2_value; auto.
Qed.
End Surfaces.
End AtR.
