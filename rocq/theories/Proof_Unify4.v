(** unify_knots and unify_degree: the statements. *)
From Coq Require Import List Arith ZArith Reals Lia Lra Bool Permutation.
From Verif Require Import Model_Base Spec_Base Spec_Basis Spec_Knots Spec_Eval Spec_Class Spec_Rational Spec_Elevate Spec_Unify
  Model_Basis Model_Knots Model_Removal Model_Curve Model_Rational Model_Elevate Model_Unify
  Proof_Base Proof_Basis Proof_Eval Proof_Insert Proof_Curve Proof_Trim
  Proof_Knots Proof_Builders Proof_Elevate2 Proof_Elevate3 Proof_Elevate4 Proof_Unify Proof_Unify2 Proof_Unify3.
Import ListNotations.
Local Open Scope R_scope.

Lemma list_max_cons a l : list_max (a :: l) = max a (list_max l).
Proof. reflexivity. Qed.
Lemma list_max_ge l x : In x l -> (x <= list_max l)%nat.
Proof.
  induction l as [|y l IH]; intros H; [destruct H|]. rewrite list_max_cons. destruct H as [->|H]; [lia|]. specialize (IH H). lia.
Qed.

Section AtR.
Variable eps : R.
Local Hint Extern 0 (Num R) => exact (NumR eps) : typeclass_instances.
Hypothesis He : 0 < eps.
Variable p : nat.
Variable k0 : list R.
Variable S : R -> Prop.
Hypothesis Apart : forall x y, S x -> S y -> x = y \/ eps < Rabs (x - y).
Let a := first_knot k0.
Let b := last_knot k0.
Hypothesis Hab : a < b.

Lemma spaced_S km : kmok p km -> inS S km -> spaced eps (map fst km).
Proof.
  intros H HS i Hi. pose proof (kmok_si p km H i (Datatypes.S i) ltac:(lia) Hi) as L.
  destruct (Apart (kn (map fst km) i) (kn (map fst km) (Datatypes.S i))) as [E|E].
  - apply HS, nth_In. lia.
  - apply HS, nth_In. lia.
  - lra.
  - rewrite Rabs_left in E by lra. lra.
Qed.

Definition okinfo (c : @info R) : Prop :=
  clamped_info eps p c /\ forall x, In x (knots_of c) -> S (rescale k0 (knots_of c) x).
(** km are the pairs of the moved knots of c *)
Definition moved (c : @info R) (km : list (R * nat)) : Prop :=
  kmok p km /\ inS S km /\ lo km = a /\ hi km = b /\ fk km = map (rescale k0 (knots_of c)) (knots_of c) /\
  length (poles_of c) = npol p km /\ change_bounds a b (knots_of c) = Ok (fk km) /\ snd c = p /\
  forall x d, first_knot (knots_of c) <= x <= last_knot (knots_of c) ->
    a <= rescale k0 (knots_of c) x <= b /\
    same_value eps (knots_of c) (poles_of c) p x (fk km) (poles_of c) p (rescale k0 (knots_of c) x) (ratio k0 (knots_of c)) d.

Lemma moved_ex c : okinfo c -> exists km, moved c km.
Proof.
  intros (Hc & HS). destruct (info_km eps p c ltac:(lra) Hc) as (km & H & Hsp & EK & LP & Ed).
  destruct (fk_first p km H) as (E1 & E2). pose proof (lo_hi p km H) as Hlh.
  set (f := fun x => a + (b - a) * (x - lo km) / (hi km - lo km)).
  assert (Ef : forall x, f x = rescale k0 (knots_of c) x).
  { intros x. unfold f, rescale. rewrite EK, E1, E2. reflexivity. }
  assert (Hfs : forall x y, x < y -> f x < f y).
  { intros x y Hxy. rewrite !Ef. apply rescale_si; [exact Hab|rewrite EK; lra|exact Hxy]. }
  destruct (kmok_map f p km Hfs H) as (H' & A1 & A2). set (km' := map (fun um => (f (fst um), snd um)) km) in *.
  assert (Ei : inS S km').
  { intros x Hx. apply (fk_in p km' x H') in Hx. unfold km' in Hx. rewrite fk_map in Hx. apply in_map_iff in Hx as (y & <- & Hy).
    rewrite Ef. apply HS. rewrite EK. exact Hy. }
  pose proof (spaced_S km' H' Ei) as Hsp'.
  assert (Fa : f (lo km) = a) by (unfold f; field; lra). assert (Fb : f (hi km) = b) by (unfold f; field; lra).
  exists km'. split; [exact H'|]. split; [exact Ei|]. split; [congruence|]. split; [congruence|].
  split. { unfold km'. rewrite fk_map, <- EK. apply map_ext. exact Ef. }
  split. { rewrite LP. unfold npol, km'. rewrite map_map. reflexivity. }
  split. { rewrite EK. apply (rescale_eval eps He p km (poles_of c) a b (lo km) 0 H Hsp LP Hab Hsp'). lra. }
  split; [exact Ed|].
  intros x d Hx. rewrite EK, E1, E2 in Hx.
  split. { rewrite <- Ef. assert (Hm : forall y z, y <= z -> f y <= f z) by (intros y z [L| ->]; [apply Rlt_le, Hfs, L|lra]).
           pose proof (Hm (lo km) x ltac:(lra)). pose proof (Hm x (hi km) ltac:(lra)). lra. }
  destruct (rescale_eval eps He p km (poles_of c) a b x d H Hsp LP Hab Hsp' Hx) as (_ & q & q' & Q1 & Q2 & Q3).
  exists q, q'. rewrite <- Ef. rewrite EK at 1. split; [exact Q1|]. split; [exact Q2|].
  intros i. rewrite <- Q3. unfold ratio. rewrite EK, E1, E2. reflexivity.
Qed.

Definition moved_info (c : @info R) (c' : @info R) : Prop :=
  exists km, moved c km /\ c' = (poles_of c, fk km, p).

Lemma fits_of km : kmok p km -> inS S km -> lo km = a -> hi km = b -> Forall (fits S p a b) km.
Proof.
  intros H HS E1 E2. apply Forall_forall. intros [u m] Hu. split.
  - apply HS. apply (in_map fst) in Hu. exact Hu.
  - cbn [fst snd]. rewrite <- E1, <- E2. apply (kmok_pair p km u m H Hu).
Qed.

Lemma phase1 rest : Forall okinfo rest -> forall km P done, kmok p km -> inS S km -> lo km = a -> hi km = b -> length P = npol p km ->
  exists km' P' rest', foldM (fun st (C : info) =>
        let '(km0, k0, P0, done) := st in
        let '(P, k, _p) := C in
        let* k := change_bounds a b k in
        let* km := unflat_pairs k in
        let* (km0, k0, P0) := unify_into p (km0, k0, P0) km in
        Ok (km0, k0, P0, done ++ [(P, k, _p)])) (km, fk km, P, done) rest = Ok (km', fk km', P', done ++ rest') /\
    kmok p km' /\ inS S km' /\ lo km' = a /\ hi km' = b /\ length P' = npol p km' /\ same_cv p km P km' P' /\
    Forall2 moved_info rest rest' /\
    forall x, mlt km' x = max (mlt km x) (list_max (map (fun c => count (map (rescale k0 (knots_of c)) (knots_of c)) x) rest)).
Proof.
  induction 1 as [|c rest Hc HF IH]; intros km P done H HS E1 E2 LP.
  - exists km, P, []. rewrite app_nil_r. split; [reflexivity|].
    split; [exact H|]. split; [exact HS|]. split; [exact E1|]. split; [exact E2|]. split; [exact LP|].
    split; [apply same_cv_refl|]. split; [constructor|]. intros x. cbn. lia.
  - destruct (moved_ex c Hc) as (kc & Mc). pose proof Mc as (Hk & Ik & A1 & A2 & Fk & Lp & Ch & Ed & _).
    destruct c as [[Pc kk] pc]. unfold knots_of, poles_of in Fk, Lp, Ch, Ed. cbn [fst snd] in Fk, Lp, Ch, Ed. cbn [foldM].
    rewrite Ch. cbn [bind]. rewrite (unflat_fk eps He p kc Hk (spaced_S kc Hk Ik)). cbn [bind].
    destruct (into_ok eps S He Apart p kc km P H HS LP) as (km1 & P1 & U1 & C1 & S1 & L1 & B1 & B2 & M1 & V1).
    { rewrite E1, E2. apply fits_of; auto. }
    rewrite U1. cbn [bind].
    destruct (IH km1 P1 (done ++ [(Pc, fk kc, pc)]) C1 S1 ltac:(congruence) ltac:(congruence) L1)
      as (km2 & P2 & rest' & U2 & C2 & S2 & F1 & F2 & L2 & V2 & FA & M2).
    exists km2, P2, ((Pc, fk kc, pc) :: rest'). rewrite U2, <- app_assoc. split; [reflexivity|].
    split; [exact C2|]. split; [exact S2|]. split; [exact F1|]. split; [exact F2|]. split; [exact L2|].
    split; [apply (same_cv_trans p km P km1 P1); auto|].
    split. { constructor; [|exact FA]. exists kc. split; [exact Mc|]. rewrite Ed. reflexivity. }
    intros x. rewrite M2, M1. cbn [map]. rewrite list_max_cons. unfold knots_of at 3 4. cbn [fst snd].
    rewrite <- Fk, (kmok_mlt p kc) by exact Hk. lia.
Qed.

Definition final_info (km0 : list (R * nat)) (c c' : @info R) : Prop :=
  exists P', c' = (P', fk km0, p) /\ length P' = npol p km0 /\
    forall x d, first_knot (knots_of c) <= x <= last_knot (knots_of c) ->
      same_value eps (knots_of c) (poles_of c) p x (fk km0) P' p (rescale k0 (knots_of c) x) (ratio k0 (knots_of c)) d.

Lemma phase2 km0 rest : forall rest', kmok p km0 -> inS S km0 -> lo km0 = a -> hi km0 = b ->
  Forall2 moved_info rest rest' ->
  (forall c x, In c rest -> (count (map (rescale k0 (knots_of c)) (knots_of c)) x <= mlt km0 x)%nat) ->
  exists rest2, mapM (fun C : info =>
        let '(P, k, _p) := C in
        let* km := unflat_pairs k in
        let* (_, k, P) := unify_into _p (km, k, P) km0 in
        Ok (P, k, _p)) rest' = Ok rest2 /\ Forall2 (final_info km0) rest rest2.
Proof.
  induction rest as [|c rest IH]; intros rest' H0 S0 E1 E2 HF Hle; inversion HF as [|? c' ? r' HM HF']; subst.
  { exists []. split; [reflexivity|constructor]. }
  destruct (IH r' H0 S0 E1 E2 HF') as (rest2 & ER & FR). { intros d x Hd. apply Hle. right. exact Hd. }
  destruct HM as (km & Mc & ->). pose proof Mc as (Hk & Ik & A1 & A2 & Fk & Lp & Ch & Ed & Vm).
  cbn [mapM]. rewrite (unflat_fk eps He p km Hk (spaced_S km Hk Ik)). cbn [bind].
  destruct (into_ok eps S He Apart p km0 km (poles_of c) Hk Ik Lp) as (km1 & P1 & U1 & C1 & S1 & L1 & B1 & B2 & M1 & V1).
  { rewrite A1, A2. apply fits_of; auto. }
  rewrite U1. cbn [bind]. rewrite ER. cbn [bind].
  assert (EF : fk km1 = fk km0).
  { apply sorted_count_eq; [apply (kmok_nd p), C1|apply (kmok_nd p), H0|]. intros x.
    rewrite <- !(kmok_mlt p) by assumption. rewrite M1. specialize (Hle c x (or_introl eq_refl)).
    rewrite <- Fk, <- (kmok_mlt p) in Hle by exact Hk. lia. }
  exists ((P1, fk km1, p) :: rest2). split; [reflexivity|]. constructor; [|exact FR].
  exists P1. rewrite EF. split; [reflexivity|].
  assert (EN : npol p km1 = npol p km0).
  { pose proof (ck_len p _ _ C1) as Z1. pose proof (ck_len p _ _ H0) as Z2. fold (fk km1) in Z1. fold (fk km0) in Z2.
    rewrite EF in Z1. unfold npol. lia. }
  split; [congruence|]. intros x d Hx. destruct (Vm x d Hx) as (Hr & q & q' & Q1 & Q2 & Q3).
  destruct (eval_same eps He p km (poles_of c) km1 P1 (rescale k0 (knots_of c) x) d Hk (spaced_S km Hk Ik) Lp C1 (spaced_S km1 C1 S1) L1 B1 B2 V1)
    as (r & rr & R1 & R2 & R3). { rewrite A1, A2. exact Hr. }
  rewrite Q2 in R1. injection R1 as <-. exists q, rr. split; [exact Q1|]. split; [rewrite <- EF; exact R2|].
  intros i. rewrite R3. apply Q3.
Qed.
End AtR.

Section Statements.
Variable eps : R.
Local Hint Extern 0 (Num R) => exact (NumR eps) : typeclass_instances.

Lemma unify_knots_ok p P0 k0 rest (cs := (P0, k0, p) :: rest) : 0 < eps ->
  Forall (clamped_info eps p) cs -> knots_apart eps k0 cs ->
  exists k cs', unify_knots cs = Ok cs' /\ length cs' = length cs /\ nondecreasing k /\
    first_knot k = first_knot k0 /\ last_knot k = last_knot k0 /\
    (forall x, count k x = max_multiplicity k0 cs x) /\
    forall i c, nth_error cs i = Some c -> exists P', nth_error cs' i = Some (P', k, p) /\
      (length P' + p + 1 = length k)%nat /\ clamped_info eps p (P', k, p) /\
      forall x d, first_knot (knots_of c) <= x <= last_knot (knots_of c) ->
        same_value eps (knots_of c) (poles_of c) p x k P' p (rescale k0 (knots_of c) x) (ratio k0 (knots_of c)) d.
Proof.
  intros He HF HA.
  set (S := fun y => exists c x, In c cs /\ In x (knots_of c) /\ y = rescale k0 (knots_of c) x).
  assert (Apart : forall x y, S x -> S y -> x = y \/ eps < Rabs (x - y)).
  { intros x y (c & x' & Hc & Hx & ->) (c' & y' & Hc' & Hy & ->). apply HA; auto. }
  assert (HO : Forall (okinfo eps p k0 S) cs).
  { apply Forall_forall. intros c Hc. split; [apply (proj1 (Forall_forall _ _) HF c Hc)|].
    intros x Hx. exists c, x. auto. }
  inversion HO as [|? ? O0 OR]; subst.
  destruct (info_km eps p _ ltac:(lra) (proj1 O0)) as (km & H & Hsp & EK & LP & _). unfold knots_of, poles_of in EK, LP. cbn [fst snd] in EK, LP.
  destruct (fk_first p km H) as (E1 & E2). pose proof (lo_hi p km H) as Hlh.
  assert (Hab : first_knot k0 < last_knot k0) by (rewrite EK, E1, E2; exact Hlh).
  assert (Hid : forall x, rescale k0 k0 x = x) by (intros x; apply rescale_self, Hab).
  assert (HS : inS S km).
  { intros x Hx. exists (P0, k0, p), x. split; [left; reflexivity|]. unfold knots_of. cbn [fst snd].
    split; [rewrite EK; apply (fk_in p km x H); exact Hx|symmetry; apply Hid]. }
  destruct (phase1 eps He p k0 S Apart Hab rest OR km P0 [] H HS) as (km' & P' & rest' & U & C' & S' & F1 & F2 & L' & V' & FA & M').
  { rewrite EK. symmetry. exact E1. } { rewrite EK. symmetry. exact E2. } { exact LP. }
  assert (HM : forall x, count (fk km') x = max_multiplicity k0 cs x).
  { intros x. rewrite <- (kmok_mlt p) by exact C'. rewrite M'. unfold max_multiplicity, cs. cbn [map]. rewrite list_max_cons.
    unfold knots_of at 3 4. cbn [fst snd]. rewrite (map_ext _ (fun x => x)) by exact Hid. rewrite map_id.
    rewrite (kmok_mlt p) by exact H. rewrite <- EK. reflexivity. }
  destruct (phase2 eps He p k0 S Apart km' rest rest' C' S' F1 F2 FA) as (rest2 & U2 & FB).
  { intros c x Hc. rewrite (kmok_mlt p) by exact C'. rewrite HM. unfold max_multiplicity. apply list_max_ge.
    apply (in_map (fun c => count (map (rescale k0 (knots_of c)) (knots_of c)) x)). right. exact Hc. }
  exists (fk km'), ((P', fk km', p) :: rest2). split.
  { unfold unify_knots, cs.
    assert (Ef : front k0 = Ok (first_knot k0)).
    { unfold first_knot. destruct k0; [cbn in Hab; lra|reflexivity]. }
    assert (Eb : back k0 = Ok (last_knot k0)).
    { unfold last_knot. apply back_kn. destruct k0; [unfold first_knot, last_knot in Hab; simpl in Hab; lra|simpl; lia]. }
    assert (Eu : unflat_pairs k0 = Ok km) by (rewrite EK; apply (unflat_fk eps He p km H Hsp)).
    rewrite Ef, Eb, Eu. cbn [bind]. rewrite <- EK in U.
    rewrite U. cbn [bind app]. rewrite U2. reflexivity. }
  split. { unfold cs. cbn [length]. f_equal. clear - FB. induction FB; [reflexivity|]. simpl. lia. }
  split; [apply (kmok_nd p), C'|].
  destruct (fk_first p km' C') as (G1 & G2). split; [congruence|]. split; [congruence|]. split; [exact HM|].
  pose proof (ck_len p _ _ C') as LK. fold (fk km') in LK. fold (npol p km') in LK.
  pose proof (spaced_S eps p S Apart km' C' S') as HSp.
  assert (HCI : forall Pn, length Pn = npol p km' -> clamped_info eps p (Pn, fk km', p)).
  { intros Pn HPn. split; [reflexivity|]. exists (map fst km'), (map snd km'). split; [|split; [reflexivity|exact HPn]].
    destruct C' as (X1 & X2 & _ & X3). split; [exact X1|]. split; [exact X2|]. split; [exact HSp|exact X3]. }
  intros [|i] c Hc.
  - injection Hc as <-. exists P'. split; [reflexivity|]. split; [lia|]. split; [apply HCI; exact L'|]. unfold knots_of, poles_of. cbn [fst snd].
    intros x d Hx. rewrite Hid.
    destruct (eval_same eps He p km P0 km' P' x d H Hsp LP C' (spaced_S eps p S Apart km' C' S') L') as (q & q' & Q1 & Q2 & Q3).
    { rewrite F1, EK. exact E1. } { rewrite F2, EK. exact E2. } { exact V'. } { rewrite EK, E1, E2 in Hx. exact Hx. }
    exists q, q'. split; [rewrite EK; exact Q1|]. split; [exact Q2|]. intros j. rewrite Q3.
    replace (ratio k0 k0) with 1 by (unfold ratio; field; lra). rewrite pow1. ring.
  - cbn [nth_error] in Hc |- *. clear - FB Hc LK HCI. revert i c Hc. induction FB as [|c0 c0' r r' HF FB IH]; intros [|i] c Hc; try discriminate.
    + injection Hc as <-. destruct HF as (Q & -> & LQ & V). exists Q. split; [reflexivity|]. split; [lia|]. split; [apply HCI; exact LQ|exact V].
    + apply (IH i c Hc).
Qed.
End Statements.
