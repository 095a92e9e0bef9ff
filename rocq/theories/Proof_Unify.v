(** Raising the multiplicity of one knot of a clamped curve: the step of unify_knots. *)
From Coq Require Import List Arith ZArith Reals Lia Lra Bool Permutation.
From Verif Require Import Model_Base Spec_Base Spec_Basis Spec_Knots Spec_Eval Spec_Rational Spec_Elevate
  Model_Basis Model_Knots Model_Removal Model_Curve Model_Rational Model_Elevate Model_Unify
  Proof_Base Proof_Blossom Proof_Basis Proof_Ders Proof_Eval Proof_Refine Proof_Insert Proof_Boehm Proof_PropInsert Proof_Unique Proof_Curve
  Proof_PropBasis Proof_Trim Proof_Knots Proof_Builders Proof_Elevate2 Proof_Elevate3 Proof_Elevate4 Proof_PropRemove2.
Import ListNotations.
Local Open Scope R_scope.

Notation count := (count_occ Req_EM_T).

(** The flat knots of (knot, multiplicity) pairs. *)
Definition fk (km : list (R * nat)) : list R := repeat_each (map fst km) (map snd km).
Definition npol (p : nat) (km : list (R * nat)) : nat := poles_for p (map snd km).
Definition kmok (p : nat) (km : list (R * nat)) : Prop := ckn p (map fst km) (map snd km).
Definition lo (km : list (R * nat)) : R := kn (map fst km) 0.
Definition hi (km : list (R * nat)) : R := kn (map fst km) (length km - 1).
(** Two pole lists describe the same curve. *)
Definition same_cv (p : nat) (km : list (R * nat)) (P : list (pt R)) (km' : list (R * nat)) (P' : list (pt R)) : Prop :=
  forall x d c, lo km <= x <= hi km -> (d <= p)%nat ->
    CV (fk km') (npol p km') p d (pole P' c) x = CV (fk km) (npol p km) p d (pole P c) x.
(** Multiplicity of x in km (the largest one recorded). *)
Definition mlt (km : list (R * nat)) (x : R) : nat :=
  list_max (map (fun um => if Req_EM_T x (fst um) then snd um else 0%nat) km).

Lemma fk_cons u m km : fk ((u, m) :: km) = repeat u m ++ fk km.
Proof. reflexivity. Qed.
Lemma fk_app km km' : fk (km ++ km') = fk km ++ fk km'.
Proof. unfold fk. rewrite !map_app. apply repeat_each_app. rewrite !map_length. reflexivity. Qed.
Lemma fk_count0 km x : ~ In x (map fst km) -> count (fk km) x = 0%nat.
Proof. intros H. apply count_occ_not_In. intros Hx. apply H. unfold fk in Hx. apply repeat_each_In in Hx. exact Hx. Qed.
Lemma list_max_0 (l : list nat) : (forall y, In y l -> y = 0%nat) -> list_max l = 0%nat.
Proof.
  induction l as [|y l IH]; intros H; [reflexivity|]. change (list_max (y :: l)) with (max y (list_max l)).
  rewrite IH by (intros; apply H; right; auto). rewrite (H y) by (left; auto). reflexivity.
Qed.
Lemma mlt_cons u m km x : mlt ((u, m) :: km) x = max (if Req_EM_T x u then m else 0) (mlt km x).
Proof. reflexivity. Qed.
Lemma mlt_0 km x : ~ In x (map fst km) -> mlt km x = 0%nat.
Proof.
  intros H. apply list_max_0. intros y Hy. apply in_map_iff in Hy as (um & <- & Hum).
  destruct (Req_EM_T x (fst um)) as [E|]; [|reflexivity]. exfalso. apply H. rewrite E. apply in_map, Hum.
Qed.
Lemma si_nodup U : strictly_increasing U -> NoDup U.
Proof.
  intros H. apply (NoDup_nth U 0). intros i j Hi Hj E. destruct (Nat.lt_total i j) as [G|[G|G]]; auto; exfalso.
  - specialize (H i j G Hj). unfold kn in H. lra.
  - specialize (H j i G Hi). unfold kn in H. lra.
Qed.
Lemma mlt_count km x : NoDup (map fst km) -> mlt km x = count (fk km) x.
Proof.
  induction km as [|[u m] km IH]; intros H; [reflexivity|]. rewrite mlt_cons, fk_cons, count_occ_app, count_repeat.
  simpl in H. inversion H as [|? ? N ND]; subst. destruct (Req_EM_T x u) as [->|].
  - rewrite mlt_0, fk_count0 by exact N. lia.
  - rewrite IH by exact ND. lia.
Qed.
Lemma combine_km (km : list (R * nat)) : combine (map fst km) (map snd km) = km.
Proof. induction km as [|[u m] km IH]; [reflexivity|]. simpl. rewrite IH. reflexivity. Qed.

Lemma kmok_si p km : kmok p km -> strictly_increasing (map fst km).
Proof. intros (_ & _ & H & _). exact H. Qed.
Lemma kmok_mlt p km x : kmok p km -> mlt km x = count (fk km) x.
Proof. intros H. apply mlt_count, si_nodup, (kmok_si p), H. Qed.
Lemma kmok_nd p km : kmok p km -> nondecreasing (fk km).
Proof. intros H. apply repeat_each_nondec, (kmok_si p), H. Qed.
Lemma kmok_len p km : kmok p km -> (2 <= length km)%nat.
Proof. intros (_ & H & _). rewrite map_length in H. exact H. Qed.
Lemma kmok_in p km u : kmok p km -> In u (map fst km) -> lo km <= u <= hi km.
Proof.
  intros H Hu. apply (In_nth _ _ 0) in Hu as (i & Hi & <-). unfold lo, hi.
  pose proof (ck_kn_mono p _ _ H 0 i ltac:(lia) Hi). rewrite map_length in Hi.
  pose proof (ck_kn_mono p _ _ H i (length km - 1) ltac:(lia) ltac:(rewrite map_length; lia)).
  unfold kn in *. lra.
Qed.
Lemma kmok_pair p km u m : kmok p km -> In (u, m) km ->
  ((u = lo km \/ u = hi km) /\ m = (p + 1)%nat) \/ (lo km < u < hi km /\ (1 <= m <= p)%nat).
Proof.
  intros H Hu. apply (In_nth _ _ (0, 0%nat)) in Hu as (i & Hi & E). destruct H as (A & B & C & D & F & G).
  rewrite !map_length in *.
  assert (E1 : kn (map fst km) i = u) by (unfold kn; change 0 with (fst (0, 0%nat)); rewrite map_nth, E; reflexivity).
  assert (E2 : nth i (map snd km) 0%nat = m).
  { change 0%nat with (snd (0, 0%nat)) at 1. rewrite map_nth, E. reflexivity. }
  destruct (Nat.eq_dec i 0) as [->|N0]; [left; split; [left; unfold lo; auto|rewrite <- E2; auto]|].
  destruct (Nat.eq_dec i (length km - 1)) as [->|N1]; [left; split; [right; unfold hi; auto|rewrite <- E2; auto]|].
  right. rewrite <- E1, <- E2. unfold lo, hi. split; [split; apply C; rewrite ?map_length; lia|apply G; lia].
Qed.

Section AtR.
Variable eps : R.
Local Hint Extern 0 (Num R) => exact (NumR eps) : typeclass_instances.

Lemma raise p km u r (P : list (pt R)) : kmok p km -> length P = npol p km -> lo km < u < hi km ->
  (1 <= r)%nat -> (count (fk km) u + r <= p)%nat ->
  exists idx k' P', insert_knots u p r (fk km) P = Ok (idx, k', P') /\ nondecreasing k' /\
    length k' = (length (fk km) + r)%nat /\ length P' = (length P + r)%nat /\
    (forall x, count k' x = (count (fk km) x + if Req_EM_T x u then r else 0)%nat) /\
    (exists a b, fk km = a ++ b /\ k' = a ++ repeat u r ++ b) /\
    forall km', kmok p km' -> k' = fk km' -> same_cv p km P km' P'.
Proof.
  intros HC HP Hu Hr Hc. pose proof (ck_knots_ok p _ _ HC) as OK. fold (fk km) in OK. pose proof OK as (Lk & Hpn & Hnd & _).
  assert (Emul : multiplicity u (fk km) = count (fk km) u) by (apply mult_count; auto).
  assert (Dm : kn (fk km) p = lo km /\ kn (fk km) (npol p km) = hi km).
  { unfold fk, npol, lo, hi. rewrite (ck_first p _ _ HC), (ck_last p _ _ HC), map_length. auto. }
  destruct Dm as (D1 & D2).
  destruct (insert_knots_same eps (fk km) u (npol p km) p r P OK HP) as
    (idx & k' & P' & r' & Er & Ei & OK' & LP' & Hins & _ & _ & _ & Hsp).
  { rewrite D1, D2. lra. } { rewrite Emul. lia. } { exact Hr. }
  rewrite Emul in Er. rewrite Nat.min_l in Er by lia. subst r'.
  exists idx, k', P'. split; [exact Ei|]. split; [apply OK'|].
  split; [destruct OK' as (L' & _); rewrite L', Lk; unfold npol; lia|]. split; [lia|].
  split; [intros x; rewrite (knot_inserted_count _ _ _ _ x Hins); destruct (Req_EM_T u x), (Req_EM_T x u); try congruence; lia|].
  split; [exact Hins|].
  intros km' HC' -> x d c Hx Hd.
  assert (En : (npol p km + r)%nat = npol p km').
  { pose proof (ck_knots_ok p _ _ HC') as (Lk' & _). fold (fk km') in Lk'. destruct OK' as (L' & _). unfold npol in *. lia. }
  rewrite En in *.
  destruct (Hsp x) as (l & l' & A1 & A2 & A3 & A4 & A5 & A6 & A7).
  { rewrite D1, D2. exact Hx. }
  apply (CV_transfer _ _ _ _ p l l'); auto.
Qed.

Lemma same_cv_refl p km P : same_cv p km P km P.
Proof. intros x d c _ _. reflexivity. Qed.
Lemma same_cv_trans p km P km1 P1 km2 P2 : lo km1 = lo km -> hi km1 = hi km ->
  same_cv p km P km1 P1 -> same_cv p km1 P1 km2 P2 -> same_cv p km P km2 P2.
Proof. intros E1 E2 H1 H2 x d c Hx Hd. rewrite H2 by (rewrite ?E1, ?E2; auto). apply H1; auto. Qed.
End AtR.
