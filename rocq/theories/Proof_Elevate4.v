(** Bezier decomposition and degree elevation of curves. *)
From Coq Require Import List Arith ZArith Reals Lia Lra Bool Permutation.
From Verif Require Import Model_Base Spec_Base Spec_Basis Spec_Knots Spec_Eval Spec_Rational Spec_Elevate
  Model_Basis Model_Knots Model_Removal Model_Curve Model_Rational Model_Elevate
  Proof_Base Proof_Blossom Proof_Basis Proof_Ders Proof_Eval Proof_Refine Proof_Insert Proof_Boehm Proof_PropInsert Proof_Unique Proof_Continuity Proof_Curve
  Proof_PropBasis Proof_Trim Proof_Knots Proof_Builders Proof_Remove Proof_Remove2 Proof_PropRemove2 Proof_Wrap Proof_Wire Proof_Interp Proof_Interp4 Proof_Surface Proof_SurfEdit
  Proof_Elevate Proof_Elevate2 Proof_Elevate3.
Import ListNotations.
Local Open Scope R_scope.

(** On a closed span the curve is the polynomial of that span. *)
Lemma CV_closed p U M P s x : ckn p U M -> (s < length U - 1)%nat -> kn U s <= x <= kn U (S s) ->
  CV (repeat_each U M) (poles_for p M) p 0 P x = PS (repeat_each U M) p (lst M s) 0 P x.
Proof.
  intros HC Hs Hx. pose proof (ck_knots_ok p U M HC) as OK. destruct (ck_lst p U M HC s Hs) as (A1 & A2 & A3 & A4).
  destruct (Rlt_le_dec x (kn U (S s))) as [L|L].
  { apply CV_at; auto. apply ck_span_at; auto; lra. }
  assert (Ex : x = kn U (S s)) by lra.
  destruct (Nat.eq_dec (S s) (length U - 1)) as [E|N].
  - apply CV_at; auto. right. rewrite (ck_last p U M HC), Ex, E. split; [reflexivity|].
    rewrite (ck_n p U M HC), <- E. unfold lst. pose proof (pre_mono M 1 (S s) ltac:(lia)). pose proof (ck_pre_1 p U M HC). lia.
  - destruct (ck_between p U M HC s ltac:(lia)) as (C1 & C2 & C3).
    destruct (ck_lst p U M HC (S s) ltac:(lia)) as (B1 & B2 & B3 & B4).
    rewrite (CV_at _ _ p 0 P x (lst M (S s))); auto.
    2:{ apply ck_span_at; auto; [lia|]. rewrite <- B2, <- B3. split; [rewrite B2; lra|rewrite Ex, <- B2; exact B4]. }
    pose proof HC as (_ & _ & _ & _ & _ & Hm). specialize (Hm (S s) ltac:(lia)).
    apply (PS_continuous_d _ (poles_for p M)); auto; try lia. intros y Hy. rewrite Ex. apply C3. lia.
Qed.

(** ** Full multiplicities: the poles are those of the Bezier pieces *)
Definition full (q : nat) (U : list R) (M : list nat) : Prop :=
  ckn q U M /\ forall i, (0 < i < length U - 1)%nat -> nth i M 0%nat = q.

Lemma full_pre q U M : full q U M -> forall s, (s < length U - 1)%nat -> pre M (S s) = (q * S s + 1)%nat.
Proof.
  intros (HC & HF). induction s as [|s IH]; intros Hs; [rewrite (ck_pre_1 q U M HC); lia|].
  rewrite pre_S, IH, HF by lia. lia.
Qed.
Lemma full_lst q U M s : full q U M -> (s < length U - 1)%nat -> lst M s = (q * S s)%nat.
Proof. intros HF Hs. unfold lst. rewrite (full_pre q U M HF s Hs). lia. Qed.
Lemma full_n q U M : full q U M -> poles_for q M = (q * (length U - 1) + 1)%nat.
Proof.
  intros HF. rewrite (ck_n q U M (proj1 HF)). pose proof HF as ((_ & L2 & _) & _).
  replace (length U - 1)%nat with (S (length U - 2)) at 1 by lia. rewrite (full_pre q U M HF) by lia. f_equal. f_equal. lia.
Qed.

Lemma full_piece q U M P s x : full q U M -> (s < length U - 1)%nat ->
  PS (repeat_each U M) q (lst M s) 0 P x =
  bernstein q (fun j => P (q * s + j)%nat) ((x - kn U s) / (kn U (S s) - kn U s)).
Proof.
  intros HF Hs. pose proof (proj1 HF) as HC. destruct (ck_lst q U M HC s Hs) as (A1 & A2 & A3 & A4).
  rewrite (bezier_piece _ (poles_for q M) q (lst M s) P x (kn U s) (kn U (S s))); auto.
  - replace (lst M s - q)%nat with (q * s)%nat by (rewrite (full_lst q U M s HF Hs); lia). reflexivity.
  - apply ck_knots_ok; exact HC.
  - rewrite <- A2, <- A3. exact A4.
  - intros i Hi. apply (ck_at q U M HC); [lia|]. rewrite (full_lst q U M s HF Hs) in Hi.
    rewrite (full_pre q U M HF s Hs). destruct s as [|s]; [rewrite pre_0; lia|]. rewrite (full_pre q U M HF s) by lia. lia.
  - intros i Hi. apply (ck_at q U M HC); [lia|]. rewrite (full_lst q U M s HF Hs) in Hi. rewrite (pre_S M (S s)), (full_pre q U M HF s Hs).
    enough (q <= nth (S s) M 0)%nat by lia.
    destruct (Nat.eq_dec (S s) (length U - 1)) as [E|N].
    + rewrite E. destruct HC as (_ & _ & _ & _ & E1 & _). lia.
    + rewrite (proj2 HF) by lia. lia.
Qed.

Lemma full_same p t U M1 M2 P Q x : full p U M1 -> full (p + t) U M2 ->
  (forall s i, (s < length U - 1)%nat -> (i <= p + t)%nat ->
     Q ((p + t) * s + i)%nat = elevated p t (fun j => P (p * s + j)%nat) i) ->
  kn U 0 <= x <= kn U (length U - 1) ->
  CV (repeat_each U M2) (poles_for (p + t) M2) (p + t) 0 Q x = CV (repeat_each U M1) (poles_for p M1) p 0 P x.
Proof.
  intros F1 F2 HQ Hx. destruct (ck_in p U M1 (proj1 F1) x Hx) as (s & Hs & Hxs & _).
  rewrite (CV_closed p U M1 P s x (proj1 F1) Hs Hxs), (CV_closed _ U M2 Q s x (proj1 F2) Hs Hxs).
  rewrite (full_piece _ _ _ _ _ _ F1 Hs), (full_piece _ _ _ _ _ _ F2 Hs). rewrite <- (elevate_same p t).
  unfold bernstein. apply sumn_ext. intros j Hj. rewrite HQ by lia. reflexivity.
Qed.

Section AtR.
Variable eps : R.
Local Hint Extern 0 (Num R) => exact (NumR eps) : typeclass_instances.

(** ** Insertion up to full multiplicity *)
Lemma updn_len (M : list nat) s v : length (upd M s v) = length M.
Proof. apply upd_length. Qed.

Lemma ckn_upd p U M s v : ckn p U M -> (0 < s < length U - 1)%nat -> (1 <= v <= p)%nat -> ckn p U (upd M s v).
Proof.
  intros (A & B & C & D & E & F) Hs Hv. split; [rewrite updn_len; exact A|]. split; [exact B|]. split; [exact C|].
  split; [|split].
  - rewrite nth_updn. destruct (Nat.eqb_spec 0 s); [lia|]. exact D.
  - rewrite nth_updn. destruct (Nat.eqb_spec (length U - 1) s); [lia|]. exact E.
  - intros i Hi. rewrite nth_updn. destruct (_ && _); [exact Hv|apply F, Hi].
Qed.
Lemma upd_id (M : list nat) s v : nth s M 0%nat = v -> (s < length M)%nat -> upd M s v = M.
Proof.
  intros E Hs. apply (nth_ext _ _ 0%nat 0%nat); [apply updn_len|]. intros i _. rewrite nth_updn.
  destruct (Nat.eqb_spec i s) as [->|]; cbn [andb]; [|reflexivity]. destruct (_ <? _)%nat; congruence.
Qed.

Lemma insert_step p U M s (P : list (pt R)) : ckn p U M -> (0 < s < length U - 1)%nat -> length P = poles_for p M ->
  exists idx P', insert_knots (kn U s) p (p - nth s M 0%nat) (repeat_each U M) P = Ok (idx, repeat_each U (upd M s p), P') /\
    length P' = poles_for p (upd M s p) /\
    forall x d c, kn U 0 <= x <= kn U (length U - 1) -> (d <= p)%nat ->
      CV (repeat_each U (upd M s p)) (poles_for p (upd M s p)) p d (pole P' c) x = CV (repeat_each U M) (poles_for p M) p d (pole P c) x.
Proof.
  intros HC Hs HP. pose proof HC as (L & L2 & Hinc & _ & _ & Hm). specialize (Hm s Hs).
  pose proof (ck_knots_ok p U M HC) as OK. pose proof OK as (Lk & Hpn & Hnd & _).
  assert (Ecnt : count_occ Req_EM_T (repeat_each U M) (kn U s) = nth s M 0%nat) by (apply re_count_at; auto; lia).
  destruct (Nat.eq_dec (nth s M 0%nat) p) as [E|N].
  - rewrite (upd_id M s p E) by lia. destruct (insert_saturated eps (repeat_each U M) p (kn U s) (p - nth s M 0%nat) P Hnd) as (idx & Ei).
    { intros ->. simpl in HP. lia. } { rewrite Ecnt. lia. }
    exists idx, P. split; [exact Ei|]. split; [exact HP|]. reflexivity.
  - assert (Emul : multiplicity (kn U s) (repeat_each U M) = nth s M 0%nat) by (rewrite mult_count; auto).
    destruct (insert_knots_same eps (repeat_each U M) (kn U s) (poles_for p M) p (p - nth s M 0%nat) P OK HP) as
      (idx & k' & P' & r' & Er & Ei & OK' & LP' & Hins & _ & _ & _ & Hsp).
    { rewrite (ck_first p U M HC), (ck_last p U M HC). split; [apply (ck_kn_mono p U M HC); lia|apply Hinc; lia]. }
    { rewrite Emul. lia. } { lia. }
    rewrite Emul in Er. rewrite Nat.min_id in Er. subst r'.
    assert (Ek : k' = repeat_each U (upd M s p)).
    { replace p with (nth s M 0%nat + (p - nth s M 0%nat))%nat by lia. apply re_insert; auto; [lia|]. apply OK'. }
    subst k'.
    assert (En : (poles_for p M + (p - nth s M 0%nat))%nat = poles_for p (upd M s p)).
    { destruct OK' as (Lk' & _). rewrite re_length in Lk' by (rewrite updn_len; exact L). unfold poles_for at 2. lia. }
    rewrite En in *. exists idx, P'. split; [exact Ei|]. split; [exact LP'|].
    intros x d c Hx Hd. destruct (Hsp x) as (l & l' & A1 & A2 & A3 & A4 & A5 & A6 & A7).
    { rewrite (ck_first p U M HC), (ck_last p U M HC). exact Hx. }
    apply (CV_transfer _ _ _ _ p l l'); auto.
Qed.

Lemma insert_all p U M (P : list (pt R)) : ckn p U M -> length P = poles_for p M ->
  exists M1 P1, for_ 1 (length U - 2) (fun i (st : list R * list (pt R)) =>
      let '(k, P) := st in
      let* u := get U i in
      let* m := @get nat M i in
      let* (_, k, P) := insert_knots u p (if p <? m then p else p - m)%nat k P in
      Ok (k, P)) (repeat_each U M, P) = Ok (repeat_each U M1, P1) /\
    full p U M1 /\ length P1 = poles_for p M1 /\
    forall x d c, kn U 0 <= x <= kn U (length U - 1) -> (d <= p)%nat ->
      CV (repeat_each U M1) (poles_for p M1) p d (pole P1 c) x = CV (repeat_each U M) (poles_for p M) p d (pole P c) x.
Proof.
  intros HC HP. pose proof HC as (L & L2 & _ & _ & _ & Hm).
  match goal with |- exists M1 P1, for_ 1 ?n ?b ?s = _ /\ _ =>
    destruct (for_inv (fun i st => exists M1 P1, st = (repeat_each U M1, P1) /\ ckn p U M1 /\ length P1 = poles_for p M1 /\
      (forall j, (0 < j < length U - 1)%nat -> nth j M1 0%nat = if (j <? i)%nat then p else nth j M 0%nat) /\
      forall x d c, kn U 0 <= x <= kn U (length U - 1) -> (d <= p)%nat ->
        CV (repeat_each U M1) (poles_for p M1) p d (pole P1 c) x = CV (repeat_each U M) (poles_for p M) p d (pole P c) x) b 1%nat n s)
      as (st & E & M1 & P1 & -> & C1 & LP1 & HM1 & HS) end.
  - exists M, P. split; [reflexivity|]. split; [exact HC|]. split; [exact HP|]. split; [|reflexivity].
    intros j Hj. destruct (Nat.ltb_spec j 1); [lia|reflexivity].
  - intros i st Hi (M1 & P1 & -> & C1 & LP1 & HM1 & HS). cbn beta iota.
    rewrite (get_kn U i) by lia. cbn [bind]. rewrite (get_nth M i 0%nat) by lia. cbn [bind].
    pose proof (Hm i ltac:(lia)) as Hmi. destruct (Nat.ltb_spec p (nth i M 0%nat)); [lia|].
    destruct (insert_step p U M1 i P1 C1 ltac:(lia) LP1) as (idx & P2 & E2 & LP2 & HS2).
    rewrite (HM1 i) in E2 by lia. rewrite Nat.ltb_irrefl in E2. rewrite E2. cbn [bind].
    eexists. split; [reflexivity|]. exists (upd M1 i p), P2. split; [reflexivity|].
    split; [apply ckn_upd; auto; lia|]. split; [exact LP2|]. split.
    + intros j Hj. rewrite nth_updn. destruct C1 as (LM1 & _).
      destruct (Nat.eqb_spec j i) as [->|Nj]; cbn [andb].
      * destruct (Nat.ltb_spec i (length M1)); [|lia]. destruct (Nat.ltb_spec i (S i)); [reflexivity|lia].
      * rewrite HM1 by lia. destruct (Nat.ltb_spec j i), (Nat.ltb_spec j (S i)); try reflexivity; lia.
    + intros x d c Hx Hd. rewrite HS2 by auto. apply HS; auto.
  - exists M1, P1. split; [exact E|]. split.
    + split; [exact C1|]. intros i Hi. rewrite HM1 by lia. destruct (Nat.ltb_spec i (1 + (length U - 2))); [reflexivity|lia].
    + split; [exact LP1|exact HS].
Qed.

(** ** Cutting the poles into pieces *)
Definition seg_of (p : nat) (U : list R) (P : list (pt R)) (s : nat) : list (pt R) * (R * R) :=
  (firstn (p + 1) (skipn (p * s) P), (kn U s, kn U (S s))).

Lemma bezier_loop_ok p (U : list R) (P : list (pt R)) m : length U = S m -> length P = (p * m + 1)%nat -> (p = 0 -> m = 1)%nat ->
  forall fuel s acc, (s < m)%nat -> (m - s <= fuel)%nat ->
  bezier_loop fuel p U P (p * s) s acc = Ok (acc ++ map (seg_of p U P) (seq s (m - s))).
Proof.
  intros LU LP H0. induction fuel as [|f IH]; intros s acc Hs Hf; [lia|]. cbn [bezier_loop].
  assert (p * s + p <= p * m)%nat by (replace (p * s + p)%nat with (p * S s)%nat by lia; apply Nat.mul_le_mono_l; lia).
  destruct (Nat.ltb_spec (length P) (p * s + (p + 1))); [lia|].
  rewrite (nth_error_nth' U 0) by lia. rewrite (nth_error_nth' U 0) by lia.
  fold (kn U s). fold (kn U (s + 1)). replace (s + 1)%nat with (S s) by lia. fold (seg_of p U P s).
  destruct (Nat.eqb_spec (p * s + (p + 1)) (length P)) as [E|N].
  - assert (S s = m). { destruct (Nat.eq_dec p 0) as [E0|]; [specialize (H0 E0); lia|]. apply (Nat.mul_cancel_l _ _ p); [assumption|lia]. }
    replace (m - s)%nat with 1%nat by lia. reflexivity.
  - assert (S s <> m) by (intros Em; subst m; lia).
    replace (p * s + (p + 1) - 1)%nat with (p * S s)%nat by lia. rewrite IH by lia.
    replace (m - s)%nat with (S (m - S s)) by lia. cbn [seq map]. rewrite <- app_assoc. reflexivity.
Qed.

Lemma seg_pole p U P m s c j : length P = (p * m + 1)%nat -> (s < m)%nat -> (j <= p)%nat ->
  pole (fst (seg_of p U P s)) c j = pole P c (p * s + j).
Proof.
  intros LP Hs Hj. unfold pole, seg_of. cbn [fst]. rewrite nth_firstn_lt by lia. rewrite nth_skipn_off. reflexivity.
Qed.
Lemma seg_len p U P m s : length P = (p * m + 1)%nat -> (s < m)%nat -> length (fst (seg_of p U P s)) = (p + 1)%nat.
Proof.
  intros LP Hs. unfold seg_of. cbn [fst]. rewrite firstn_length, skipn_length.
  assert (p * s + p <= p * m)%nat by (replace (p * s + p)%nat with (p * S s)%nat by lia; apply Nat.mul_le_mono_l; lia). lia.
Qed.

Lemma km_ok p U M : 0 < eps -> clamped_knots eps p U M -> knots_and_mults (repeat_each U M) = Ok (U, M).
Proof.
  intros He HK. pose proof (ck_ckn eps p U M ltac:(lra) HK) as HC. destruct HK as (L & L2 & Sp & _).
  apply (round_trip eps U M He); auto.
  - intros ->. simpl in L2. lia.
  - intros x Hx. apply (In_nth M x 0%nat) in Hx as (i & Hi & <-). apply (ck_mult p U M HC). lia.
Qed.

Lemma bezier_segments_ok p U M (P : list (pt R)) : 0 < eps -> clamped_knots eps p U M -> length P = poles_for p M ->
  exists M1 P1, bezier_segments (repeat_each U M) P p = Ok (map (seg_of p U P1) (seq 0 (length U - 1))) /\
    full p U M1 /\ length P1 = poles_for p M1 /\
    forall x d c, kn U 0 <= x <= kn U (length U - 1) -> (d <= p)%nat ->
      CV (repeat_each U M1) (poles_for p M1) p d (pole P1 c) x = CV (repeat_each U M) (poles_for p M) p d (pole P c) x.
Proof.
  intros He HK HP. pose proof (ck_ckn eps p U M ltac:(lra) HK) as HC.
  destruct (insert_all p U M P HC HP) as (M1 & P1 & E & F1 & LP1 & HS).
  exists M1, P1. split; [|auto]. unfold bezier_segments. rewrite (km_ok p U M He HK). cbn [bind]. rewrite E. cbn [bind].
  pose proof (proj1 F1) as C1.
  assert (HK1 : clamped_knots eps p U M1).
  { destruct C1 as (A & B & _ & R). destruct HK as (_ & _ & Sp & _). split; [exact A|]. split; [exact B|]. split; [exact Sp|exact R]. }
  rewrite (km_ok p U M1 He HK1). cbn [bind]. rewrite (full_n p U M1 F1) in LP1.
  destruct HC as (_ & L2 & _ & _ & _ & Hm).
  assert (X : bezier_loop (length U) p U P1 0 0 [] = Ok (map (seg_of p U P1) (seq 0 (length U - 1)))).
  { pose proof (bezier_loop_ok p U P1 (length U - 1) ltac:(lia) LP1) as X.
    specialize (X ltac:(intros E0; destruct (Nat.eq_dec (length U - 1) 1); [auto|specialize (Hm 1%nat ltac:(lia)); lia]) (length U) 0%nat [] ltac:(lia) ltac:(lia)).
    rewrite Nat.mul_0_r, Nat.sub_0_r in X. exact X. }
  destruct P1 as [|a P1]; [cbn [length] in LP1; rewrite Nat.add_1_r in LP1; discriminate|exact X].
Qed.

(** ** Joining the elevated pieces *)
Lemma append_tail (l : list (pt R)) n acc : length l = (n + 1)%nat ->
  for_ 1 n (fun i acc => let* q := get l i in Ok (acc ++ [q])) acc = Ok (acc ++ tl l).
Proof.
  intros HL. destruct (for_inv (fun i acc' => acc' = acc ++ firstn (i - 1) (tl l))
    (fun i acc => let* q := get l i in Ok (acc ++ [q])) 1%nat n acc) as (r & E & ->).
  - rewrite app_nil_r. reflexivity.
  - intros i s Hi ->. rewrite get_pole by lia. cbn [bind]. eexists. split; [reflexivity|].
    rewrite <- app_assoc. f_equal. destruct l as [|a l]; [simpl in HL; lia|]. cbn [tl].
    destruct i as [|i]; [lia|]. cbn [nth]. replace (S i - 1)%nat with i by lia. replace (S (S i) - 1)%nat with (S i) by lia.
    simpl in HL. clear -HL Hi. assert (H : (i < length l)%nat) by lia. clear Hi HL. revert i H.
    induction l as [|b l IH]; intros i H; [simpl in H; lia|]. destruct i as [|i]; [reflexivity|]. cbn [firstn app nth]. f_equal. apply IH. simpl in H. lia.
  - rewrite E. f_equal. f_equal. destruct l as [|a l]; [simpl in HL; lia|]. cbn [tl]. simpl in HL. apply firstn_all2. lia.
Qed.

Definition full_mults (q m : nat) : list nat := (q + 1)%nat :: repeat q (m - 1) ++ [(q + 1)%nat].
Lemma full_mults_full q U : (2 <= length U)%nat -> strictly_increasing U -> (q = 0 -> length U = 2)%nat -> full q U (full_mults q (length U - 1)).
Proof.
  intros L2 Hinc H0. unfold full_mults.
  assert (X : forall i, (0 < i < length U - 1)%nat -> nth i ((q + 1)%nat :: repeat q (length U - 1 - 1) ++ [(q + 1)%nat]) 0%nat = q).
  { intros i Hi. destruct i as [|i]; [lia|]. cbn [nth]. rewrite app_nth1 by (rewrite repeat_length; lia).
    rewrite (nth_indep _ 0%nat q) by (rewrite repeat_length; lia). apply nth_repeat. }
  split; [|exact X]. split; [cbn [length]; rewrite app_length, repeat_length; cbn [length]; lia|]. split; [exact L2|]. split; [exact Hinc|].
  split; [reflexivity|]. split.
  - replace (length U - 1)%nat with (S (length U - 1 - 1)) at 1 by lia. cbn [nth]. rewrite app_nth2 by (rewrite repeat_length; lia).
    rewrite repeat_length, Nat.sub_diag. reflexivity.
  - intros i Hi. rewrite X by lia. destruct (Nat.eq_dec q 0); [specialize (H0 ltac:(assumption)); lia|lia].
Qed.

Lemma seq_snoc a n : seq a (S n) = seq a n ++ [(a + n)%nat].
Proof. rewrite <- Nat.add_1_r, seq_app. reflexivity. Qed.
Lemma kn_list U : map (kn U) (seq 0 (length U)) = U.
Proof.
  apply (nth_ext _ _ 0 0); [rewrite map_length, seq_length; reflexivity|]. intros i Hi. rewrite map_length, seq_length in Hi.
  rewrite (nth_map_seq (kn U) (length U) i 0 Hi). reflexivity.
Qed.

Lemma join_ok q U (segs : list (list (pt R) * (R * R))) (E : nat -> nat -> nat -> R) : (2 <= length U)%nat ->
  length segs = (length U - 1)%nat ->
  (forall s, (s < length U - 1)%nat -> exists l, nth_error segs s = Some (l, (kn U s, kn U (S s))) /\ length l = (q + 1)%nat /\
     forall c j, (j <= q)%nat -> pole l c j = E s c j) ->
  (forall s c, (S s < length U - 1)%nat -> E (S s) c 0%nat = E s c q) ->
  exists s0 Q, front segs = Ok s0 /\
  for_ 1 (length segs - 1) (fun s st =>
      let '(poles_new, M_new, U_new) := st in
      let* seg := get segs s in
      let* poles_new := for_ 1 q (fun i acc => let* q := get (fst seg) i in Ok (acc ++ [q])) poles_new in
      Ok (poles_new, M_new ++ [q], U_new ++ [snd (snd seg)]))
    (fst s0, [(q + 1)%nat], [fst (snd s0); snd (snd s0)]) = Ok (Q, (q + 1)%nat :: repeat q (length U - 2), U) /\
  length Q = (q * (length U - 1) + 1)%nat /\
  forall s c j, (s < length U - 1)%nat -> (j <= q)%nat -> pole Q c (q * s + j) = E s c j.
Proof.
  intros L2 LS HS HE. set (m := (length U - 1)%nat) in *.
  destruct (HS 0%nat ltac:(lia)) as (l0 & E0 & L0 & V0).
  exists (l0, (kn U 0, kn U 1)).
  assert (EF : front segs = Ok (l0, (kn U 0, kn U 1))). { destruct segs; [discriminate|]. cbn in E0. injection E0 as ->. reflexivity. }
  cbn [fst snd].
  match goal with |- exists Q, _ /\ for_ 1 ?n ?b ?s = _ /\ _ =>
    destruct (for_inv (fun i st => exists Q, st = (Q, (q + 1)%nat :: repeat q (i - 1), map (kn U) (seq 0 (S i))) /\
       length Q = (q * i + 1)%nat /\ forall s' c j, (s' < i)%nat -> (j <= q)%nat -> pole Q c (q * s' + j) = E s' c j) b 1%nat n s)
      as (st & EL & Q & -> & LQ & VQ) end.
  - exists l0. split; [reflexivity|]. split; [lia|]. intros s c j Hs Hj. replace s with 0%nat by lia. rewrite Nat.mul_0_r. apply V0, Hj.
  - intros i st Hi (Q & -> & LQ & VQ). cbn beta iota. destruct (HS i ltac:(lia)) as (l & El & Ll & Vl).
    unfold get at 1; rewrite El. cbn [bind fst snd].
    rewrite (append_tail l q Q Ll). cbn [bind]. eexists. split; [reflexivity|].
    exists (Q ++ tl l). split; [|split].
    + f_equal. f_equal.
      * cbn [app]. f_equal. replace (S i - 1)%nat with (i - 1 + 1)%nat by lia. rewrite repeat_app. reflexivity.
      * rewrite (seq_snoc 0 (S i)), map_app. reflexivity.
    + rewrite app_length. destruct l; [simpl in Ll; lia|]. cbn [tl]. simpl in Ll. lia.
    + intros s c j Hs Hj.
      assert (Old : forall s j, (s < i)%nat -> (j <= q)%nat -> pole (Q ++ tl l) c (q * s + j) = E s c j).
      { intros s' j' Hs' Hj'. rewrite <- (VQ s' c j' Hs' Hj'). unfold pole. rewrite app_nth1; [reflexivity|].
        rewrite LQ. pose proof (Nat.mul_le_mono_l (S s') i q ltac:(lia)). lia. }
      destruct (Nat.eq_dec s i) as [->|]; [|apply Old; lia].
      destruct j as [|j].
      * destruct i as [|i]; [lia|]. rewrite HE by lia. rewrite <- (Old i q) by lia. f_equal. lia.
      * unfold pole. rewrite app_nth2 by lia. replace (q * i + S j - length Q)%nat with j by lia.
        rewrite <- (Vl c (S j)) by lia. unfold pole. destruct l; [simpl in Ll; lia|]. reflexivity.
  - exists Q. split; [exact EF|]. split.
    + rewrite EL. do 2 f_equal.
      * f_equal. f_equal. f_equal. lia.
      * replace (S (1 + (length segs - 1))) with (length U) by lia. apply kn_list.
    + replace (1 + (length segs - 1))%nat with m in * by lia. split; [exact LQ|exact VQ].
Qed.

(** ** Removing the extra knots *)
Lemma remove_step p U M P0 q M1 s (P : list (pt R)) : 0 <= eps -> ckn p U M -> (p <= q)%nat -> ckn q U M1 -> (0 < s < length U - 1)%nat ->
  length P = poles_for q M1 ->
  (forall i, (0 < i < length U - 1)%nat -> (nth i M 0 + (q - p) <= nth i M1 0)%nat) ->
  (forall x c, kn U 0 <= x <= kn U (length U - 1) ->
     CV (repeat_each U M1) (poles_for q M1) q 0 (pole P c) x = CV (repeat_each U M) (poles_for p M) p 0 (P0 c) x) ->
  let M2 := upd M1 s (nth s M 0 + (q - p))%nat in
  exists P', remove_knot (kn U s) (nth s M1 0%nat - (nth s M 0%nat + (q - p))) (repeat_each U M1) P q = Ok (repeat_each U M2, P') /\
    length P' = poles_for q M2 /\
    forall x c, kn U 0 <= x <= kn U (length U - 1) ->
     CV (repeat_each U M2) (poles_for q M2) q 0 (pole P' c) x = CV (repeat_each U M) (poles_for p M) p 0 (P0 c) x.
Proof.
  intros He HC Hpq HC1 Hs HP HM HE M2. pose proof HC1 as (L & L2 & Hinc & _ & _ & Hm).
  pose proof HC as (_ & _ & _ & _ & _ & HmM). specialize (HmM s Hs).
  pose proof (ck_knots_ok q U M1 HC1) as OK. pose proof OK as (Lk & Hpn & Hnd & _).
  assert (Ecnt : count_occ Req_EM_T (repeat_each U M1) (kn U s) = nth s M1 0%nat) by (apply re_count_at; auto; lia).
  pose proof (Hm s Hs) as Hms. pose proof (HM s Hs) as HMs. set (num := (nth s M1 0 - (nth s M 0 + (q - p)))%nat).
  assert (HC2 : ckn q U M2) by (apply ckn_upd; auto; lia).
  assert (Hin : kn (repeat_each U M1) q < kn U s < kn (repeat_each U M1) (poles_for q M1)).
  { rewrite (ck_first q U M1 HC1), (ck_last q U M1 HC1). split; apply Hinc; lia. }
  destruct (Nat.eq_dec num 0) as [E0|N0].
  - assert (EM : M2 = M1) by (apply upd_id; lia). rewrite EM. exists P. split; [|split; [exact HP|exact HE]].
    destruct (rpos_ex eps (repeat_each U M1) (poles_for q M1) q (kn U s) OK Hin) as (r & s' & Hr); [lia|].
    assert (s' = count_occ Req_EM_T (repeat_each U M1) (kn U s)) by apply Hr.
    destruct (rm_locate_ok eps He (repeat_each U M1) (poles_for q M1) q (kn U s) r s' OK Hr ltac:(lia)) as (EL & _).
    fold num. rewrite E0. unfold remove_knot. rewrite EL. reflexivity.
  - destruct (re_remove U M1 s num) as (a & b & Ea & Eb); [exact L|lia|lia|].
    replace (nth s M1 0 - num)%nat with (nth s M 0 + (q - p))%nat in Eb by lia. fold M2 in Eb.
    assert (En : (poles_for q M1 - num)%nat = poles_for q M2).
    { assert (LE : length (repeat_each U M1) = (length (a ++ b) + num)%nat) by (rewrite Ea, !app_length, repeat_length; lia).
      rewrite <- Eb in LE. rewrite !re_length in LE by (unfold M2; rewrite ?updn_len; exact L). unfold poles_for. lia. }
    set (Q := map (fun j c => rep_pole q U M1 (pole P c) M2 j) (seq 0 (poles_for q M2)) : list (pt R)).
    assert (LQ : length Q = poles_for q M2) by (unfold Q; rewrite map_length, seq_length; reflexivity).
    assert (HQ : forall x d c, kn U 0 <= x <= kn U (length U - 1) -> (d <= q)%nat ->
       CV (repeat_each U M2) (poles_for q M2) q d (pole Q c) x = CV (repeat_each U M1) (poles_for q M1) q d (pole P c) x).
    { intros x d c Hx Hd. rewrite <- (represent p U M (P0 c) q M1 (pole P c) HC HC1 (fun y Hy => HE y c Hy) M2 HC2 Hpq); auto.
      2:{ intros i Hi. unfold M2. rewrite nth_updn. destruct (Nat.eqb_spec i s) as [->|]; cbn [andb]; [|apply HM, Hi].
          destruct (Nat.ltb_spec s (length M1)); lia. }
      destruct (ck_in q U M2 HC2 x Hx) as (s' & Hs' & _ & _ & Sx). destruct (ck_lst q U M2 HC2 s' Hs') as (B1 & _ & _ & B4).
      pose proof (ck_knots_ok q U M2 HC2) as OK2.
      rewrite !(CV_at _ _ q d _ x (lst M2 s')) by auto. unfold PS. apply sumn_ext. intros j Hj. f_equal.
      unfold pole, Q. rewrite nth_map_seq by lia. reflexivity. }
    rewrite Eb, <- En in *.
    destruct (remove_exact_gen eps (repeat_each U M1) (poles_for q M1) q (kn U s) num a b P Q) as (_ & _ & _ & (P' & Er & LP' & HP') & _); auto.
    { lia. } { rewrite Ecnt. lia. }
    { intros x c Hx. rewrite (ck_first q U M1 HC1), (ck_last q U M1 HC1) in Hx. symmetry. apply HQ; [exact Hx|lia]. }
    exists P'. split; [exact Er|]. split; [exact LP'|]. intros x c Hx. rewrite HP'; [|rewrite (ck_first q U M1 HC1), (ck_last q U M1 HC1); exact Hx|lia].
    rewrite HQ by (auto; lia). apply HE, Hx.
Qed.

(** ** increase_degree *)
Lemma increase_degree_ok p t U M (P : list (pt R)) : 0 < eps -> clamped_knots eps p U M -> length P = poles_for p M -> (p + t <= 12)%nat ->
  exists P', increase_degree (repeat_each U M) P p t = Ok (repeat_each U (map (Nat.add t) M), P') /\
    ckn (p + t) U (map (Nat.add t) M) /\ length P' = poles_for (p + t) (map (Nat.add t) M) /\
    forall x d c, kn U 0 <= x <= kn U (length U - 1) -> (d <= p + t)%nat ->
     CV (repeat_each U (map (Nat.add t) M)) (poles_for (p + t) (map (Nat.add t) M)) (p + t) d (pole P' c) x =
     if (d <=? p)%nat then CV (repeat_each U M) (poles_for p M) p d (pole P c) x else 0.
Proof.
  intros He HK HP H12. pose proof (ck_ckn eps p U M ltac:(lra) HK) as HC.
  pose proof HC as (LM & L2 & Hinc & HM0 & HMl & HMi).
  destruct (bezier_segments_ok p U M P He HK HP) as (M1 & P1 & ES & F1 & LP1 & HS).
  rewrite (full_n p U M1 F1) in LP1.
  unfold increase_degree. rewrite (km_ok p U M He HK). cbn [bind]. rewrite ES. cbn [bind].
  destruct (mapM_all_ok (fun pa : list (pt R) * (R * R) => let* q := increase_bezier_degree (fst pa) p t in Ok (q, snd pa))
    (map (seg_of p U P1) (seq 0 (length U - 1)))) as (segs & EM).
  { intros pa Hpa. apply in_map_iff in Hpa as (s & <- & Hs). apply in_seq in Hs.
    destruct (increase_bezier_ok eps (fst (seg_of p U P1 s)) p t H12) as (Q & EQ & _). { apply (seg_len p U P1 (length U - 1)); [exact LP1|lia]. }
    rewrite EQ. eexists. reflexivity. }
  rewrite EM. cbn [bind]. destruct (mapM_nth _ _ _ EM) as (LS & NS). rewrite map_length, seq_length in LS.
  set (E := fun s c j => elevated p t (fun j => pole P1 c (p * s + j)) j).
  destruct (join_ok (p + t) U segs E L2 LS) as (s0 & Q & EF & EJ & LQ & VQ).
  { intros s Hs. destruct (NS s (seg_of p U P1 s)) as (b & Nb & Eb).
    { rewrite (nth_error_nth' _ (seg_of p U P1 s)) by (rewrite map_length, seq_length; exact Hs). f_equal. apply nth_map_seq. exact Hs. }
    destruct (increase_bezier_ok eps (fst (seg_of p U P1 s)) p t H12) as (B & EB & LB & VB). { apply (seg_len p U P1 (length U - 1)); [exact LP1|lia]. }
    rewrite EB in Eb. cbn [bind] in Eb. injection Eb as <-. exists B. split; [exact Nb|]. split; [exact LB|].
    intros c j Hj. rewrite VB by lia. unfold E, elevated. apply sumn_ext. intros i Hi. rewrite (seg_pole p U P1 (length U - 1)) by (auto; lia). reflexivity. }
  { intros s c Hs. unfold E. rewrite elevated_first, elevated_last. f_equal. lia. }
  rewrite EF. cbn [bind]. rewrite EJ. cbn [bind].
  set (q := (p + t)%nat) in *.
  assert (H0 : (q = 0 -> length U = 2)%nat).
  { intros E0. destruct (Nat.eq_dec (length U) 2); [assumption|]. specialize (HMi 1%nat ltac:(lia)). lia. }
  pose proof (full_mults_full q U L2 Hinc H0) as F2.
  assert (EMM : (((q + 1)%nat :: repeat q (length U - 2)) ++ [(q + 1)%nat]) = full_mults q (length U - 1)).
  { unfold full_mults. cbn [app]. do 3 f_equal. lia. }
  cbn [app] in EMM. cbn [app]. rewrite EMM. set (M2 := full_mults q (length U - 1)) in *.
  rewrite (proj1 (flat_spec U M2)) by (symmetry; apply F2). cbn [bind].
  assert (HE0 : forall x c, kn U 0 <= x <= kn U (length U - 1) ->
     CV (repeat_each U M2) (poles_for q M2) q 0 (pole Q c) x = CV (repeat_each U M) (poles_for p M) p 0 (pole P c) x).
  { intros x c Hx. rewrite <- (HS x 0%nat c Hx ltac:(lia)). apply (full_same p t); auto. intros s i Hs Hi. apply VQ; auto. }
  rewrite <- (full_n q U M2 F2) in LQ.
  match goal with |- exists P', for_ 1 ?n ?b ?s = _ /\ _ =>
    destruct (for_inv (fun i st => exists M3 Q3, st = (repeat_each U M3, Q3) /\ ckn q U M3 /\ length Q3 = poles_for q M3 /\
      (forall j, (0 < j < length U - 1)%nat -> nth j M3 0%nat = if (j <? i)%nat then (nth j M 0 + t)%nat else q) /\
      forall x c, kn U 0 <= x <= kn U (length U - 1) ->
        CV (repeat_each U M3) (poles_for q M3) q 0 (pole Q3 c) x = CV (repeat_each U M) (poles_for p M) p 0 (pole P c) x) b 1%nat n s)
      as (st & EL & M3 & Q3 & -> & C3 & L3 & V3 & S3) end.
  - exists M2, Q. split; [reflexivity|]. split; [apply F2|]. split; [exact LQ|]. split; [|exact HE0].
    intros j Hj. destruct (Nat.ltb_spec j 1); [lia|]. apply F2. lia.
  - intros i st Hi (M3 & Q3 & -> & C3 & L3 & V3 & S3). cbn beta iota.
    rewrite (get_kn U i) by lia. cbn [bind]. rewrite (get_nth M i 0%nat) by lia. cbn [bind].
    pose proof (HMi i ltac:(lia)) as Hmi. destruct (Nat.ltb_spec q (nth i M 0%nat + t)); [unfold q in *; lia|].
    assert (Emi : nth i M3 0%nat = q). { rewrite V3 by lia. rewrite Nat.ltb_irrefl. reflexivity. }
    destruct (remove_step p U M (pole P) q M3 i Q3) as (Q4 & E4 & L4 & S4); auto; try lra; try lia.
    { intros j Hj. rewrite V3 by lia. specialize (HMi j Hj). unfold q in *. destruct (j <? i)%nat; lia. }
    rewrite Emi in E4. replace (nth i M 0%nat + (q - p))%nat with (nth i M 0%nat + t)%nat in * by (unfold q; lia).
    rewrite E4. eexists. split; [reflexivity|]. eexists _, Q4. split; [reflexivity|].
    split; [apply ckn_upd; auto; lia|]. split; [exact L4|]. split; [|exact S4].
    intros j Hj. rewrite nth_updn. destruct C3 as (LM3 & _).
    destruct (Nat.eqb_spec j i) as [->|Nj]; cbn [andb].
    + destruct (Nat.ltb_spec i (length M3)); [|lia]. destruct (Nat.ltb_spec i (S i)); [reflexivity|lia].
    + rewrite V3 by lia. destruct (Nat.ltb_spec j i), (Nat.ltb_spec j (S i)); try reflexivity; lia.
  - assert (E3 : M3 = map (Nat.add t) M).
    { destruct C3 as (LM3 & _ & _ & A0 & Al & _). apply (nth_ext _ _ 0%nat (t + 0)%nat); [rewrite map_length; lia|].
      intros j Hj. rewrite map_nth. destruct (Nat.eq_dec j 0) as [->|]; [unfold q in *; lia|].
      destruct (Nat.eq_dec j (length U - 1)) as [->|]; [unfold q in *; lia|].
      rewrite V3 by lia. destruct (Nat.ltb_spec j (1 + (length U - 2))); lia. }
    subst M3. exists Q3. split; [exact EL|]. split; [exact C3|]. split; [exact L3|].
    intros x d c Hx Hd. apply (same_ders p U M (pole P c) q); auto.
Qed.

(** ** Statements *)
Lemma segments_statement p U M (P : list (pt R)) : 0 < eps -> clamped_knots eps p U M -> length P = poles_for p M -> (p <= 24)%nat ->
  exists segs, bezier_segments (repeat_each U M) P p = Ok segs /\ length segs = (length U - 1)%nat /\
    (forall s, (S s < length U)%nat -> exists B, nth_error segs s = Some (B, (kn U s, kn U (S s))) /\ length B = (p + 1)%nat /\
       forall x, kn U s <= x <= kn U (S s) -> exists q, eval_value x (repeat_each U M) P p 0 = Ok q /\
         forall c, q c = bernstein p (polec B c) ((x - kn U s) / (kn U (S s) - kn U s))) /\
    (forall s B b B' b', nth_error segs s = Some (B, b) -> nth_error segs (S s) = Some (B', b') ->
       forall c, polec B c p = polec B' c 0%nat).
Proof.
  intros He HK HP H24. pose proof (ck_ckn eps p U M ltac:(lra) HK) as HC. pose proof HC as (_ & L2 & _).
  destruct (bezier_segments_ok p U M P He HK HP) as (M1 & P1 & ES & F1 & LP1 & HS).
  rewrite (full_n p U M1 F1) in LP1.
  assert (NS : forall s, (s < length U - 1)%nat -> nth_error (map (seg_of p U P1) (seq 0 (length U - 1))) s = Some (seg_of p U P1 s)).
  { intros s Hs. rewrite (nth_error_nth' _ (seg_of p U P1 s)) by (rewrite map_length, seq_length; exact Hs). f_equal. apply nth_map_seq. exact Hs. }
  eexists. split; [exact ES|]. split; [rewrite map_length, seq_length; reflexivity|]. split.
  - intros s Hs. eexists. split; [apply NS; lia|]. split; [apply (seg_len p U P1 (length U - 1)); [exact LP1|lia]|].
    intros x Hx.
    assert (Hin : kn U 0 <= x <= kn U (length U - 1)).
    { pose proof (ck_kn_mono p U M HC 0 s ltac:(lia) ltac:(lia)). pose proof (ck_kn_mono p U M HC (S s) (length U - 1) ltac:(lia) ltac:(lia)). lra. }
    destruct (CV_eval eps (repeat_each U M) (poles_for p M) p P x 0%nat (ck_knots_ok p U M HC) HP) as (q & Eq & Vq).
    { left. exact H24. } { rewrite (ck_first p U M HC), (ck_last p U M HC). exact Hin. } { lia. }
    exists q. split; [exact Eq|]. intros c. rewrite Vq, <- (HS x 0%nat c Hin ltac:(lia)).
    rewrite (CV_closed p U M1 _ s x (proj1 F1) ltac:(lia) Hx), (full_piece _ _ _ _ _ _ F1) by lia.
    unfold bernstein. apply sumn_ext. intros j Hj. f_equal.
    rewrite <- (seg_pole p U P1 (length U - 1) s c j LP1) by lia. reflexivity.
  - intros s B b B' b' E1 E2 c.
    assert (S s < length U - 1)%nat. { assert (HN : nth_error (map (seg_of p U P1) (seq 0 (length U - 1))) (S s) <> None) by congruence.
      apply nth_error_Some in HN. rewrite map_length, seq_length in HN. exact HN. }
    rewrite NS in E1, E2 by lia. injection E1 as E1a _. injection E2 as E2a _.
    pose proof (seg_pole p U P1 (length U - 1) s c p LP1 ltac:(lia) ltac:(lia)) as V1.
    pose proof (seg_pole p U P1 (length U - 1) (S s) c 0%nat LP1 ltac:(lia) ltac:(lia)) as V2.
    unfold seg_of in V1, V2. cbn [fst] in V1, V2. rewrite E1a in V1. rewrite E2a in V2.
    change (polec B c p) with (pole B c p). change (polec B' c 0%nat) with (pole B' c 0%nat).
    rewrite V1, V2. f_equal. lia.
Qed.

Lemma elevate_statement p t U M (P : list (pt R)) : 0 < eps -> clamped_knots eps p U M -> length P = poles_for p M -> (p + t <= 12)%nat ->
  exists P', increase_degree (repeat_each U M) P p t = Ok (repeat_each U (map (Nat.add t) M), P') /\
    length P' = poles_for (p + t) (map (Nat.add t) M) /\
    clamped_knots eps (p + t) U (map (Nat.add t) M) /\
    forall x d, kn U 0 <= x <= kn U (length U - 1) ->
      exists q q', eval_value x (repeat_each U M) P p d = Ok q /\
        eval_value x (repeat_each U (map (Nat.add t) M)) P' (p + t) d = Ok q' /\ forall c, q' c = q c.
Proof.
  intros He HK HP H12. pose proof (ck_ckn eps p U M ltac:(lra) HK) as HC.
  destruct (increase_degree_ok p t U M P He HK HP H12) as (P' & E & C' & LP' & HS).
  exists P'. split; [exact E|]. split; [exact LP'|]. split.
  { destruct C' as (A & B & _ & R). destruct HK as (_ & _ & Sp & _). split; [exact A|]. split; [exact B|]. split; [exact Sp|exact R]. }
  intros x d Hx.
  assert (V' : (d <= p + t)%nat -> exists q', eval_value x (repeat_each U (map (Nat.add t) M)) P' (p + t) d = Ok q' /\
    forall c, q' c = if (d <=? p)%nat then CV (repeat_each U M) (poles_for p M) p d (pole P c) x else 0).
  { intros Hd. destruct (CV_eval eps _ _ (p + t) P' x d (ck_knots_ok _ _ _ C') LP') as (q' & Eq' & Vq').
    { left. lia. } { rewrite (ck_first _ _ _ C'), (ck_last _ _ _ C'). exact Hx. } { exact Hd. }
    exists q'. split; [exact Eq'|]. intros c. rewrite Vq'. apply HS; auto. }
  destruct (Nat.le_gt_cases d p) as [Hd|Hd].
  - destruct (CV_eval eps _ _ p P x d (ck_knots_ok _ _ _ HC) HP) as (q & Eq & Vq).
    { left. lia. } { rewrite (ck_first _ _ _ HC), (ck_last _ _ _ HC). exact Hx. } { exact Hd. }
    destruct (V' ltac:(lia)) as (q' & Eq' & Vq'). exists q, q'. split; [exact Eq|]. split; [exact Eq'|].
    intros c. rewrite Vq, Vq'. destruct (Nat.leb_spec d p); [reflexivity|lia].
  - exists pzero. rewrite (eval_value_high eps) by lia. destruct (Nat.le_gt_cases d (p + t)) as [Hd'|Hd'].
    + destruct (V' Hd') as (q' & Eq' & Vq'). exists q'. split; [reflexivity|]. split; [exact Eq'|].
      intros c. rewrite Vq'. destruct (Nat.leb_spec d p); [lia|reflexivity].
    + exists pzero. rewrite (eval_value_high eps) by lia. auto.
Qed.

Lemma bezier_statement p t (P : list (pt R)) : length P = (p + 1)%nat -> (p + t <= 12)%nat ->
  exists Q, increase_bezier_degree P p t = Ok Q /\ length Q = (p + t + 1)%nat /\
    forall c x, bernstein (p + t) (polec Q c) x = bernstein p (polec P c) x.
Proof.
  intros LP H12. destruct (increase_bezier_ok eps P p t H12 LP) as (Q & E & LQ & V). exists Q. split; [exact E|]. split; [exact LQ|].
  intros c x. rewrite <- (elevate_same p t). unfold bernstein. apply sumn_ext. intros j Hj. f_equal. apply V. lia.
Qed.
End AtR.
