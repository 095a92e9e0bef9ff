(** Boundary extraction and closed loops. *)
From Coq Require Import List Arith Lia Bool Permutation.
From Verif Require Import Model_Base Proof_Base Model_Mesh Spec_Mesh Proof_Mesh Proof_Mesh2 Proof_Mesh3 Proof_Mesh4 Proof_Mesh5 Proof_Mesh6 Proof_Mesh7.
Import ListNotations.
Local Open Scope nat_scope.

Definition ptr_dec (a b : ptr) : {a = b} + {a <> b}.
Proof. decide equality. apply Nat.eq_dec. Defined.
Notation cnt := (count_occ ptr_dec).

Lemma count_occ_perm (l m : list ptr) : Permutation l m -> forall x, cnt l x = cnt m x.
Proof. intros P x. now apply Permutation_count_occ. Qed.

Section Mesh.
Context {C : Type}.
Implicit Types (h : heap C) (fs l es b K N : list nat) (f e o v x y : nat) (p : ptr).

(** ** takeClosedLoops *)
Definition is_based h e := exists s, pv h e <> None /\ (forall q, pv h e = Some q -> q < ne h) /\ st h e = Some s.
Definition pbased h e := e < ne h /\ exists q, pv h e = Some q /\ q < ne h.
Lemma based_p h e : based h e -> pbased h e.
Proof. intros (A & q & s & P & B & _). split; eauto. Qed.

Lemma take_first_ok {A} (p : A -> result bool) (g : A -> bool) : forall (l : list A), (forall a, In a l -> p a = Ok (g a)) ->
  exists r, take_first p l = Ok r /\
  match r with
  | None => forall a, In a l -> g a = false
  | Some (x, rest) => In x l /\ g x = true /\ Permutation l (x :: rest) /\ S (length rest) = length l
  end.
Proof.
  induction l as [|a l IH]; intros H; cbn [take_first].
  - exists None. split; auto. intros a [].
  - rewrite H by now left. cbn [bind]. destruct (g a) eqn:G.
    + exists (Some (a, l)). split; auto. split; [now left|]. auto.
    + destruct IH as (r & R1 & R2); [intros; apply H; now right|]. rewrite R1. cbn [bind].
      destruct r as [[x rest]|]; eexists; (split; [reflexivity|]).
      * destruct R2 as (R2 & R3 & R4 & R5). split; [now right|]. split; auto. split; [|cbn; lia].
        apply perm_trans with (a :: x :: rest); [now constructor|constructor].
      * intros b [<-|I]; auto.
Qed.

Lemma ends_at_tail_ok h first e : pbased h first -> e < ne h ->
  ends_at_tail h first e = Ok (ptr_eqb (en h e) (st h first)).
Proof.
  intros (B & q & Pq & Bq) Be. unfold ends_at_tail. rewrite get_e_ok by auto. cbn [bind].
  rewrite (prev_of_ok h first q) by auto. cbn [bind]. rewrite get_e_ok by auto. cbn [bind]. unfold st. now rewrite Pq.
Qed.

(** trail: each starts where the one before ends *)
Definition trail h l := forall i, S i < length l -> en h (nth i l 0) = st h (nth (S i) l 0).
Lemma trail_cons h e x l : en h e = st h x -> trail h (x :: l) -> trail h (e :: x :: l).
Proof. intros A T [|i] Hi; cbn in *; auto. apply (T i). cbn. lia. Qed.

Lemma grow_loop_ok h : forall fuel first cur rest, length rest < fuel ->
  (forall e, In e (first :: cur ++ rest) -> pbased h e) -> trail h (first :: cur) ->
  exists l rest', grow_loop fuel h first (first :: cur) rest = Ok (l, rest') /\
    Permutation ((first :: cur) ++ rest) (l ++ rest') /\ trail h l /\ l <> [] /\
    (exists t, last l 0 = last (first :: cur) 0 /\ l = hd 0 l :: t) /\
    (forall e, In e rest' -> en h e <> st h (hd 0 l)) /\ length rest' <= length rest.
Proof.
  induction fuel as [|k IH]; intros first cur rest Hf HB T; [lia|]. cbn [grow_loop].
  destruct (take_first_ok (ends_at_tail h first) (fun e => ptr_eqb (en h e) (st h first)) rest) as (r & R1 & R2).
  { intros e Ie. apply ends_at_tail_ok; [apply HB; now left|]. apply HB. right. apply in_or_app. auto. }
  rewrite R1. cbn [bind]. destruct r as [[e rest']|].
  - destruct R2 as (Ie & G & P & LL). destruct (ptr_eqb_spec (en h e) (st h first)) as [Q|]; [|discriminate].
    destruct (IH e (first :: cur) rest') as (l & rest'' & A & B & D & D0 & (t & D1 & D2) & D3 & D4).
    { lia. }
    { intros x Hx. apply HB. revert Hx. cbn. rewrite !in_app_iff. intros [<-|[<-|[Hx|Hx]]]; auto.
      right. right. apply (Permutation_in x (Permutation_sym P)). now right. }
    { now apply trail_cons. }
    exists l, rest''. split; [auto|]. split.
    { apply perm_trans with ((first :: cur) ++ e :: rest'); [now apply Permutation_app_head|].
      apply perm_trans with (2 := B). cbn. symmetry. change (first :: cur ++ e :: rest') with ((first :: cur) ++ e :: rest').
      change (e :: first :: cur ++ rest') with (e :: (first :: cur) ++ rest'). apply Permutation_middle. }
    split; [auto|]. split; [auto|]. split; [exists t; rewrite D1; auto|]. split; [auto|]. lia.
  - exists (first :: cur), rest. split; auto. split; auto. split; [auto|]. split; [discriminate|].
    split; [exists cur; auto|]. split; [|auto]. intros e Ie Q. specialize (R2 e Ie). cbn in Q. rewrite Q, ptr_eqb_refl in R2. discriminate.
Qed.

(** balanced: every vertex is the end of as many half-edges as it is the start of *)
Definition balanced h l := forall p, cnt (map (en h) l) p = cnt (map (st h) l) p.
Lemma trail_count h : forall l e, trail h (e :: l) -> forall p,
  cnt (map (en h) (e :: l)) p + cnt [st h e] p = cnt (map (st h) (e :: l)) p + cnt [en h (last (e :: l) 0)] p.
Proof.
  induction l as [|x l IH]; intros e T p.
  - cbn. destruct (ptr_dec (en h e) p), (ptr_dec (st h e) p); lia.
  - assert (T' : trail h (x :: l)) by (intros i Hi; apply (T (S i)); cbn in *; lia).
    specialize (IH x T' p). pose proof (T 0 ltac:(cbn; lia)) as Q. cbn [nth] in Q.
    change (last (e :: x :: l) 0) with (last (x :: l) 0).
    change (map (en h) (e :: x :: l)) with ([en h e] ++ map (en h) (x :: l)).
    change (map (st h) (e :: x :: l)) with ([st h e] ++ map (st h) (x :: l)).
    rewrite !count_occ_app, Q. lia.
Qed.
Lemma count_in (l : list ptr) p : 0 < cnt l p -> In p l.
Proof. intros H. apply (count_occ_In ptr_dec). lia. Qed.
Lemma trail_closed h l rest e : l <> [] -> trail h l -> l = e :: tl l -> balanced h (l ++ rest) -> (forall x, In x rest -> en h x <> st h e) ->
  en h (last l 0) = st h e /\ balanced h rest.
Proof.
  intros NE T HE B HR. pose proof (trail_count h (tl l) e) as Q. rewrite <- HE in Q. specialize (Q T).
  assert (CL : en h (last l 0) = st h e).
  { destruct (ptr_dec (en h (last l 0)) (st h e)) as [|N]; auto. exfalso.
    specialize (Q (st h e)). specialize (B (st h e)). rewrite !map_app, !count_occ_app in B.
    cbn [count_occ] in Q. destruct (ptr_dec (st h e) (st h e)); [|congruence].
    destruct (ptr_dec (en h (last l 0)) (st h e)); [congruence|].
    assert (0 < cnt (map (en h) rest) (st h e)) by lia. apply count_in, in_map_iff in H as (x & E1 & I).
    now apply (HR x I). }
  split; auto. intros p. specialize (Q p). specialize (B p). rewrite !map_app, !count_occ_app in B. rewrite CL in Q. lia.
Qed.

Definition closed h l := trail h l /\ l <> [] /\ en h (last l 0) = st h (hd 0 l).

Lemma take_loops_ok h : forall fuel b, length b <= fuel -> (forall e, In e b -> pbased h e) ->
  exists ls, take_loops fuel h b = Ok ls /\ Permutation (concat ls) b /\
    (forall l, In l ls -> l <> [] /\ trail h l) /\
    (balanced h b -> forall l, In l ls -> closed h l).
Proof.
  induction fuel as [|k IH]; intros b Hf HB; (destruct b as [|e b]; [|try (cbn in Hf; lia)]).
  - exists []. repeat split; auto; contradiction.
  - exists []. repeat split; auto; contradiction.
  - cbn [take_loops]. cbn in Hf.
    destruct (grow_loop_ok h (S (length b)) e [] b) as (l & rest & A & P & T & NE & (t & L1 & L2) & R & LL).
    { lia. } { intros x. cbn. apply HB. } { intros i Hi. cbn in Hi. lia. }
    rewrite A. cbn [bind].
    destruct (IH rest) as (ls & B1 & B2 & B3 & B4).
    { lia. } { intros x Ix. apply HB. apply (Permutation_in x (Permutation_sym P)). apply in_or_app. auto. }
    rewrite B1. cbn [bind]. exists (l :: ls). split; [auto|]. split.
    { cbn. apply perm_trans with (l ++ rest); [now apply Permutation_app_head|now apply Permutation_sym]. }
    split.
    { intros m [<-|I]; auto. }
    intros BL.
    assert (BL' : balanced h (l ++ rest)).
    { intros p. rewrite <- (count_occ_perm _ _ (Permutation_map (en h) P)), <- (count_occ_perm _ _ (Permutation_map (st h) P)). apply BL. }
    destruct (trail_closed h l rest (hd 0 l)) as [CL BR]; auto.
    { rewrite L2. cbn. reflexivity. }
    intros m [<-|I]; [split; auto|auto].
Qed.

Lemma takeClosedLoops_ok h b : (forall e, In e b -> pbased h e) ->
  exists ls, takeClosedLoops h b = Ok ls /\ Permutation (concat ls) b /\
    (forall l, In l ls -> l <> [] /\ trail h l) /\
    (balanced h b -> forall l, In l ls -> closed h l).
Proof. intros H. now apply take_loops_ok. Qed.

(** ** getFacesBoundary *)
Definition inK h K e : bool := match op h e with None => false | Some o => existsb (fun f => ptr_eqb (Some f) (fc h o)) K end.
Lemma inK_iff h K e : inK h K e = true <-> exists o f, op h e = Some o /\ fc h o = Some f /\ In f K.
Proof.
  unfold inK. destruct (op h e) as [o|].
  - rewrite existsb_exists. split.
    + intros (f & If & Q). destruct (ptr_eqb_spec (Some f) (fc h o)); [|discriminate]. exists o, f. auto.
    + intros (o' & f & [= <-] & Q & If). exists f. split; auto. rewrite Q. apply ptr_eqb_refl.
  - split; [discriminate|]. intros (o & f & Q & _). discriminate.
Qed.
Lemma filterM_ok {A} (p : A -> result bool) (g : A -> bool) : forall (l : list A), (forall a, In a l -> p a = Ok (g a)) -> filterM p l = Ok (filter g l).
Proof.
  induction l as [|a l IH]; intros H; [auto|]. cbn [filterM filter]. rewrite H by now left. cbn [bind].
  rewrite IH by (intros; apply H; now right). reflexivity.
Qed.
Definition alle h K := flat_map (Lf h) K.
Lemma in_alle h K e : In e (alle h K) <-> Live h K e.
Proof. unfold alle, Live. apply in_flat_map. Qed.
Lemma boundary_ok h fs K : minv h fs -> incl K fs -> getFacesBoundary h K = Ok (filter (fun e => negb (inK h K e)) (alle h K)).
Proof.
  intros H IK. unfold getFacesBoundary.
  assert (Q : forall K', incl K' fs -> boundary_of h K K' = Ok (filter (fun e => negb (inK h K e)) (alle h K'))).
  { induction K' as [|f K' IH]; intros I; [reflexivity|]. cbn [boundary_of].
    rewrite (getFaceEdges_ok _ _ _ (Lf_of _ _ f H (I f (or_introl eq_refl)))). cbn [bind].
    rewrite (filterM_ok _ (fun e => negb (inK h K e))).
    - cbn [bind]. rewrite IH by (intros g Ig; apply I; now right). cbn [bind]. unfold alle. cbn [flat_map]. now rewrite filter_app.
    - intros e Ie. assert (LV : Live h fs e) by (exists f; split; auto; apply I; now left).
      unfold on_boundary. rewrite get_e_ok by (now apply (Live_lt _ _ _ H)). cbn [bind].
      change (he_opp (E h e)) with (op h e). unfold inK. destruct (op h e) as [o|] eqn:Eo; [|reflexivity].
      destruct (minv_pair _ _ _ _ H LV Eo) as (A & _). rewrite get_e_ok by (now apply (Live_lt _ _ _ H)). reflexivity. }
  now apply Q.
Qed.

Lemma NoDup_alle h fs : minv h fs -> forall K, incl K fs -> NoDup K -> NoDup (alle h K).
Proof.
  intros H. induction K as [|f K IH]; intros I ND; [constructor|]. inversion ND; subst. unfold alle. cbn [flat_map].
  apply NoDup_app_intro.
  - apply (Lf_of _ _ f H). apply I. now left.
  - apply IH; auto. intros g Ig. apply I. now right.
  - intros e Ie J. apply in_flat_map in J as (g & Ig & Ie'). assert (f = g); [|congruence].
    apply (floop_face h f g (Lf h f) (Lf h g) e); auto; apply (Lf_of _ _ _ H); apply I; [now left|now right].
Qed.

(** the half-edges of a loop are balanced *)
Lemma loop_balanced h f l : floop h f l -> balanced h l.
Proof.
  intros H p. pose proof H as (H1 & _). apply count_occ_perm.
  assert (Q : map (st h) l = map (fun i => en h (cyc l (i + length l - 1))) (seq 0 (length l))).
  { apply nth_ext with (st h 0) None; [now rewrite !map_length, seq_length|].
    intros i Hi. rewrite map_length in Hi. rewrite map_nth.
    rewrite (nth_indep _ None (en h (cyc l (0 + length l - 1)))) by (now rewrite map_length, seq_length).
    rewrite (map_nth (fun i => en h (cyc l (i + length l - 1))) _ 0). rewrite seq_nth by auto. cbn [Nat.add].
    destruct H as (_ & _ & _ & _ & H4). destruct (H4 i Hi) as (_ & _ & _ & P & _). unfold st. now rewrite P. }
  rewrite Q.
  assert (R : map (en h) l = map (fun i => en h (nth i l 0)) (seq 0 (length l))).
  { apply nth_ext with (en h 0) None; [now rewrite !map_length, seq_length|].
    intros i Hi. rewrite map_length in Hi. rewrite map_nth.
    rewrite (nth_indep _ None (en h (nth 0 l 0))) by (now rewrite map_length, seq_length).
    rewrite (map_nth (fun i => en h (nth i l 0)) _ 0). rewrite seq_nth by auto. reflexivity. }
  rewrite R. clear H Q R. destruct l as [|a l0]; [constructor|]. set (n := length l0).
  assert (Ln : length (a :: l0) = S n) by reflexivity. set (m := a :: l0) in *. clearbody m n. rewrite Ln.
  rewrite seq_S at 1. rewrite map_app. cbn [map Nat.add]. cbn [seq map].
  apply perm_trans with (en h (nth n m 0) :: map (fun i => en h (nth i m 0)) (seq 0 n)).
  - apply Permutation_sym. change (map (fun i => en h (nth i m 0)) (seq 0 n) ++ [en h (nth n m 0)]) with (map (fun i => en h (nth i m 0)) (seq 0 n) ++ [en h (nth n m 0)]). apply Permutation_cons_append.
  - assert (X : cyc m (0 + S n - 1) = nth n m 0) by (unfold cyc; rewrite Ln; rewrite Nat.mod_small by lia; f_equal; lia).
    rewrite X. apply Permutation_refl'. f_equal. rewrite <- seq_shift, map_map. apply map_ext_in. intros i Hi. apply in_seq in Hi.
    unfold cyc. rewrite Ln. replace (S i + S n - 1) with (i + 1 * S n) by lia. rewrite Nat.mod_add, Nat.mod_small by lia. reflexivity.
Qed.
Lemma balanced_app h l m : balanced h l -> balanced h m -> balanced h (l ++ m).
Proof. intros A B p. rewrite !map_app, !count_occ_app. now rewrite A, B. Qed.
Lemma alle_balanced h fs : minv h fs -> forall K, incl K fs -> balanced h (alle h K).
Proof.
  intros H. induction K as [|f K IH]; intros I; [intros p; reflexivity|]. unfold alle. cbn [flat_map].
  apply balanced_app.
  - apply (loop_balanced h f). apply (Lf_of _ _ _ H). apply I. now left.
  - apply IH. intros g Ig. apply I. now right.
Qed.
Definition opn h e := match op h e with Some o => o | None => 0 end.
Lemma filter_perm {A} (g : A -> bool) (l : list A) : Permutation l (filter g l ++ filter (fun a => negb (g a)) l).
Proof.
  induction l as [|a l IH]; [constructor|]. cbn. destruct (g a); cbn; [now constructor|].
  apply perm_trans with (a :: filter g l ++ filter (fun a => negb (g a)) l); [now constructor|]. apply Permutation_middle.
Qed.
Lemma interior_balanced h fs K : minv h fs -> incl K fs -> NoDup K -> balanced h (filter (inK h K) (alle h K)).
Proof.
  intros H IK NK p. apply count_occ_perm. set (I := filter (inK h K) (alle h K)).
  assert (HI : forall e, In e I <-> Live h K e /\ exists o, op h e = Some o /\ Live h K o).
  { intros e. unfold I. rewrite filter_In, in_alle, inK_iff. split.
    - intros (Le & o & f & Ho & Fo & If). split; auto. exists o. split; auto.
      destruct (minv_pair _ _ _ _ H (Live_incl _ _ _ _ IK Le) Ho) as ((g & Ig & Io) & _).
      assert (fc h o = Some g) by (apply (floop_in _ _ _ _ (Lf_of _ _ _ H Ig) Io)). assert (g = f) by congruence. subst g. exists f; auto.
    - intros (Le & o & Ho & (f & If & Io)). split; auto. exists o, f. split; auto. split; auto.
      apply (floop_in _ _ _ _ (Lf_of _ _ _ H (IK _ If)) Io). }
  assert (OI : forall e, In e I -> In (opn h e) I /\ opn h (opn h e) = e /\ en h (opn h e) = st h e /\ st h (opn h e) = en h e).
  { intros e Ie. apply HI in Ie as (Le & o & Ho & Lo).
    destruct (minv_pair _ _ _ _ H (Live_incl _ _ _ _ IK Le) Ho) as (_ & _ & Q & R1 & R2).
    assert (X : opn h e = o) by (unfold opn; now rewrite Ho). rewrite X. assert (Y : opn h o = e) by (unfold opn; now rewrite Q).
    split; [apply HI; eauto|]. auto. }
  assert (NI : NoDup I) by (apply NoDup_filter, (NoDup_alle _ _ H); auto).
  assert (PI : Permutation I (map (opn h) I)).
  { apply NoDup_Permutation; auto.
    - apply (NoDup_map_inv (opn h)). rewrite map_map. rewrite (map_ext_in _ (fun e => e)); [now rewrite map_id|]. intros e Ie. now apply OI.
    - intros x. rewrite in_map_iff. split.
      + intros Ix. exists (opn h x). destruct (OI x Ix) as (A & B & _). auto.
      + intros (y & <- & Iy). now apply OI. }
  apply perm_trans with (map (en h) (map (opn h) I)); [now apply Permutation_map|].
  rewrite map_map. apply Permutation_refl'. apply map_ext_in. intros e Ie. now apply OI.
Qed.
Lemma boundary_balanced h fs K : minv h fs -> incl K fs -> NoDup K -> balanced h (filter (fun e => negb (inK h K e)) (alle h K)).
Proof.
  intros H IK NK p. pose proof (alle_balanced h fs H K IK p) as A. pose proof (interior_balanced h fs K H IK NK p) as B.
  pose proof (filter_perm (inK h K) (alle h K)) as P.
  rewrite (count_occ_perm _ _ (Permutation_map (en h) P)), (count_occ_perm _ _ (Permutation_map (st h) P)) in A.
  rewrite !map_app, !count_occ_app in A. lia.
Qed.

Lemma oriented_ok h fs K : minv h fs -> incl K fs -> NoDup K ->
  exists ls, getOrientedFacesBoundaries h K = Ok ls /\
    Permutation (concat ls) (filter (fun e => negb (inK h K e)) (alle h K)) /\
    (forall l, In l ls -> closed h l).
Proof.
  intros H IK NK. unfold getOrientedFacesBoundaries. rewrite (boundary_ok h fs K H IK). cbn [bind].
  destruct (takeClosedLoops_ok h (filter (fun e => negb (inK h K e)) (alle h K))) as (ls & A & B & D & G).
  { intros e Ie. apply filter_In in Ie as [Ie _]. apply in_alle in Ie. apply based_p.
    apply (based_of h fs); auto. now apply (Live_incl _ K). }
  exists ls. split; auto. split; auto. apply G. now apply (boundary_balanced h fs).
Qed.
End Mesh.
