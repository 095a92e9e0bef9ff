From Coq Require Import List Arith Bool Lia.
From Verif Require Import Model_Base Proof_Base Model_Batch Spec_Batch.
Import ListNotations.
Local Open Scope nat_scope.

Section Batch.
Context {A B : Type}.
Variable build : A -> attempt B.
Variable dflt : B.
Variable inputs : list A.

Definition occ (l : list nat) i := count_occ Nat.eq_dec l i.

Definition slot_ok (c : nat) (a : A) (o : B) (e : option exn) (p : pc B) : Prop :=
  match c with
  | 0 => p = Waiting /\ o = dflt /\ e = None
  | 1 => p = Computed (build a) /\ o = dflt /\ e = None
  | 2 => p = Finished /\ match build a with Val b => o = b /\ e = None | Exc x => o = dflt /\ e = Some x end
  | _ => False
  end.

Definition inv (c : nat -> nat) (s : bstate) : Prop :=
  length (b_out s) = length inputs /\ length (b_errs s) = length inputs /\ length (b_pcs s) = length inputs /\
  (forall i, length inputs <= i -> c i = 0) /\
  forall i a, nth_error inputs i = Some a -> exists o e p,
    nth_error (b_out s) i = Some o /\ nth_error (b_errs s) i = Some e /\ nth_error (b_pcs s) i = Some p /\
    slot_ok (c i) a o e p.

Lemma inv_ext c c' s : (forall i, c i = c' i) -> inv c s -> inv c' s.
Proof.
  intros E (L1 & L2 & L3 & Z & H). repeat split; auto.
  - intros i Hi. rewrite <- E. auto.
  - intros i a Ha. rewrite <- E. auto.
Qed.

Lemma nth_filled {C} (x : C) n i : i < n -> nth_error (filled n x) i = Some x.
Proof. unfold filled. revert i. induction n; intros [|i] Hi; simpl; try lia; auto. apply IHn; lia. Qed.

Lemma inv_start : inv (fun _ => 0) (batch_start dflt inputs).
Proof.
  unfold batch_start. repeat split; cbn [b_out b_errs b_pcs]; try apply filled_length.
  intros i a Ha. assert (Hi : i < length inputs) by (apply nth_error_Some; congruence).
  exists dflt, None, Waiting. rewrite !nth_filled by exact Hi. repeat split.
Qed.

Definition bump (c : nat -> nat) j := fun i => if i =? j then S (c i) else c i.

(* exactly what a step does *)
Lemma step_ok c s j : inv c s -> j < length inputs -> c j < 2 ->
  exists s', batch_step build inputs j s = Ok s' /\ inv (bump c j) s'.
Proof.
  intros (L1 & L2 & L3 & Z & H) Hj Hc.
  destruct (nth_error inputs j) as [a|] eqn:Ea; [|apply nth_error_None in Ea; lia].
  destruct (H j a Ea) as (o & e & p & H1 & H2 & H3 & Hs).
  assert (ZB : forall i, length inputs <= i -> bump c j i = 0).
  { intros i Hi. unfold bump. destruct (Nat.eqb_spec i j); [lia|auto]. }
  assert (OT : forall i, (j =? i) && (j <? length inputs) = (i =? j)).
  { intros i. rewrite (Nat.eqb_sym j i). destruct (Nat.ltb_spec j (length inputs)); [apply andb_true_r|lia]. }
  assert (Gp := proj2 (get_some _ _ _) H3).
  assert (Ga := proj2 (get_some _ _ _) Ea).
  destruct (c j) as [|[|k]] eqn:Cj; [| |lia].
  - destruct Hs as (-> & -> & ->). eexists. split.
    + unfold batch_step. rewrite Gp. cbn [bind]. rewrite Ga. cbn [bind]. rewrite set_ok by lia. cbn [bind]. reflexivity.
    + repeat split; cbn [b_out b_errs b_pcs]; rewrite ?upd_length; auto.
      intros i b Hb. rewrite nth_error_upd, L3, OT. unfold bump. destruct (Nat.eqb_spec i j) as [->|N].
      * assert (b = a) by congruence. subst b. exists dflt, None, (Computed (build a)). rewrite Cj. repeat split; auto.
      * apply H; auto.
  - destruct Hs as (-> & -> & ->). unfold batch_step. rewrite Gp. cbn [bind].
    destruct (build a) as [b0|x] eqn:Eb.
    + eexists. split. { rewrite set_ok by lia. cbn [bind]. rewrite set_ok by lia. cbn [bind]. reflexivity. }
      repeat split; cbn [b_out b_errs b_pcs]; rewrite ?upd_length; auto.
      intros i b Hb. rewrite !nth_error_upd, L3, L1, OT. unfold bump. destruct (Nat.eqb_spec i j) as [->|N].
      * assert (b = a) by congruence. subst b. exists b0, None, Finished. rewrite Cj. cbn. rewrite Eb. repeat split; auto.
      * apply H; auto.
    + eexists. split. { rewrite set_ok by lia. cbn [bind]. rewrite set_ok by lia. cbn [bind]. reflexivity. }
      repeat split; cbn [b_out b_errs b_pcs]; rewrite ?upd_length; auto.
      intros i b Hb. rewrite !nth_error_upd, L3, L2, OT. unfold bump. destruct (Nat.eqb_spec i j) as [->|N].
      * assert (b = a) by congruence. subst b. exists dflt, (Some x), Finished. rewrite Cj. cbn. rewrite Eb. repeat split; auto.
      * apply H; auto.
Qed.

Lemma step_inv c s j s' : inv c s -> batch_step build inputs j s = Ok s' ->
  j < length inputs /\ c j < 2 /\ inv (bump c j) s'.
Proof.
  intros I HS. pose proof I as (L1 & L2 & L3 & Z & H).
  assert (Hj : j < length inputs).
  { unfold batch_step in HS. destruct (get (b_pcs s) j) eqn:G; try discriminate. apply get_lt in G. lia. }
  destruct (nth_error inputs j) as [a|] eqn:Ea; [|apply nth_error_None in Ea; lia].
  destruct (H j a Ea) as (o & e & p & H1 & H2 & H3 & Hs).
  assert (Hc : c j < 2).
  { destruct (c j) as [|[|[|k]]] eqn:Cj; try lia; [|destruct Hs].
    destruct Hs as (-> & _). unfold batch_step in HS. rewrite (proj2 (get_some _ _ _) H3) in HS. discriminate. }
  destruct (step_ok c s j I Hj Hc) as (s2 & E2 & I2). rewrite E2 in HS. injection HS as <-. auto.
Qed.

Lemma bump_occ c j l i : bump c j i + occ l i = c i + occ (j :: l) i.
Proof.
  unfold bump, occ. cbn [count_occ]. destruct (Nat.eq_dec j i) as [->|N].
  - rewrite Nat.eqb_refl. lia.
  - destruct (Nat.eqb_spec i j); [congruence|lia].
Qed.

Lemma run_ok l : forall c s, inv c s ->
  (forall i, c i + occ l i <= if i <? length inputs then 2 else 0) ->
  exists s', batch_run build inputs l s = Ok s' /\ inv (fun i => c i + occ l i) s'.
Proof.
  induction l as [|j l IH]; intros c s I HC.
  - exists s. split; [reflexivity|]. apply (inv_ext c); [|exact I]. intros i. unfold occ. cbn. lia.
  - pose proof (HC j) as Hj. unfold occ in Hj. cbn [count_occ] in Hj. destruct (Nat.eq_dec j j); [|congruence].
    destruct (Nat.ltb_spec j (length inputs)); [|lia].
    destruct (step_ok c s j I) as (s1 & E1 & I1); [lia|lia|].
    destruct (IH (bump c j) s1 I1) as (s' & E' & I').
    { intros i. rewrite bump_occ. apply HC. }
    exists s'. cbn [batch_run]. rewrite E1. cbn [bind]. split; [exact E'|].
    eapply inv_ext; [|exact I']. intros i. apply bump_occ.
Qed.

Lemma run_inv l : forall c s s', inv c s -> batch_run build inputs l s = Ok s' -> inv (fun i => c i + occ l i) s'.
Proof.
  induction l as [|j l IH]; intros c s s' I E.
  - cbn in E. injection E as <-. apply (inv_ext c); [|exact I]. intros i. unfold occ. cbn. lia.
  - cbn [batch_run] in E. destruct (batch_step build inputs j s) as [s1| | |] eqn:E1; try discriminate.
    cbn [bind] in E. destruct (step_inv c s j s1 I E1) as (_ & _ & I1).
    eapply inv_ext; [|exact (IH _ _ _ I1 E)]. intros i. apply bump_occ.
Qed.

Lemma nth_ext_error {C} (l l' : list C) : length l = length l' ->
  (forall i, i < length l -> nth_error l i = nth_error l' i) -> l = l'.
Proof.
  revert l'. induction l as [|x l IH]; intros [|y l'] L E; try discriminate; auto.
  pose proof (E 0 ltac:(cbn; lia)) as E0. cbn in E0. injection E0 as ->. f_equal. apply IH; [cbn in L; lia|].
  intros i Hi. apply (E (S i)). cbn; lia.
Qed.

Lemma finished_all c s : inv c s -> (forall i, c i = if i <? length inputs then 2 else 0) ->
  forallb is_finished (b_pcs s) = true /\
  b_out s = map (fun a => match build a with Val b => b | Exc _ => dflt end) inputs /\
  b_errs s = map (fun a => match build a with Val _ => None | Exc e => Some e end) inputs.
Proof.
  intros (L1 & L2 & L3 & Z & H) C.
  assert (K : forall i a, nth_error inputs i = Some a ->
    nth_error (b_pcs s) i = Some Finished /\
    nth_error (b_out s) i = Some (match build a with Val b => b | Exc _ => dflt end) /\
    nth_error (b_errs s) i = Some (match build a with Val _ => None | Exc e => Some e end)).
  { intros i a Ha. assert (Hi : i < length inputs) by (apply nth_error_Some; congruence).
    destruct (H i a Ha) as (o & e & p & H1 & H2 & H3 & Hs). rewrite C in Hs.
    destruct (Nat.ltb_spec i (length inputs)); [|lia]. destruct Hs as (-> & Hs). rewrite H1, H2, H3.
    destruct (build a); destruct Hs as (-> & ->); auto. }
  split; [|split].
  - apply forallb_forall. intros p Hp. apply In_nth_error in Hp as (i & Hi).
    assert (Li : i < length inputs) by (rewrite <- L3; apply nth_error_Some; congruence).
    destruct (nth_error inputs i) as [a|] eqn:Ea; [|apply nth_error_None in Ea; lia].
    destruct (K i a Ea) as (E & _). rewrite E in Hi. injection Hi as <-. reflexivity.
  - apply nth_ext_error; [rewrite map_length; lia|]. intros i Hi. rewrite nth_error_map.
    destruct (nth_error inputs i) as [a|] eqn:Ea; [|apply nth_error_None in Ea; lia].
    destruct (K i a Ea) as (_ & E & _). rewrite E. reflexivity.
  - apply nth_ext_error; [rewrite map_length; lia|]. intros i Hi. rewrite nth_error_map.
    destruct (nth_error inputs i) as [a|] eqn:Ea; [|apply nth_error_None in Ea; lia].
    destruct (K i a Ea) as (_ & _ & E). rewrite E. reflexivity.
Qed.

Lemma serial_complete_gen m : forall lo i, occ (flat_map (fun i => [i; i]) (seq lo m)) i = if (lo <=? i) && (i <? lo + m) then 2 else 0.
Proof.
  induction m as [|m IH]; intros lo i; cbn [seq flat_map].
  - unfold occ. cbn [count_occ]. destruct (Nat.leb_spec lo i); destruct (Nat.ltb_spec i (lo + 0)); cbn [andb]; lia.
  - unfold occ in *. cbn [app count_occ]. rewrite IH.
    destruct (Nat.eq_dec lo i) as [->|N].
    + destruct (Nat.leb_spec (S i) i); [lia|]. rewrite Nat.leb_refl.
      destruct (Nat.ltb_spec i (i + S m)); [|lia]. reflexivity.
    + destruct (Nat.leb_spec (S lo) i); destruct (Nat.leb_spec lo i); destruct (Nat.ltb_spec i (lo + S m));
        destruct (Nat.ltb_spec i (S lo + m)); cbn [andb]; lia.
Qed.
Lemma serial_complete n : complete n (serial n).
Proof. intros i. unfold serial. fold (occ (flat_map (fun i => [i; i]) (seq 0 n)) i). rewrite serial_complete_gen. reflexivity. Qed.

Lemma run_complete l : complete (length inputs) l ->
  exists s, batch_run build inputs l (batch_start dflt inputs) = Ok s /\
    forallb is_finished (b_pcs s) = true /\
    b_out s = map (fun a => match build a with Val b => b | Exc _ => dflt end) inputs /\
    b_errs s = map (fun a => match build a with Val _ => None | Exc e => Some e end) inputs.
Proof.
  intros C. destruct (run_ok l (fun _ => 0) (batch_start dflt inputs) inv_start) as (s & E & I).
  { intros i. unfold occ. rewrite (C i). cbn. lia. }
  exists s. split; [exact E|]. apply (finished_all _ _ I). intros i. unfold occ. rewrite (C i). reflexivity.
Qed.
End Batch.

Lemma collect_spec {A B} (build : A -> attempt B) dflt inputs :
  (let* _ := rethrow (map (fun a => match build a with Val _ => None | Exc e => Some e end) inputs) in
   Ok (map (fun a => match build a with Val b => b | Exc _ => dflt end) inputs)) = in_order build inputs.
Proof.
  induction inputs as [|a l IH]; cbn [map in_order rethrow bind]; [reflexivity|].
  destruct (build a); [|reflexivity]. rewrite <- IH.
  destruct (rethrow _); reflexivity.
Qed.

Lemma batch_in_order {A B} (build : A -> attempt B) dflt inputs min_size sched :
  complete (length inputs) sched -> build_batch build dflt min_size sched inputs = in_order build inputs.
Proof.
  intros C. unfold build_batch.
  assert (C' : complete (length inputs) (if min_size <=? length inputs then sched else serial (length inputs))).
  { destruct (min_size <=? _); [exact C|apply serial_complete]. }
  destruct (run_complete build dflt inputs _ C') as (s & E & F & O & X).
  rewrite E. cbn [bind]. rewrite F. cbn [negb]. rewrite X, O. apply collect_spec.
Qed.

Lemma in_order_values {A B} (build : A -> attempt B) inputs bs :
  map build inputs = map Val bs -> in_order build inputs = Ok bs.
Proof.
  revert bs. induction inputs as [|a l IH]; intros [|b bs] E; try discriminate; [reflexivity|].
  cbn [map] in E. injection E as E1 E2. cbn [in_order]. rewrite E1, (IH bs E2). reflexivity.
Qed.
Lemma in_order_first {A B} (build : A -> attempt B) inputs i e :
  nth_error (map build inputs) i = Some (Exc e) ->
  (forall j, j < i -> exists b, nth_error (map build inputs) j = Some (Val b)) -> in_order build inputs = Throw e.
Proof.
  revert i. induction inputs as [|a l IH]; intros [|i] E J; try discriminate.
  - cbn in E. injection E as E. cbn [in_order]. rewrite E. reflexivity.
  - cbn in E. destruct (J 0 ltac:(lia)) as (b & Hb). cbn in Hb. injection Hb as Hb. cbn [in_order]. rewrite Hb.
    rewrite (IH i E); [reflexivity|]. intros j Hj. apply (J (S j)). lia.
Qed.

Lemma batch_values {A B} (build : A -> attempt B) dflt inputs bs min_size sched :
  complete (length inputs) sched -> map build inputs = map Val bs ->
  build_batch build dflt min_size sched inputs = Ok bs.
Proof. intros C E. rewrite batch_in_order by exact C. apply in_order_values, E. Qed.
Lemma batch_first {A B} (build : A -> attempt B) dflt inputs i e min_size sched :
  complete (length inputs) sched -> nth_error (map build inputs) i = Some (Exc e) ->
  (forall j, j < i -> exists b, nth_error (map build inputs) j = Some (Val b)) ->
  build_batch build dflt min_size sched inputs = Throw e.
Proof. intros C E J. rewrite batch_in_order by exact C. eapply in_order_first; eauto. Qed.

Lemma batch_slots {A B} (build : A -> attempt B) dflt inputs sched s i b :
  batch_run build inputs sched (batch_start dflt inputs) = Ok s -> nth_error (b_out s) i = Some b ->
  b = dflt \/ exists a, nth_error inputs i = Some a /\ build a = Val b.
Proof.
  intros E Hb. pose proof (run_inv build dflt inputs sched _ _ _ (inv_start build dflt inputs) E) as (L1 & _ & _ & _ & H).
  assert (Li : i < length inputs) by (rewrite <- L1; apply nth_error_Some; congruence).
  destruct (nth_error inputs i) as [a|] eqn:Ea; [|apply nth_error_None in Ea; lia].
  destruct (H i a Ea) as (o & e & p & H1 & _ & _ & Hs). assert (o = b) by congruence. subst o.
  destruct (0 + occ sched i) as [|[|[|k]]]; cbn in Hs; try tauto.
  destruct Hs as (_ & Hs). destruct (build a) eqn:Eb; destruct Hs as (-> & _); [right|left; reflexivity].
  exists a. auto.
Qed.

Lemma count_sum n l : (forall i, count_occ Nat.eq_dec l i <= if i <? n then 2 else 0) -> length l <= 2 * n.
Proof.
  revert l. induction n as [|n IH]; intros l H.
  - destruct l as [|j l]; [cbn; lia|]. specialize (H j). cbn [count_occ] in H. destruct (Nat.eq_dec j j); [|congruence]. cbn in H. lia.
  - assert (S1 : forall l, length l = count_occ Nat.eq_dec l n + length (filter (fun j => negb (j =? n)) l)).
    { clear. induction l as [|j l IH]; [reflexivity|]. cbn [length count_occ filter]. destruct (Nat.eq_dec j n) as [->|N].
      - rewrite Nat.eqb_refl. cbn. lia.
      - destruct (Nat.eqb_spec j n); [congruence|]. cbn. lia. }
    rewrite S1. pose proof (H n) as Hn. destruct (Nat.ltb_spec n (S n)); [|lia].
    enough (length (filter (fun j => negb (j =? n)) l) <= 2 * n) by lia. apply IH. intros i.
    assert (Hf : count_occ Nat.eq_dec (filter (fun j => negb (j =? n)) l) i = if i =? n then 0 else count_occ Nat.eq_dec l i).
    { clear. induction l as [|j l IH]; cbn [filter count_occ]; [destruct (i =? n); reflexivity|].
      destruct (Nat.eqb_spec j n) as [->|N]; cbn [negb].
      - rewrite IH. destruct (Nat.eq_dec n i) as [->|N]; [rewrite Nat.eqb_refl; reflexivity|]. reflexivity.
      - cbn [count_occ]. rewrite IH. destruct (Nat.eq_dec j i) as [->|N2]; [|reflexivity].
        destruct (Nat.eqb_spec i n); [congruence|reflexivity]. }
    rewrite Hf. pose proof (H i) as Hi. destruct (Nat.eqb_spec i n) as [E|N]; [destruct (i <? n); lia|].
    destruct (Nat.ltb_spec i (S n)); destruct (Nat.ltb_spec i n); lia.
Qed.

Lemma batch_bounded {A B} (build : A -> attempt B) dflt inputs sched s :
  batch_run build inputs sched (batch_start dflt inputs) = Ok s -> length sched <= 2 * length inputs.
Proof.
  intros E. pose proof (run_inv build dflt inputs sched _ _ _ (inv_start build dflt inputs) E) as (L1 & _ & _ & Z & H).
  apply count_sum. intros i. fold (occ sched i). destruct (Nat.ltb_spec i (length inputs)) as [Hi|Hi].
  - destruct (nth_error inputs i) as [a|] eqn:Ea; [|apply nth_error_None in Ea; lia].
    destruct (H i a Ea) as (o & e & p & _ & _ & _ & Hs). cbn in Hs. destruct (occ sched i) as [|[|[|k]]]; try lia. destruct Hs.
  - specialize (Z i Hi). cbn in Z. lia.
Qed.

Lemma batch_progress {A B} (build : A -> attempt B) dflt inputs sched s :
  batch_run build inputs sched (batch_start dflt inputs) = Ok s -> forallb is_finished (b_pcs s) = false ->
  exists i, can_step build inputs s i.
Proof.
  intros E F. pose proof (run_inv build dflt inputs sched _ _ _ (inv_start build dflt inputs) E) as I.
  pose proof I as (L1 & L2 & L3 & Z & H).
  assert (X : exists i p, nth_error (b_pcs s) i = Some p /\ is_finished p = false).
  { clear - F. induction (b_pcs s) as [|p l IH]; [discriminate|]. cbn in F. destruct (is_finished p) eqn:P.
    - destruct (IH F) as (i & q & Hq). exists (S i), q. exact Hq.
    - exists 0, p. auto. }
  destruct X as (i & p & Hp & Fp). exists i.
  assert (Li : i < length inputs) by (rewrite <- L3; apply nth_error_Some; congruence).
  destruct (nth_error inputs i) as [a|] eqn:Ea; [|apply nth_error_None in Ea; lia].
  destruct (H i a Ea) as (o & e & q & _ & _ & H3 & Hs). assert (q = p) by congruence. subst q.
  assert (C : 0 + occ sched i < 2).
  { destruct (0 + occ sched i) as [|[|[|k]]]; try lia; [|destruct Hs]. destruct Hs as (-> & _). discriminate. }
  destruct (step_ok build dflt inputs _ _ _ I Li C) as (s' & E' & _). exists s'. exact E'.
Qed.

Lemma batch_unfinished {A B} (build : A -> attempt B) dflt inputs sched s :
  batch_run build inputs sched (batch_start dflt inputs) = Ok s ->
  (forallb is_finished (b_pcs s) = true <-> complete (length inputs) sched).
Proof.
  intros E. pose proof (run_inv build dflt inputs sched _ _ _ (inv_start build dflt inputs) E) as I.
  pose proof I as (L1 & L2 & L3 & Z & H). split.
  - intros F i. fold (occ sched i). destruct (Nat.ltb_spec i (length inputs)) as [Hi|Hi]; [|apply (Z i Hi)].
    destruct (nth_error inputs i) as [a|] eqn:Ea; [|apply nth_error_None in Ea; lia].
    destruct (H i a Ea) as (o & e & p & _ & _ & H3 & Hs).
    assert (P : is_finished p = true) by (eapply forallb_forall; [exact F|]; eapply nth_error_In, H3).
    cbn in Hs. destruct (occ sched i) as [|[|[|k]]]; try (destruct Hs as (-> & _); discriminate); [reflexivity|destruct Hs].
  - intros C. apply (finished_all build dflt inputs _ _ I). intros i. cbn. unfold occ. rewrite (C i). reflexivity.
Qed.

(* transform *)
Lemma transform_serial_values {A B} (build : A -> attempt B) inputs bs out :
  map build inputs = map Val bs -> transform_serial build inputs out = Done (out ++ bs).
Proof.
  revert bs out. induction inputs as [|a l IH]; intros [|b bs] out E; try discriminate.
  - cbn. rewrite app_nil_r. reflexivity.
  - cbn [map] in E. injection E as E1 E2. cbn [transform_serial]. rewrite E1, (IH bs _ E2), <- app_assoc. reflexivity.
Qed.
Lemma transform_same {A B} (build : A -> attempt B) inputs l :
  (forall a, In a inputs -> exists b, build a = Val b) ->
  forall s, (forall i e, nth_error (b_pcs s) i <> Some (Computed (Exc e))) ->
  transform_run build inputs l s = match batch_run build inputs l s with Ok s' => Ok (Some s') | Throw e => Throw e | Undef w => Undef w | Fuel => Fuel end.
Proof.
  intros V. induction l as [|j l IH]; intros s HS; [reflexivity|].
  cbn [transform_run batch_run]. unfold transform_step, batch_step.
  destruct (get (b_pcs s) j) as [p| | |] eqn:G; cbn [bind]; try reflexivity.
  apply get_some in G. destruct p as [|[b|e]|]; cbn [bind].
  - destruct (get inputs j) as [a| | |] eqn:Ga; cbn [bind]; try reflexivity.
    destruct (set (b_pcs s) j (Computed (build a))) as [pcs| | |] eqn:Sx; cbn [bind]; try reflexivity.
    apply set_inv in Sx as (Lj & ->). apply IH. cbn [b_pcs]. intros i e. rewrite nth_error_upd.
    destruct ((j =? i) && (j <? length (b_pcs s))); [|apply HS].
    destruct (V a) as (b & Hb). { apply get_some in Ga. eapply nth_error_In; eauto. } rewrite Hb. congruence.
  - destruct (set (b_out s) j b) as [o| | |] eqn:So; cbn [bind]; try reflexivity.
    destruct (set (b_pcs s) j Finished) as [pcs| | |] eqn:Sx; cbn [bind]; try reflexivity.
    apply set_inv in Sx as (Lj & ->). apply IH. cbn [b_pcs]. intros i e. rewrite nth_error_upd.
    destruct ((j =? i) && (j <? length (b_pcs s))); [congruence|apply HS].
  - exfalso. exact (HS _ _ G).
  - reflexivity.
Qed.
Lemma transform_values {A B} (build : A -> attempt B) dflt inputs bs min_size sched :
  complete (length inputs) sched -> map build inputs = map Val bs ->
  transform_threshold build dflt min_size sched inputs = Done bs.
Proof.
  intros C E. unfold transform_threshold. destruct (min_size <=? length inputs).
  - rewrite transform_same.
    + destruct (run_complete build dflt inputs sched C) as (s & R & F & O & _). rewrite R, F, O. f_equal.
      clear - E. revert bs E. induction inputs as [|a l IH]; intros [|b bs] E; try discriminate; [reflexivity|].
      cbn [map] in *. injection E as E1 E2. rewrite E1, (IH bs E2). reflexivity.
    + intros a Ha. apply (in_map build) in Ha. rewrite E in Ha. apply in_map_iff in Ha as (b & Hb & _). eauto.
    + intros i e. unfold batch_start. cbn [b_pcs]. intros K. assert (i < length inputs).
      { rewrite <- (filled_length (length inputs) (@Waiting B)). apply nth_error_Some. congruence. }
      rewrite nth_filled in K by assumption. discriminate.
  - rewrite (transform_serial_values build inputs bs []); [reflexivity|exact E].
Qed.
