(** One step of unify_knots and the whole pass over one knot list. *)
From Coq Require Import List Arith ZArith Reals Lia Lra Bool Permutation.
From Verif Require Import Model_Base Spec_Base Spec_Basis Spec_Knots Spec_Eval Spec_Rational Spec_Elevate
  Model_Basis Model_Knots Model_Removal Model_Curve Model_Rational Model_Elevate Model_Unify
  Proof_Base Proof_Basis Proof_Eval Proof_Insert Proof_Boehm Proof_PropInsert Proof_Curve
  Proof_Knots Proof_Builders Proof_Elevate2 Proof_Elevate3 Proof_Elevate4 Proof_PropRemove2 Proof_Unify.
Import ListNotations.
Local Open Scope R_scope.

Lemma nth_insert {A} (v : list A) j x i d : (j <= length v)%nat ->
  nth i (insert_at v j x) d = if (i <? j)%nat then nth i v d else if (i =? j)%nat then x else nth (i - 1) v d.
Proof.
  intros Hj. unfold insert_at. assert (L : length (firstn j v) = j) by (rewrite firstn_length; lia).
  destruct (Nat.ltb_spec i j) as [H|H].
  - rewrite app_nth1 by lia. rewrite <- (firstn_skipn j v) at 2. rewrite app_nth1 by lia. reflexivity.
  - rewrite app_nth2 by lia. rewrite L. destruct (Nat.eqb_spec i j) as [->|N].
    + rewrite Nat.sub_diag. reflexivity.
    + replace (i - j)%nat with (S (i - 1 - j)) by lia. cbn [nth].
      rewrite <- (firstn_skipn j v) at 2. rewrite app_nth2 by lia. rewrite L. reflexivity.
Qed.
Lemma insert_length {A} (v : list A) j x : length (insert_at v j x) = S (length v).
Proof. rewrite (Permutation_length (insert_at_perm v j x)). reflexivity. Qed.
Lemma map_insert {A B} (f : A -> B) v j x : map f (insert_at v j x) = insert_at (map f v) j (f x).
Proof. unfold insert_at. rewrite map_app, firstn_map. cbn [map]. rewrite skipn_map. reflexivity. Qed.
Lemma map_upd {A B} (f : A -> B) l i x : map f (upd l i x) = upd (map f l) i (f x).
Proof. revert i; induction l as [|y l IH]; intros [|i]; cbn; try reflexivity. rewrite IH. reflexivity. Qed.
Lemma upd_same_nth {A} (l : list A) i x d : (i < length l)%nat -> nth i l d = x -> upd l i x = l.
Proof.
  revert i; induction l as [|y l IH]; intros [|i] Hi E; cbn in *; try lia; [congruence|].
  rewrite IH; auto; lia.
Qed.
Lemma nd_nodup_si U : nondecreasing U -> NoDup U -> strictly_increasing U.
Proof.
  intros H N i j Hij Hj. specialize (H i j ltac:(lia) Hj). destruct (Req_dec (kn U i) (kn U j)) as [E|]; [|lra].
  exfalso. apply (proj1 (NoDup_nth U 0) N i j) in E; lia.
Qed.

Section AtR.
Variable eps : R.
Local Hint Extern 0 (Num R) => exact (NumR eps) : typeclass_instances.

Lemma find_some (u : R) (km : list (R * nat)) : forall i, find_knot u km = Some i ->
  (i < length km)%nat /\ Rabs (kn (map fst km) i - u) < eps.
Proof.
  induction km as [|[v s] km IH]; intros i H; [discriminate|]. cbn [find_knot] in H. rewrite nabs_R in H. revert H. nsimp.
  destruct (Rltb_spec (Rabs (v - u)) eps) as [L|L].
  - intros H. injection H as <-. split; [simpl; lia|exact L].
  - destruct (find_knot u km) as [j|]; [|discriminate]. cbn [option_map]. intros H. injection H as <-.
    destruct (IH j eq_refl) as (A & B). split; [simpl; lia|exact B].
Qed.
Lemma find_none (u : R) (km : list (R * nat)) : 0 < eps -> find_knot u km = None -> ~ In u (map fst km).
Proof.
  intros He. induction km as [|[v s] km IH]; intros H; [intros []|]. cbn [find_knot] in H. rewrite nabs_R in H. revert H. nsimp.
  destruct (Rltb_spec (Rabs (v - u)) eps) as [L|L]; [discriminate|].
  destruct (find_knot u km) as [j|]; [discriminate|]. intros _ [E|E].
  - cbn [fst] in E. subst v. replace (u - u) with 0 in L by ring. rewrite Rabs_R0 in L. lra.
  - apply IH; auto.
Qed.

Variable S : R -> Prop.
Hypothesis He : 0 < eps.
Hypothesis Apart : forall x y, S x -> S y -> x = y \/ eps < Rabs (x - y).

Definition inS (km : list (R * nat)) : Prop := forall x, In x (map fst km) -> S x.
Definition fits (p : nat) (a b : R) (um : R * nat) : Prop :=
  S (fst um) /\ (((fst um = a \/ fst um = b) /\ snd um = (p + 1)%nat) \/ (a < fst um < b /\ (1 <= snd um <= p)%nat)).

Lemma lo_hi p km : kmok p km -> lo km < hi km.
Proof. intros H. pose proof (kmok_len p km H). apply (kmok_si p km H); rewrite ?map_length; lia. Qed.

Lemma mult_of p km u s : kmok p km -> In (u, s) km -> count (fk km) u = s.
Proof.
  intros H Hu. apply (In_nth _ _ (0, 0%nat)) in Hu as (i & Hi & E).
  assert (E1 : kn (map fst km) i = u) by (unfold kn; change 0 with (fst (0, 0%nat)); rewrite map_nth, E; reflexivity).
  assert (E2 : nth i (map snd km) 0%nat = s).
  { change 0%nat with (snd (0, 0%nat)) at 1. rewrite map_nth, E. reflexivity. }
  rewrite <- E1. unfold fk. rewrite re_count_at; [exact E2|apply H|apply (kmok_si p), H|rewrite map_length; exact Hi].
Qed.

(** Raising the knot at position i to m *)
Lemma raise_found p km P i u s m : kmok p km -> inS km -> length P = npol p km ->
  nth_error km i = Some (u, s) -> fits p (lo km) (hi km) (u, m) -> (s < m)%nat ->
  exists idx P', insert_knots u p (m - s) (fk km) P = Ok (idx, fk (upd km i (u, m)), P') /\
    kmok p (upd km i (u, m)) /\ inS (upd km i (u, m)) /\ length P' = npol p (upd km i (u, m)) /\
    lo (upd km i (u, m)) = lo km /\ hi (upd km i (u, m)) = hi km /\
    (forall x, mlt (upd km i (u, m)) x = max (mlt km x) (if Req_EM_T x u then m else 0)) /\
    same_cv p km P (upd km i (u, m)) P'.
Proof.
  intros HC HS HP En (Su & Hf) Hlt. cbn [fst snd] in *.
  assert (Hin : In (u, s) km) by (apply nth_error_In in En; exact En).
  assert (Hi : (i < length km)%nat) by (apply nth_error_Some; rewrite En; discriminate).
  pose proof (kmok_pair p km u s HC Hin) as Hp. pose proof (lo_hi p km HC) as Hlh.
  destruct Hf as [(Eu & ->)|(Hu & Hm)].
  { exfalso. destruct Hp as [(_ & ->)|(Hu & _)]; [lia|lra]. }
  pose proof (mult_of p km u s HC Hin) as Ec.
  destruct (raise eps p km u (m - s) P HC HP Hu) as (idx & k' & P' & Ei & Nd & Lk & LP & Cn & Hab & Sm); [lia|lia|].
  set (km' := upd km i (u, m)).
  assert (F1 : map fst km' = map fst km).
  { unfold km'. rewrite map_upd. apply (upd_same_nth _ _ _ 0); [rewrite map_length; exact Hi|]. cbn [fst].
    apply nth_error_nth. rewrite nth_error_map, En. reflexivity. }
  assert (F2 : map snd km' = upd (map snd km) i m) by (unfold km'; rewrite map_upd; reflexivity).
  assert (Ki : kn (map fst km) i = u).
  { unfold kn. apply nth_error_nth. rewrite nth_error_map, En. reflexivity. }
  assert (Ms : nth i (map snd km) 0%nat = s).
  { apply nth_error_nth. rewrite nth_error_map, En. reflexivity. }
  assert (Hin2 : (0 < i < length (map fst km) - 1)%nat).
  { rewrite map_length. split.
    - destruct i as [|i]; [|lia]. unfold lo in Hu. lra.
    - destruct (Nat.eq_dec i (length km - 1)) as [->|]; [|lia]. unfold hi in Hu. lra. }
  assert (HC' : kmok p km').
  { unfold kmok. rewrite F1, F2. apply ckn_upd; auto. }
  assert (Ek : k' = fk km').
  { unfold fk. rewrite F1, F2. replace m with (nth i (map snd km) 0 + (m - s))%nat by lia.
    apply re_insert; auto; [apply HC|apply HC|rewrite map_length; exact Hi|]. rewrite Ki. exact Hab. }
  subst k'. exists idx, P'. split; [exact Ei|]. split; [exact HC'|].
  split; [unfold inS; rewrite F1; exact HS|].
  assert (Lp : length P' = npol p km').
  { rewrite LP, HP. pose proof (ck_len p _ _ HC) as L1. pose proof (ck_len p _ _ HC') as L2.
    fold (fk km) in L1. fold (fk km') in L2. unfold npol. lia. }
  split; [exact Lp|]. split; [unfold lo; rewrite F1; reflexivity|].
  split; [unfold hi; rewrite F1; unfold km'; rewrite upd_length; reflexivity|].
  split; [|apply Sm; auto].
  intros x. rewrite !(kmok_mlt p) by assumption. rewrite Cn. destruct (Req_EM_T x u) as [->|]; lia.
Qed.

Lemma raise_new p km P u m : kmok p km -> inS km -> length P = npol p km ->
  ~ In u (map fst km) -> fits p (lo km) (hi km) (u, m) ->
  let km' := insert_at km (lower_bound (map fst km) u) (u, m) in
  exists idx P', insert_knots u p m (fk km) P = Ok (idx, fk km', P') /\
    kmok p km' /\ inS km' /\ length P' = npol p km' /\ lo km' = lo km /\ hi km' = hi km /\
    (forall x, mlt km' x = max (mlt km x) (if Req_EM_T x u then m else 0)) /\
    same_cv p km P km' P'.
Proof.
  intros HC HS HP Nu (Su & Hf) km'. cbn [fst snd] in *. pose proof (kmok_len p km HC) as L2.
  assert (Hlast : (length km - 1 < length (map fst km))%nat) by (rewrite map_length; lia).
  destruct Hf as [([Eu|Eu] & _)|(Hu & Hm)].
  { exfalso. apply Nu. rewrite Eu. apply nth_In. lia. }
  { exfalso. apply Nu. rewrite Eu. apply nth_In. lia. }
  assert (Ec : count (fk km) u = 0%nat) by (apply fk_count0, Nu).
  destruct (raise eps p km u m P HC HP Hu) as (idx & k' & P' & Ei & Nd & Lk & LP & Cn & Hab & Sm); [lia|lia|].
  pose proof (kmok_si p km HC) as Hsi.
  assert (Hnd : nondecreasing (map fst km)).
  { intros i j Hij Hj. destruct (Nat.eq_dec i j) as [->|]; [lra|]. apply Rlt_le, Hsi; auto; lia. }
  set (j := lower_bound (map fst km) u) in *.
  assert (Hj : (0 < j <= length km - 1)%nat).
  { pose proof (lb_le eps (map fst km) u) as H1. pose proof (lb_at eps (map fst km) u) as H2. pose proof (lb_below eps (map fst km) u) as H3.
    fold j in H1, H2, H3. rewrite map_length in *. unfold lo, hi in Hu. split.
    - destruct j as [|j']; [|lia]. specialize (H2 ltac:(lia)). lra.
    - destruct (Nat.le_gt_cases j (length km - 1)); [auto|exfalso]. specialize (H3 (length km - 1)%nat ltac:(lia)). lra. }
  assert (F1 : map fst km' = insert_at (map fst km) j u) by apply map_insert.
  assert (F2 : map snd km' = insert_at (map snd km) j m) by apply map_insert.
  assert (Lk' : length km' = Datatypes.S (length km)) by apply insert_length.
  assert (HC' : kmok p km').
  { pose proof HC as (A & B & _ & D & F & G). rewrite !map_length in *.
    split; [rewrite !map_length; reflexivity|]. split; [rewrite map_length; lia|].
    split. { rewrite F1. apply nd_nodup_si; [apply insert_at_sorted; exact Hnd|].
             apply (Permutation_NoDup (Permutation_sym (insert_at_perm _ _ _))). constructor; [exact Nu|apply si_nodup, Hsi]. }
    rewrite map_length, F2, Lk'.
    assert (Lj : (j <= length (map snd km))%nat) by (rewrite map_length; lia).
    split; [|split].
    - rewrite nth_insert by exact Lj. destruct (Nat.ltb_spec 0 j); [exact D|lia].
    - rewrite nth_insert by exact Lj. destruct (Nat.ltb_spec (Datatypes.S (length km) - 1) j); [lia|].
      destruct (Nat.eqb_spec (Datatypes.S (length km) - 1) j); [lia|].
      replace (Datatypes.S (length km) - 1 - 1)%nat with (length km - 1)%nat by lia. exact F.
    - intros i Hi. rewrite nth_insert by exact Lj. destruct (Nat.ltb_spec i j); [apply G; lia|].
      destruct (Nat.eqb_spec i j); [exact Hm|apply G; lia]. }
  assert (Ck : forall x, count (fk km') x = (count (fk km) x + if Req_EM_T x u then m else 0)%nat).
  { intros x. unfold km', insert_at. rewrite fk_app, fk_cons, !count_occ_app, count_repeat.
    rewrite <- (firstn_skipn j km) at 3. rewrite fk_app, count_occ_app. lia. }
  assert (Ek : k' = fk km').
  { apply sorted_count_eq; [exact Nd|apply (kmok_nd p), HC'|]. intros x. rewrite Cn, Ck. reflexivity. }
  subst k'. exists idx, P'. split; [exact Ei|]. split; [exact HC'|].
  split. { intros x Hx. rewrite F1 in Hx. apply (Permutation_in _ (insert_at_perm _ _ _)) in Hx. destruct Hx as [<-|Hx]; auto. }
  split. { rewrite LP, HP. pose proof (ck_len p _ _ HC) as Z1. pose proof (ck_len p _ _ HC') as Z2.
           fold (fk km) in Z1. fold (fk km') in Z2. unfold npol. lia. }
  assert (Lj1 : (j <= length (map fst km))%nat) by (rewrite map_length; lia).
  split. { unfold lo, kn. rewrite F1, nth_insert by exact Lj1. destruct (Nat.ltb_spec 0 j); [reflexivity|lia]. }
  split. { unfold hi, kn. rewrite F1, Lk', nth_insert by exact Lj1.
           destruct (Nat.ltb_spec (Datatypes.S (length km) - 1) j); [lia|].
           destruct (Nat.eqb_spec (Datatypes.S (length km) - 1) j); [lia|]. f_equal. lia. }
  split; [|apply Sm; auto].
  intros x. rewrite !(kmok_mlt p) by assumption. rewrite Ck. destruct (Req_EM_T x u) as [->|]; lia.
Qed.

Lemma step_ok p km P um : kmok p km -> inS km -> length P = npol p km -> fits p (lo km) (hi km) um ->
  exists km' P', unify_step p (km, fk km, P) um = Ok (km', fk km', P') /\
    kmok p km' /\ inS km' /\ length P' = npol p km' /\ lo km' = lo km /\ hi km' = hi km /\
    (forall x, mlt km' x = max (mlt km x) (if Req_EM_T x (fst um) then snd um else 0)) /\
    same_cv p km P km' P'.
Proof.
  intros HC HS HP Hf. destruct um as [u m]. cbn [fst snd unify_step]. pose proof (proj1 Hf) as Su. cbn [fst] in Su.
  destruct (find_knot u km) as [i|] eqn:Ef.
  - destruct (find_some u km i Ef) as (Hi & Hd). destruct (nth_error km i) as [[v s]|] eqn:En; [|apply nth_error_None in En; lia].
    assert (Ev : v = u).
    { assert (Kv : kn (map fst km) i = v) by (unfold kn; apply nth_error_nth; rewrite nth_error_map, En; reflexivity).
      rewrite Kv in Hd. destruct (Apart v u) as [E|E]; auto; [|lra]. apply HS. rewrite <- Kv. apply nth_In. rewrite map_length. exact Hi. }
    subst v. unfold get. rewrite En. cbn [bind]. destruct (Nat.ltb_spec s m) as [L|L].
    + destruct (raise_found p km P i u s m HC HS HP En Hf L) as (idx & P' & Ei & R). rewrite Ei. cbn [bind].
      exists (upd km i (u, m)), P'. split; [reflexivity|exact R].
    + exists km, P. split; [reflexivity|]. split; [exact HC|]. split; [exact HS|]. split; [exact HP|].
      split; [reflexivity|]. split; [reflexivity|]. split; [|apply same_cv_refl].
      intros x. destruct (Req_EM_T x u) as [->|]; [|lia]. rewrite (kmok_mlt p) by exact HC.
      rewrite (mult_of p km u s HC) by (apply nth_error_In in En; exact En). lia.
  - destruct (raise_new p km P u m HC HS HP (find_none u km He Ef) Hf) as (idx & P' & Ei & R). rewrite Ei. cbn [bind].
    exists (insert_at km (lower_bound (map fst km) u) (u, m)), P'. split; [reflexivity|exact R].
Qed.

Lemma into_ok p kin : forall km P, kmok p km -> inS km -> length P = npol p km -> Forall (fits p (lo km) (hi km)) kin ->
  exists km' P', unify_into p (km, fk km, P) kin = Ok (km', fk km', P') /\
    kmok p km' /\ inS km' /\ length P' = npol p km' /\ lo km' = lo km /\ hi km' = hi km /\
    (forall x, mlt km' x = max (mlt km x) (mlt kin x)) /\ same_cv p km P km' P'.
Proof.
  induction kin as [|um kin IH]; intros km P HC HS HP Hf.
  - exists km, P. split; [reflexivity|]. split; [exact HC|]. split; [exact HS|]. split; [exact HP|].
    split; [reflexivity|]. split; [reflexivity|]. split; [intros x; unfold mlt; cbn; lia|apply same_cv_refl].
  - inversion Hf as [|? ? F1 F2]; subst. destruct (step_ok p km P um HC HS HP F1) as (km1 & P1 & E1 & C1 & S1 & L1 & A1 & B1 & M1 & V1).
    destruct (IH km1 P1 C1 S1 L1) as (km2 & P2 & E2 & C2 & S2 & L2 & A2 & B2 & M2 & V2); [rewrite A1, B1; exact F2|].
    exists km2, P2. unfold unify_into in *. cbn [foldM]. rewrite E1. cbn [bind]. split; [exact E2|].
    split; [exact C2|]. split; [exact S2|]. split; [exact L2|]. split; [congruence|]. split; [congruence|].
    split; [|apply (same_cv_trans p km P km1 P1); auto].
    intros x. rewrite M2, M1. destruct um as [u m]. rewrite mlt_cons. cbn [fst snd]. lia.
Qed.
End AtR.
