(** Total views of the heap, loops of faces, getFaceEdges. *)
From Coq Require Import List Arith Lia Bool.
From Verif Require Import Model_Base Proof_Base Model_Mesh Spec_Mesh.
Import ListNotations.
Local Open Scope nat_scope.

Lemma ptr_eqb_spec a b : reflect (a = b) (ptr_eqb a b).
Proof.
  destruct a as [a|], b as [b|]; cbn; try (constructor; congruence).
  destruct (Nat.eqb_spec a b); constructor; congruence.
Qed.
Lemma ptr_eqb_refl a : ptr_eqb a a = true.
Proof. destruct (ptr_eqb_spec a a); congruence. Qed.

Lemma nth_error_nth0 {A} (l : list A) i d : i < length l -> nth_error l i = Some (nth i l d).
Proof. apply nth_error_nth'. Qed.
Lemma nth_error_some_nth {A} (l : list A) i a d : nth_error l i = Some a -> i < length l /\ nth i l d = a.
Proof.
  intros H. split; [apply nth_error_Some; congruence|]. now apply nth_error_nth.
Qed.

Definition dE : hedge := mkhe None None None None None.

Section Mesh.
Context {C : Type}.
Implicit Types (h : heap C) (fs l : list nat) (f e o v : nat).

Definition ne h := length (h_e h).
Definition nv h := length (h_v h).
Definition nf h := length (h_f h).
Definition E h e : hedge := nth e (h_e h) dE.
Definition F h f : ptr := nth f (h_f h) None.
Definition en h e : ptr := he_vertex (E h e).
Definition fc h e : ptr := he_face (E h e).
Definition nx h e : ptr := he_next (E h e).
Definition pv h e : ptr := he_prev (E h e).
Definition op h e : ptr := he_opp (E h e).
Definition st h e : ptr := match pv h e with Some p => en h p | None => None end.

Lemma is_edge_iff h e r : is_edge h e r <-> e < ne h /\ E h e = r.
Proof.
  unfold is_edge, ne, E. split.
  - intros H. apply (nth_error_some_nth _ _ _ dE) in H. exact H.
  - intros [H <-]. now apply nth_error_nth0.
Qed.
Lemma ends_iff h e v : ends h e v <-> e < ne h /\ en h e = Some v /\ v < nv h.
Proof.
  unfold ends. split.
  - intros (r & H & H1 & H2). apply is_edge_iff in H as [H <-]. auto.
  - intros (H & H1 & H2). exists (E h e). rewrite is_edge_iff. auto.
Qed.
Lemma starts_iff h e v : starts h e v <-> e < ne h /\ st h e = Some v /\ v < nv h /\ exists p, pv h e = Some p /\ p < ne h.
Proof.
  unfold starts. split.
  - intros (r & p & H & H1 & H2). apply is_edge_iff in H as [H <-]. apply ends_iff in H2 as (A & B & D).
    unfold st. unfold pv at 1. rewrite H1. eauto 6.
  - intros (H & H1 & H2 & p & Hp & Hq). exists (E h e), p. rewrite is_edge_iff, ends_iff.
    unfold st in H1. rewrite Hp in H1. auto.
Qed.
Lemma opp_iff h e (o : ptr) : opp_is h e o <-> e < ne h /\ op h e = o.
Proof.
  unfold opp_is. split.
  - intros (r & H & H1). apply is_edge_iff in H as [H <-]. auto.
  - intros (H & H1). exists (E h e). rewrite is_edge_iff. auto.
Qed.
Lemma face_iff h e (o : ptr) : face_is h e o <-> e < ne h /\ fc h e = o.
Proof.
  unfold face_is. split.
  - intros (r & H & H1). apply is_edge_iff in H as [H <-]. auto.
  - intros (H & H1). exists (E h e). rewrite is_edge_iff. auto.
Qed.
Lemma next_iff h e (o : ptr) : next_is h e o <-> e < ne h /\ nx h e = o.
Proof.
  unfold next_is. split.
  - intros (r & H & H1). apply is_edge_iff in H as [H <-]. auto.
  - intros (H & H1). exists (E h e). rewrite is_edge_iff. auto.
Qed.
Lemma prev_iff h e (o : ptr) : prev_is h e o <-> e < ne h /\ pv h e = o.
Proof.
  unfold prev_is. split.
  - intros (r & H & H1). apply is_edge_iff in H as [H <-]. auto.
  - intros (H & H1). exists (E h e). rewrite is_edge_iff. auto.
Qed.

Lemma get_e_ok h e : e < ne h -> get_e h e = Ok (E h e).
Proof. intros H. unfold get_e, get, E. now rewrite (nth_error_nth0 _ _ dE H). Qed.
Lemma get_f_ok h f : f < nf h -> get_f h f = Ok (F h f).
Proof. intros H. unfold get_f, get, F. now rewrite (@nth_error_nth0 ptr _ _ None H). Qed.
Lemma get_e_inv h e r : get_e h e = Ok r -> e < ne h /\ r = E h e.
Proof.
  unfold get_e, get. destruct (nth_error (h_e h) e) eqn:H; [|discriminate]. intros [= <-].
  apply (nth_error_some_nth _ _ _ dE) in H. destruct H as [H <-]. auto.
Qed.
Lemma end_of_ok h e v : e < ne h -> en h e = Some v -> end_of h e = Ok v.
Proof. intros H H1. unfold end_of. rewrite get_e_ok by auto. cbn [bind]. unfold en in H1. now rewrite H1. Qed.
Lemma next_of_ok h e x : e < ne h -> nx h e = Some x -> next_of h e = Ok x.
Proof. intros H H1. unfold next_of. rewrite get_e_ok by auto. cbn [bind]. unfold nx in H1. now rewrite H1. Qed.
Lemma prev_of_ok h e x : e < ne h -> pv h e = Some x -> prev_of h e = Ok x.
Proof. intros H H1. unfold prev_of. rewrite get_e_ok by auto. cbn [bind]. unfold pv in H1. now rewrite H1. Qed.
Lemma start_of_ok h e p v : e < ne h -> pv h e = Some p -> p < ne h -> en h p = Some v -> start_of h e = Ok v.
Proof. intros. unfold start_of. erewrite prev_of_ok by eauto. cbn [bind]. now apply end_of_ok. Qed.

(** ** Loops *)
Definition cyc l i := nth (i mod length l) l 0.
Definition floop h f l : Prop :=
  2 <= length l /\ NoDup l /\ f < nf h /\ F h f = hd_error l /\
  forall i, i < length l ->
    nth i l 0 < ne h /\ fc h (nth i l 0) = Some f /\
    nx h (nth i l 0) = Some (cyc l (i + 1)) /\
    pv h (nth i l 0) = Some (cyc l (i + length l - 1)) /\
    exists v, en h (nth i l 0) = Some v /\ v < nv h.

Lemma face_loop_iff h f l : face_loop h f l <-> floop h f l.
Proof.
  unfold face_loop, floop. split.
  - intros (H1 & H2 & H3 & H4). split; [auto|]. split; [auto|].
    apply (@nth_error_some_nth ptr _ _ _ None) in H3. destruct H3 as [H3 H3'].
    split; [exact H3|]. split; [exact H3'|].
    intros i Hi. pose proof (nth_error_nth0 l i 0 Hi) as He.
    destruct (H4 _ _ He) as (A & B & D & v & G).
    apply face_iff in A. apply next_iff in B. apply prev_iff in D. apply ends_iff in G.
    rewrite (nth_error_nth0 l _ 0) in B by (apply Nat.mod_upper_bound; lia).
    rewrite (nth_error_nth0 l _ 0) in D by (apply Nat.mod_upper_bound; lia).
    unfold cyc. repeat split; try tauto. exists v; tauto.
  - intros (H1 & H2 & H3 & H3' & H4). split; [auto|]. split; [auto|]. split.
    + rewrite <- H3'. now apply nth_error_nth0.
    + intros i e He. apply (nth_error_some_nth _ _ _ 0) in He as [Hi <-].
      destruct (H4 i Hi) as (A & B & D & G & v & K1 & K2).
      rewrite face_iff, next_iff, prev_iff.
      rewrite (nth_error_nth0 l _ 0) by (apply Nat.mod_upper_bound; lia).
      rewrite (nth_error_nth0 l _ 0) by (apply Nat.mod_upper_bound; lia).
      unfold cyc in *. repeat split; auto. exists v. rewrite ends_iff. auto.
Qed.

Lemma cyc_lt l i : i < length l -> cyc l i = nth i l 0.
Proof. intros H. unfold cyc. now rewrite Nat.mod_small. Qed.
Lemma cyc_in l i : 0 < length l -> In (cyc l i) l.
Proof. intros H. unfold cyc. apply nth_In. apply Nat.mod_upper_bound. lia. Qed.

Lemma NoDup_bound (l : list nat) n : NoDup l -> (forall x, In x l -> x < n) -> length l <= n.
Proof.
  intros H H1. rewrite <- (seq_length n 0). apply NoDup_incl_length; auto.
  intros x Hx. apply in_seq. specialize (H1 x Hx). lia.
Qed.

Lemma floop_len h f l : floop h f l -> length l <= ne h.
Proof.
  intros (H1 & H2 & _ & _ & H4). apply NoDup_bound; auto.
  intros x Hx. apply (In_nth _ _ 0) in Hx as (i & Hi & <-). now apply H4.
Qed.

Lemma skipn_S_nth (l : list nat) i : i < length l -> skipn i l = nth i l 0 :: skipn (S i) l.
Proof.
  revert i; induction l as [|a l IH]; intros i Hi; [cbn in Hi; lia|].
  destruct i; [reflexivity|]. cbn in Hi. cbn [skipn nth]. rewrite IH by lia. reflexivity.
Qed.

Lemma walk_ok h f l : floop h f l -> forall fuel i, i < length l -> length l - i <= fuel ->
  walk fuel h (nth 0 l 0) (nth i l 0) = Ok (skipn i l).
Proof.
  intros (H1 & H2 & _ & _ & H4). induction fuel as [|k IH]; intros i Hi Hf; [lia|].
  destruct (H4 i Hi) as (A & _ & B & _). cbn [walk]. rewrite get_e_ok by auto. cbn [bind].
  unfold nx in B. rewrite B. rewrite skipn_S_nth by auto.
  unfold cyc.
  destruct (Nat.eq_dec (i + 1) (length l)) as [e|e].
  - rewrite e, Nat.mod_same by lia. rewrite Nat.eqb_refl.
    rewrite skipn_all2 by lia. reflexivity.
  - rewrite Nat.mod_small by lia.
    destruct (Nat.eqb_spec (nth (i + 1) l 0) (nth 0 l 0)) as [D|D].
    + exfalso. apply (proj1 (NoDup_nth l 0) H2) in D; lia.
    + replace (i + 1) with (S i) by lia. rewrite IH by lia. reflexivity.
Qed.

Lemma getFaceEdges_ok h f l : floop h f l -> getFaceEdges h f = Ok l.
Proof.
  intros H. pose proof (floop_len _ _ _ H) as HL. pose proof H as (H1 & H2 & H3 & H3' & H4).
  unfold getFaceEdges. rewrite get_f_ok by auto. cbn [bind]. rewrite H3'.
  destruct l as [|a l]; [cbn in H1; lia|]. cbn [hd_error].
  change a with (nth 0 (a :: l) 0). rewrite (walk_ok h f (a :: l) H); [reflexivity|cbn; lia|].
  unfold ne in HL. cbn [length] in *. lia.
Qed.

Lemma floop_fun h f l l' : floop h f l -> floop h f l' -> l = l'.
Proof. intros H H'. apply getFaceEdges_ok in H, H'. congruence. Qed.

(** the members of a loop *)
Lemma floop_in h f l e : floop h f l -> In e l -> e < ne h /\ fc h e = Some f /\
  (exists v, en h e = Some v /\ v < nv h) /\
  (exists x, nx h e = Some x /\ In x l /\ pv h x = Some e) /\
  (exists p, pv h e = Some p /\ In p l /\ nx h p = Some e).
Proof.
  intros (H1 & H2 & H3 & H3' & H4) He. apply (In_nth _ _ 0) in He as (i & Hi & <-).
  destruct (H4 i Hi) as (A & B & D & G & K). split; [auto|]. split; [auto|]. split; [auto|]. split.
  - exists (cyc l (i + 1)). split; [auto|]. split; [apply cyc_in; lia|].
    unfold cyc at 1. destruct (H4 ((i + 1) mod length l)) as (_ & _ & _ & Q & _).
    { apply Nat.mod_upper_bound; lia. }
    rewrite Q. f_equal. unfold cyc. destruct (Nat.eq_dec (i + 1) (length l)) as [e|e].
    + rewrite e, Nat.mod_same by lia. rewrite Nat.mod_small by lia. f_equal. lia.
    + rewrite (Nat.mod_small (i + 1)) by lia.
      replace (i + 1 + length l - 1) with (i + 1 * length l) by lia.
      rewrite Nat.mod_add by lia. now rewrite Nat.mod_small.
  - exists (cyc l (i + length l - 1)). split; [auto|]. split; [apply cyc_in; lia|].
    unfold cyc at 1. destruct (H4 ((i + length l - 1) mod length l)) as (_ & _ & Q & _).
    { apply Nat.mod_upper_bound; lia. }
    rewrite Q. f_equal. unfold cyc. destruct (Nat.eq_dec i 0) as [e|e].
    + subst i. rewrite (Nat.mod_small (0 + length l - 1)) by lia.
      replace (0 + length l - 1 + 1) with (length l) by lia. now rewrite Nat.mod_same by lia.
    + replace (i + length l - 1) with (i - 1 + 1 * length l) by lia.
      rewrite Nat.mod_add by lia. rewrite (Nat.mod_small (i - 1)) by lia.
      rewrite Nat.mod_small by lia. f_equal; lia.
Qed.
Lemma floop_st h f l e : floop h f l -> In e l -> exists v p, st h e = Some v /\ v < nv h /\ pv h e = Some p /\ In p l /\ p < ne h /\ en h p = Some v.
Proof.
  intros H He. destruct (floop_in _ _ _ _ H He) as (_ & _ & _ & _ & p & Hp & Ip & _).
  destruct (floop_in _ _ _ _ H Ip) as (Lp & _ & (v & Hv & Lv) & _).
  exists v, p. unfold st. rewrite Hp. auto 7.
Qed.
Lemma floop_face h f f' l l' e : floop h f l -> floop h f' l' -> In e l -> In e l' -> f = f'.
Proof.
  intros H H' I I'. apply (floop_in _ _ _ _ H) in I as (_ & I & _). apply (floop_in _ _ _ _ H') in I' as (_ & I' & _).
  congruence.
Qed.

(** The loop of a face, computed. *)
Definition Lf h f : list nat := match getFaceEdges h f with Ok l => l | _ => [] end.
Lemma Lf_ok h f l : floop h f l -> Lf h f = l.
Proof. intros H. unfold Lf. now rewrite (getFaceEdges_ok _ _ _ H). Qed.

(** Internal form of the invariant *)
Definition Live h fs e := exists f, In f fs /\ In e (Lf h f).
Definition minv h fs : Prop :=
  NoDup fs /\ (forall f, In f fs -> floop h f (Lf h f)) /\
  (forall e o, Live h fs e -> op h e = Some o ->
     Live h fs o /\ o <> e /\ op h o = Some e /\ en h o = st h e /\ st h o = en h e).

Lemma Live_iff h fs e : (forall f, In f fs -> floop h f (Lf h f)) -> (live h fs e <-> Live h fs e).
Proof.
  intros HL. split.
  - intros (f & l & I & H & Ie). exists f. split; auto. apply face_loop_iff in H. now rewrite (Lf_ok _ _ _ H).
  - intros (f & I & Ie). exists f, (Lf h f). split; auto. rewrite face_loop_iff. auto.
Qed.
Lemma Live_e h fs e : (forall f, In f fs -> floop h f (Lf h f)) -> Live h fs e ->
  e < ne h /\ (exists f, In f fs /\ fc h e = Some f /\ In e (Lf h f)) /\
  (exists v, en h e = Some v /\ v < nv h) /\
  (exists x, nx h e = Some x /\ Live h fs x /\ pv h x = Some e) /\
  (exists p, pv h e = Some p /\ Live h fs p /\ nx h p = Some e) /\
  (exists v, st h e = Some v /\ v < nv h).
Proof.
  intros HL (f & I & Ie). pose proof (HL f I) as H.
  destruct (floop_in _ _ _ _ H Ie) as (A & B & D & (x & X1 & X2 & X3) & (p & P1 & P2 & P3)).
  destruct (floop_st _ _ _ _ H Ie) as (v & _ & G1 & G2 & _).
  split; [auto|]. split; [eauto|]. split; [auto|]. split; [exists x; repeat split; auto; exists f; auto|].
  split; [exists p; repeat split; auto; exists f; auto|]. eauto.
Qed.
Lemma mesh_ok_iff h fs : mesh_ok h fs <-> minv h fs.
Proof.
  split.
  - intros (H1 & H2 & H3).
    assert (HL : forall f, In f fs -> floop h f (Lf h f)).
    { intros f If. destruct (H2 f If) as [l Hl]. apply face_loop_iff in Hl. now rewrite (Lf_ok _ _ _ Hl). }
    split; [auto|]. split; [auto|].
    intros e o He Ho. destruct (Live_e _ _ _ HL He) as (Le & _).
    destruct (H3 e o) as (A & B & D & a & b & S1 & S2 & S3 & S4).
    { now apply Live_iff. } { apply opp_iff; auto. }
    apply Live_iff in A; auto. apply opp_iff in D.
    apply starts_iff in S1, S3. apply ends_iff in S2, S4.
    destruct S1 as (_ & S1 & _), S2 as (_ & S2 & _), S3 as (_ & S3 & _), S4 as (_ & S4 & _).
    split; [exact A|]. split; [exact B|]. split; [tauto|]. split; congruence.
  - intros (H1 & HL & H3). split; [auto|]. split.
    { intros f If. exists (Lf h f). apply face_loop_iff. auto. }
    intros e o He Ho. apply Live_iff in He; auto. apply opp_iff in Ho as [Le Ho].
    destruct (H3 e o He Ho) as (A & B & D & G1 & G2).
    destruct (Live_e _ _ _ HL He) as (_ & _ & (b & Eb & Lb) & _ & (p & Pp & Lp & _) & a & Sa & La).
    destruct (Live_e _ _ _ HL A) as (Lo & _ & _ & _ & (q & Pq & Lq & _) & _).
    apply (Live_e _ _ _ HL) in Lp as (Lp & _). apply (Live_e _ _ _ HL) in Lq as (Lq & _).
    split; [now apply Live_iff|]. split; [auto|]. split; [now apply opp_iff|].
    exists a, b. rewrite !starts_iff, !ends_iff. rewrite G1, G2.
    split; [|split; [|split]]; repeat split; auto; [exists p|exists q]; auto.
Qed.
End Mesh.
