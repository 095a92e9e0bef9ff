(** Effect of the editors on the heap, field by field. *)
From Coq Require Import List Arith Lia Bool.
From Verif Require Import Model_Base Proof_Base Model_Mesh Spec_Mesh Proof_Mesh.
Import ListNotations.
Local Open Scope nat_scope.

Section Mesh.
Context {C : Type}.
Implicit Types (h : heap C) (fs l es : list nat) (f e o v x y : nat) (p : ptr).

Definition ve h v : ptr := match nth_error (h_v h) v with Some r => hv_edge r | None => None end.
Definition vco h v : option C := option_map hv_coords (nth_error (h_v h) v).
(** Pure updates *)
Definition ue h e r : heap C := mkh (upd (h_e h) e r) (h_v h) (h_f h).
Definition uf h f p : heap C := mkh (h_e h) (h_v h) (upd (h_f h) f p).
Definition ae h r : heap C := mkh (h_e h ++ [r]) (h_v h) (h_f h).
Definition af h p : heap C := mkh (h_e h) (h_v h) (h_f h ++ [p]).
Definition av h c : heap C := mkh (h_e h) (h_v h ++ [mkhv c None]) (h_f h).
Definition uv h v p : heap C :=
  match nth_error (h_v h) v with
  | Some r => mkh (h_e h) (upd (h_v h) v (mkhv (hv_coords r) p)) (h_f h)
  | None => h
  end.

Lemma ne_ue h e r : ne (ue h e r) = ne h. Proof. unfold ne, ue; cbn. apply upd_length. Qed.
Lemma nv_ue h e r : nv (ue h e r) = nv h. Proof. reflexivity. Qed.
Lemma nf_ue h e r : nf (ue h e r) = nf h. Proof. reflexivity. Qed.
Lemma F_ue h e r f : F (ue h e r) f = F h f. Proof. reflexivity. Qed.
Lemma ve_ue h e r v : ve (ue h e r) v = ve h v. Proof. reflexivity. Qed.
Lemma vco_ue h e r v : vco (ue h e r) v = vco h v. Proof. reflexivity. Qed.
Lemma E_ue h e r x : e < ne h -> E (ue h e r) x = if x =? e then r else E h x.
Proof.
  intros H. unfold E, ue; cbn [h_e]. rewrite nth_upd. unfold ne in H.
  rewrite (proj2 (Nat.ltb_lt _ _) H), andb_true_r, Nat.eqb_sym. reflexivity.
Qed.
Lemma ne_uf h f p : ne (uf h f p) = ne h. Proof. reflexivity. Qed.
Lemma nv_uf h f p : nv (uf h f p) = nv h. Proof. reflexivity. Qed.
Lemma nf_uf h f p : nf (uf h f p) = nf h. Proof. unfold nf, uf; cbn. apply upd_length. Qed.
Lemma E_uf h f p x : E (uf h f p) x = E h x. Proof. reflexivity. Qed.
Lemma ve_uf h f p v : ve (uf h f p) v = ve h v. Proof. reflexivity. Qed.
Lemma vco_uf h f p v : vco (uf h f p) v = vco h v. Proof. reflexivity. Qed.
Lemma F_uf h f p x : f < nf h -> F (uf h f p) x = if x =? f then p else F h x.
Proof.
  intros H. unfold F, uf; cbn [h_f]. rewrite nth_upd. unfold nf in H.
  rewrite (proj2 (Nat.ltb_lt _ _) H), andb_true_r, Nat.eqb_sym. reflexivity.
Qed.
Lemma ne_uv h v p : ne (uv h v p) = ne h. Proof. unfold uv. now destruct (nth_error (h_v h) v). Qed.
Lemma nv_uv h v p : nv (uv h v p) = nv h.
Proof. unfold uv, nv. destruct (nth_error (h_v h) v); auto. cbn. apply upd_length. Qed.
Lemma nf_uv h v p : nf (uv h v p) = nf h. Proof. unfold uv. now destruct (nth_error (h_v h) v). Qed.
Lemma E_uv h v p x : E (uv h v p) x = E h x. Proof. unfold uv. now destruct (nth_error (h_v h) v). Qed.
Lemma F_uv h v p x : F (uv h v p) x = F h x. Proof. unfold uv. now destruct (nth_error (h_v h) v). Qed.
Lemma ve_uv h v p x : v < nv h -> ve (uv h v p) x = if x =? v then p else ve h x.
Proof.
  intros H. unfold ve, uv. destruct (nth_error (h_v h) v) as [r|] eqn:E1.
  - cbn [h_v]. rewrite nth_error_upd. unfold nv in H.
    rewrite (proj2 (Nat.ltb_lt _ _) H), andb_true_r, Nat.eqb_sym.
    destruct (x =? v); reflexivity.
  - apply nth_error_None in E1. unfold nv in H. lia.
Qed.
Lemma vco_uv h v p x : vco (uv h v p) x = vco h x.
Proof.
  unfold vco, uv. destruct (nth_error (h_v h) v) as [r|] eqn:E1; auto.
  cbn [h_v]. rewrite nth_error_upd.
  destruct (Nat.eqb_spec v x) as [->|]; auto. rewrite E1. now destruct (x <? length (h_v h)).
Qed.
Lemma ne_ae h r : ne (ae h r) = S (ne h). Proof. unfold ne, ae; cbn. rewrite app_length; cbn; lia. Qed.
Lemma nv_ae h r : nv (ae h r) = nv h. Proof. reflexivity. Qed.
Lemma nf_ae h r : nf (ae h r) = nf h. Proof. reflexivity. Qed.
Lemma F_ae h r f : F (ae h r) f = F h f. Proof. reflexivity. Qed.
Lemma ve_ae h r v : ve (ae h r) v = ve h v. Proof. reflexivity. Qed.
Lemma vco_ae h r v : vco (ae h r) v = vco h v. Proof. reflexivity. Qed.
Lemma E_ae h r x : E (ae h r) x = if x =? ne h then r else E h x.
Proof.
  unfold E, ae, ne; cbn [h_e]. destruct (Nat.eqb_spec x (length (h_e h))) as [->|H].
  - rewrite app_nth2, Nat.sub_diag by lia. reflexivity.
  - destruct (lt_dec x (length (h_e h))); [rewrite app_nth1 by lia; reflexivity|].
    rewrite !nth_overflow; auto; [lia|]. rewrite app_length; cbn; lia.
Qed.
Lemma ne_af h p : ne (af h p) = ne h. Proof. reflexivity. Qed.
Lemma nv_af h p : nv (af h p) = nv h. Proof. reflexivity. Qed.
Lemma nf_af h p : nf (af h p) = S (nf h). Proof. unfold nf, af; cbn. rewrite app_length; cbn; lia. Qed.
Lemma E_af h p x : E (af h p) x = E h x. Proof. reflexivity. Qed.
Lemma ve_af h p v : ve (af h p) v = ve h v. Proof. reflexivity. Qed.
Lemma vco_af h p v : vco (af h p) v = vco h v. Proof. reflexivity. Qed.
Lemma F_af h p x : F (af h p) x = if x =? nf h then p else F h x.
Proof.
  unfold F, af, nf; cbn [h_f]. destruct (Nat.eqb_spec x (length (h_f h))) as [->|H].
  - rewrite app_nth2, Nat.sub_diag by lia. reflexivity.
  - destruct (lt_dec x (length (h_f h))); [rewrite app_nth1 by lia; reflexivity|].
    rewrite !nth_overflow; auto; [lia|]. rewrite app_length; cbn; lia.
Qed.
Lemma ne_av h c : ne (av h c) = ne h. Proof. reflexivity. Qed.
Lemma nv_av h c : nv (av h c) = S (nv h). Proof. unfold nv, av; cbn. rewrite app_length; cbn; lia. Qed.
Lemma nf_av h c : nf (av h c) = nf h. Proof. reflexivity. Qed.
Lemma E_av h c x : E (av h c) x = E h x. Proof. reflexivity. Qed.
Lemma F_av h c x : F (av h c) x = F h x. Proof. reflexivity. Qed.
Lemma ve_av h c x : ve (av h c) x = ve h x.
Proof.
  unfold ve, av; cbn [h_v]. destruct (lt_dec x (length (h_v h))) as [H|H].
  - now rewrite nth_error_app1 by lia.
  - rewrite nth_error_app2 by lia. rewrite (proj2 (nth_error_None (h_v h) x)) by lia.
    destruct (x - length (h_v h)) as [|k]; cbn; [reflexivity|]. now destruct k.
Qed.
Lemma vco_av h c x : vco (av h c) x = if x =? nv h then Some c else vco h x.
Proof.
  unfold vco, av, nv; cbn [h_v]. destruct (Nat.eqb_spec x (length (h_v h))) as [->|Hx].
  - rewrite nth_error_app2, Nat.sub_diag by lia. reflexivity.
  - destruct (lt_dec x (length (h_v h))) as [H|H].
    + now rewrite nth_error_app1 by lia.
    + rewrite !(proj2 (nth_error_None _ x)); auto; [lia|]. rewrite app_length; cbn; lia.
Qed.

(** Elementary operations *)
Lemma put_e_ok h e r : e < ne h -> put_e h e r = Ok (ue h e r).
Proof. intros H. unfold put_e. rewrite set_ok by auto. reflexivity. Qed.
Lemma put_f_ok h f p : f < nf h -> put_f h f p = Ok (uf h f p).
Proof. intros H. unfold put_f. rewrite set_ok by auto. reflexivity. Qed.
Definition wvert r (v : ptr) := mkhe v (he_face r) (he_next r) (he_prev r) (he_opp r).
Definition wnext r (v : ptr) := mkhe (he_vertex r) (he_face r) v (he_prev r) (he_opp r).
Definition wprev r (v : ptr) := mkhe (he_vertex r) (he_face r) (he_next r) v (he_opp r).
Definition wopp r (v : ptr) := mkhe (he_vertex r) (he_face r) (he_next r) (he_prev r) v.
Lemma set_vertex_ok h e p : e < ne h -> set_vertex h e p = Ok (ue h e (wvert (E h e) p)).
Proof. intros H. unfold set_vertex. rewrite get_e_ok by auto. cbn [bind]. now apply put_e_ok. Qed.
Lemma set_next_ok h e p : e < ne h -> set_next h e p = Ok (ue h e (wnext (E h e) p)).
Proof. intros H. unfold set_next. rewrite get_e_ok by auto. cbn [bind]. now apply put_e_ok. Qed.
Lemma set_prev_ok h e p : e < ne h -> set_prev h e p = Ok (ue h e (wprev (E h e) p)).
Proof. intros H. unfold set_prev. rewrite get_e_ok by auto. cbn [bind]. now apply put_e_ok. Qed.
Lemma set_opp_ok h e p : e < ne h -> set_opp h e p = Ok (ue h e (wopp (E h e) p)).
Proof. intros H. unfold set_opp. rewrite get_e_ok by auto. cbn [bind]. now apply put_e_ok. Qed.
Lemma set_vedge_ok h v p : v < nv h -> set_vedge h v p = Ok (uv h v p).
Proof.
  intros H. unfold set_vedge, get_v, get, uv. destruct (nth_error (h_v h) v) as [r|] eqn:E1.
  - cbn [bind]. unfold put_v. rewrite set_ok by auto. reflexivity.
  - apply nth_error_None in E1. unfold nv in H. lia.
Qed.
Lemma get_v_ok h v : v < nv h -> exists r, get_v h v = Ok r /\ hv_edge r = ve h v /\ vco h v = Some (hv_coords r).
Proof.
  intros H. unfold get_v, get, ve, vco. destruct (nth_error (h_v h) v) as [r|] eqn:E1; eauto.
  apply nth_error_None in E1. unfold nv in H. lia.
Qed.
(** link_edges on different half-edges *)
Definition lk h a b : heap C := ue (ue h a (wopp (E h a) (Some b))) b (wopp (E (ue h a (wopp (E h a) (Some b))) b) (Some a)).
Lemma link_ok h a b : a < ne h -> b < ne h -> link_edges h a b = Ok (lk h a b).
Proof.
  intros Ha Hb. unfold link_edges. rewrite set_opp_ok by auto. cbn [bind].
  rewrite set_opp_ok by (rewrite ne_ue; auto). reflexivity.
Qed.
Lemma E_lk h a b x : a < ne h -> b < ne h -> a <> b ->
  E (lk h a b) x = if x =? a then wopp (E h a) (Some b) else if x =? b then wopp (E h b) (Some a) else E h x.
Proof.
  intros Ha Hb N. unfold lk. rewrite !E_ue by (rewrite ?ne_ue; auto).
  destruct (Nat.eqb_spec b a); [congruence|].
  destruct (Nat.eqb_spec x b), (Nat.eqb_spec x a); congruence.
Qed.
Lemma ne_lk h a b : ne (lk h a b) = ne h. Proof. unfold lk. now rewrite !ne_ue. Qed.
Lemma nv_lk h a b : nv (lk h a b) = nv h. Proof. reflexivity. Qed.
Lemma nf_lk h a b : nf (lk h a b) = nf h. Proof. reflexivity. Qed.
Lemma F_lk h a b f : F (lk h a b) f = F h f. Proof. reflexivity. Qed.
Lemma ve_lk h a b f : ve (lk h a b) f = ve h f. Proof. reflexivity. Qed.
Lemma vco_lk h a b f : vco (lk h a b) f = vco h f. Proof. reflexivity. Qed.

(** make_edge *)
Definition newe (v : nat) p := mkhe (Some v) p None None None.
Definition mke h v p : heap C :=
  let h' := ae h (newe v p) in match ve h v with None => uv h' v (Some (ne h)) | Some _ => h' end.
Lemma make_edge_ok h v p : v < nv h -> make_edge h v p = Ok (mke h v p, ne h).
Proof.
  intros H. unfold make_edge. change (mkh (h_e h ++ [mkhe (Some v) p None None None]) (h_v h) (h_f h)) with (ae h (newe v p)).
  destruct (get_v_ok (ae h (newe v p)) v) as (r & Hr & Er & _); [now rewrite nv_ae|].
  rewrite Hr. cbn [bind]. rewrite Er, ve_ae. unfold mke, ne. destruct (ve h v); [reflexivity|].
  rewrite set_vedge_ok by (now rewrite nv_ae). reflexivity.
Qed.
Lemma ne_mke h v p : ne (mke h v p) = S (ne h). Proof. unfold mke. destruct (ve h v); rewrite ?ne_uv; apply ne_ae. Qed.
Lemma nv_mke h v p : nv (mke h v p) = nv h. Proof. unfold mke. destruct (ve h v); rewrite ?nv_uv; apply nv_ae. Qed.
Lemma nf_mke h v p : nf (mke h v p) = nf h. Proof. unfold mke. destruct (ve h v); rewrite ?nf_uv; apply nf_ae. Qed.
Lemma F_mke h v p f : F (mke h v p) f = F h f. Proof. unfold mke. destruct (ve h v); rewrite ?F_uv; apply F_ae. Qed.
Lemma vco_mke h v p f : vco (mke h v p) f = vco h f. Proof. unfold mke. destruct (ve h v); rewrite ?vco_uv; apply vco_ae. Qed.
Lemma E_mke h v p x : E (mke h v p) x = if x =? ne h then newe v p else E h x.
Proof. unfold mke. destruct (ve h v); rewrite ?E_uv; apply E_ae. Qed.
Lemma ve_mke h v p x : v < nv h -> ve (mke h v p) x = if x =? v then match ve h v with None => Some (ne h) | q => q end else ve h x.
Proof.
  intros H. unfold mke. destruct (ve h v) eqn:E1.
  - rewrite ve_ae. destruct (Nat.eqb_spec x v) as [->|]; auto.
  - rewrite ve_uv by (rewrite nv_ae; auto). rewrite ve_ae. reflexivity.
Qed.

(** make_loop *)
Definition lp h es f i := mkhe (en h (nth i es 0)) (Some f) (Some (cyc es (i + 1))) (Some (cyc es (i + length es - 1))) (op h (nth i es 0)).
Lemma make_loop_ok h es f : NoDup es -> es <> [] -> (forall e, In e es -> e < ne h) -> f < nf h ->
  exists h', make_loop h es f = Ok h' /\ h_v h' = h_v h /\ ne h' = ne h /\ nf h' = nf h /\
    (forall x, F h' x = if x =? f then hd_error es else F h x) /\
    (forall i, i < length es -> E h' (nth i es 0) = lp h es f i) /\
    (forall x, ~ In x es -> E h' x = E h x).
Proof.
  intros ND NE HB Hf. unfold make_loop. destruct es as [|e0 es']; [congruence|].
  set (es := e0 :: es') in *. cbn [bind].
  rewrite put_f_ok by auto. cbn [bind].
  assert (L0 : 0 < length es) by (subst es; cbn; lia).
  match goal with |- exists h', for_ 0 (length es) ?b ?h0 = _ /\ _ =>
    destruct (for_inv (fun k h' => h_v h' = h_v h /\ ne h' = ne h /\ nf h' = nf h /\
      (forall x, F h' x = if x =? f then hd_error es else F h x) /\
      (forall i, i < k -> E h' (nth i es 0) = lp h es f i) /\
      (forall i, k <= i -> i < length es -> E h' (nth i es 0) = E h (nth i es 0)) /\
      (forall x, ~ In x es -> E h' x = E h x)) b 0 (length es) h0) as (h' & Hh' & P)
  end.
  - split; [reflexivity|]. split; [apply ne_uf|]. split; [apply nf_uf|]. split.
    { intros x. rewrite F_uf by auto. reflexivity. }
    split; [intros; lia|]. split; intros; apply E_uf.
  - intros i s Hi (A1 & A2 & A3 & A4 & A5 & A6 & A7). cbn [Nat.add] in Hi.
    rewrite (get_nth es i 0) by lia. cbn [bind].
    assert (X : (if i + 1 =? length es then Ok e0 else get es (i + 1)) = Ok (cyc es (i + 1))).
    { unfold cyc. destruct (Nat.eqb_spec (i + 1) (length es)) as [q|q].
      - rewrite q, Nat.mod_same by lia. reflexivity.
      - rewrite Nat.mod_small by lia. apply get_nth. lia. }
    rewrite X. cbn [bind]. clear X.
    assert (X : (if i =? 0 then get es (length es - 1) else get es (i - 1)) = Ok (cyc es (i + length es - 1))).
    { unfold cyc. destruct (Nat.eqb_spec i 0) as [q|q].
      - subst i. rewrite Nat.mod_small by lia. apply get_nth. lia.
      - replace (i + length es - 1) with (i - 1 + 1 * length es) by lia.
        rewrite Nat.mod_add, Nat.mod_small by lia. apply get_nth. lia. }
    rewrite X. cbn [bind]. clear X.
    assert (Le : nth i es 0 < ne h) by (apply HB, nth_In; lia).
    rewrite get_e_ok by lia. cbn [bind]. rewrite put_e_ok by lia.
    eexists; split; [reflexivity|].
    split; [auto|]. split; [rewrite ne_ue; auto|]. split; [auto|]. split; [auto|].
    split; [|split].
    + intros j Hj. rewrite E_ue by lia. destruct (Nat.eqb_spec (nth j es 0) (nth i es 0)) as [q|q].
      * apply (proj1 (NoDup_nth es 0) ND) in q; [|lia|lia]. subst j.
        rewrite A6 by lia. reflexivity.
      * apply A5. destruct (Nat.eq_dec j i); [congruence|lia].
    + intros j Hj Hj'. rewrite E_ue by lia. destruct (Nat.eqb_spec (nth j es 0) (nth i es 0)) as [q|q].
      * apply (proj1 (NoDup_nth es 0) ND) in q; lia.
      * apply A6; lia.
    + intros x Hx. rewrite E_ue by lia. destruct (Nat.eqb_spec x (nth i es 0)) as [q|q].
      * subst x. exfalso. apply Hx, nth_In. lia.
      * auto.
  - exists h'. split; [exact Hh'|]. cbn [Nat.add] in P. destruct P as (A1 & A2 & A3 & A4 & A5 & A6 & A7).
    repeat (split; [assumption|]). assumption.
Qed.

(** make_face *)
Lemma make_face_ok h es : NoDup es -> 2 <= length es -> (forall e, In e es -> e < ne h) ->
  exists h', make_face h es = Ok (h', Some (nf h)) /\ h_v h' = h_v h /\ ne h' = ne h /\ nf h' = S (nf h) /\
    (forall x, F h' x = if x =? nf h then hd_error es else F h x) /\
    (forall i, i < length es -> E h' (nth i es 0) = lp h es (nf h) i) /\
    (forall x, ~ In x es -> E h' x = E h x).
Proof.
  intros ND L HB. unfold make_face. destruct (Nat.ltb_spec (length es) 2); [lia|].
  change (mkh (h_e h) (h_v h) (h_f h ++ [None])) with (af h None).
  destruct (make_loop_ok (af h None) es (nf h)) as (h' & A0 & A1 & A2 & A3 & A4 & A5 & A6); auto.
  { intros ->; cbn in L; lia. } { rewrite nf_af; lia. }
  change (length (h_f h)) with (nf h). rewrite A0. cbn [bind]. exists h'. split; [reflexivity|].
  split; [exact A1|]. split; [exact A2|]. split; [rewrite A3; apply nf_af|]. split.
  { intros x. rewrite A4, F_af. destruct (x =? nf h); reflexivity. }
  split; [exact A5|]. exact A6.
Qed.
Lemma make_face_short h es : length es < 2 -> make_face h es = Ok (h, None).
Proof. intros H. unfold make_face. destruct (Nat.ltb_spec (length es) 2); [reflexivity|lia]. Qed.
Lemma make_face_floop h es h' : NoDup es -> 2 <= length es ->
  (forall e, In e es -> e < ne h /\ exists v, en h e = Some v /\ v < nv h) ->
  make_face h es = Ok (h', Some (nf h)) -> floop h' (nf h) es.
Proof.
  intros ND L HB H. destruct (make_face_ok h es) as (h1 & A0 & A1 & A2 & A3 & A4 & A5 & A6); auto.
  { intros e He. apply HB; auto. }
  rewrite H in A0. injection A0 as <-.
  split; [auto|]. split; [auto|]. split; [lia|]. split; [now rewrite A4, Nat.eqb_refl|].
  intros i Hi. unfold fc, nx, pv, en. rewrite A5 by auto. cbn.
  destruct (HB (nth i es 0)) as (B1 & v & B2 & B3); [now apply nth_In|].
  split; [lia|]. split; [auto|]. split; [auto|]. split; [auto|].
  exists v. unfold nv in *. rewrite A1. auto.
Qed.

(** A loop stays a loop when only opposites (and other objects) change. *)
Lemma floop_frame h h' f l : floop h f l -> ne h <= ne h' -> nv h <= nv h' -> nf h <= nf h' -> F h' f = F h f ->
  (forall e, In e l -> en h' e = en h e /\ fc h' e = fc h e /\ nx h' e = nx h e /\ pv h' e = pv h e) ->
  floop h' f l.
Proof.
  intros (H1 & H2 & H3 & H3' & H4) N1 N2 N3 HF HE. split; [auto|]. split; [auto|]. split; [lia|]. split; [congruence|].
  intros i Hi. destruct (H4 i Hi) as (A & B & D & G & v & K1 & K2).
  destruct (HE (nth i l 0)) as (E1 & E2 & E3 & E4); [now apply nth_In|].
  rewrite E1, E2, E3, E4. repeat (split; [first [assumption|lia]|]). exists v. split; [auto|lia].
Qed.
End Mesh.
