(** add_vertex: effect on the heap. *)
From Coq Require Import List Arith Lia Bool Permutation.
From Verif Require Import Model_Base Proof_Base Model_Mesh Spec_Mesh Proof_Mesh Proof_Mesh2 Proof_Mesh3 Proof_Mesh4 Proof_Mesh5.
Import ListNotations.
Local Open Scope nat_scope.

Section Mesh.
Context {C : Type}.
Implicit Types (h : heap C) (fs l es K N : list nat) (f e o v x y : nat) (p : ptr).

(** an existing half-edge with a known start *)
Definition based h e := e < ne h /\ exists q s, pv h e = Some q /\ q < ne h /\ en h q = Some s /\ s < nv h.

Lemma fan_ok v : forall es h prev, NoDup es -> (forall e, In e es -> based h e) -> v < nv h ->
  (forall q, prev = Some q -> q < ne h /\ ~ In q es) ->
  exists h', fan h v prev es = Ok (h', seq (nf h) (length es)) /\
    ne h' = ne h + 2 * length es /\ nv h' = nv h /\ nf h' = nf h + length es /\
    (forall x, vco h' x = vco h x) /\
    (forall f, f < nf h -> F h' f = F h f) /\
    (forall i, i < length es -> F h' (nf h + i) = Some (nth i es 0)) /\
    (forall i, i < length es -> E h' (nth i es 0) =
       mkhe (en h (nth i es 0)) (Some (nf h + i)) (Some (ne h + 2 * i)) (Some (ne h + 2 * i + 1)) (op h (nth i es 0))) /\
    (forall i, i < length es -> E h' (ne h + 2 * i) =
       mkhe (Some v) (Some (nf h + i)) (Some (ne h + 2 * i + 1)) (Some (nth i es 0))
            (if S i <? length es then Some (ne h + 2 * i + 3) else None)) /\
    (forall i, i < length es -> E h' (ne h + 2 * i + 1) =
       mkhe (st h (nth i es 0)) (Some (nf h + i)) (Some (nth i es 0)) (Some (ne h + 2 * i))
            (if i =? 0 then prev else Some (ne h + 2 * i - 2))) /\
    (forall x, x < ne h -> ~ In x es -> E h' x =
       if ptr_eqb prev (Some x) && (0 <? length es) then wopp (E h x) (Some (ne h + 1)) else E h x) /\
    (forall x, ve h x <> None -> ve h' x = ve h x) /\
    (ve h v = None -> es <> [] -> ve h' v = Some (ne h)).
Proof.
  induction es as [|e es IH]; intros h prev ND HB Bv HP.
  - exists h. cbn. rewrite !Nat.add_0_r. do 10 (split; [first [reflexivity|intros; lia|intros; reflexivity]|]).
    split; [intros; rewrite andb_false_r; reflexivity|]. split; [auto|congruence].
  - cbn [fan]. destruct (HB e) as (Be & q & s & Pq & Bq & Es & Bs); [now left|].
    assert (SE : st h e = Some s) by (unfold st; now rewrite Pq).
    rewrite make_edge_ok by auto. cbn [bind]. set (h1 := mke h v None).
    assert (M1 : ne h1 = S (ne h)) by apply ne_mke. assert (V1 : nv h1 = nv h) by apply nv_mke.
    assert (E1 : forall x, E h1 x = if x =? ne h then newe v None else E h x) by (intros; apply E_mke).
    rewrite (start_of_ok h1 e q s).
    2: lia. 2:{ unfold pv. rewrite E1. eqbs. exact Pq. } 2: lia. 2:{ unfold en. rewrite E1. eqbs. exact Es. }
    cbn [bind]. rewrite make_edge_ok by lia. cbn [bind]. rewrite M1. set (h2 := mke h1 s None).
    assert (M2 : ne h2 = S (S (ne h))) by (unfold h2; rewrite ne_mke; lia).
    assert (V2 : nv h2 = nv h) by (unfold h2; rewrite nv_mke; lia).
    assert (F2 : nf h2 = nf h) by (unfold h2; rewrite nf_mke; apply nf_mke).
    assert (E2 : forall x, E h2 x = if x =? S (ne h) then newe s None else if x =? ne h then newe v None else E h x).
    { intros x. unfold h2. rewrite E_mke, M1, E1. reflexivity. }
    set (h3 := match prev with None => h2 | Some w => lk h2 (S (ne h)) w end).
    assert (L3 : match prev with None => Ok h2 | Some w => link_edges h2 (S (ne h)) w end = Ok h3).
    { unfold h3. destruct prev as [w|]; auto. destruct (HP w eq_refl). apply link_ok; lia. }
    rewrite L3. cbn [bind].
    assert (M3 : ne h3 = S (S (ne h))) by (unfold h3; destruct prev; rewrite ?ne_lk; auto).
    assert (V3 : nv h3 = nv h) by (unfold h3; destruct prev; rewrite ?nv_lk; auto).
    assert (F3 : nf h3 = nf h) by (unfold h3; destruct prev; rewrite ?nf_lk; auto).
    assert (E3 : forall x, E h3 x = if x =? S (ne h) then wopp (newe s None) prev else if x =? ne h then newe v None
        else if ptr_eqb prev (Some x) then wopp (E h x) (Some (S (ne h))) else E h x).
    { intros x. unfold h3. destruct prev as [w|].
      - destruct (HP w eq_refl) as [Bw _]. rewrite E_lk by lia. rewrite !E2. cbn [ptr_eqb]. rewrite (Nat.eqb_sym w x).
        eqbs; try congruence; reflexivity.
      - rewrite E2. cbn. eqbs; reflexivity. }
    set (ts := [e; ne h; S (ne h)]).
    destruct (make_face_ok h3 ts) as (h4 & A0 & A1 & A2 & A3 & A4 & A5 & A6).
    { unfold ts. repeat constructor; cbn; lia. } { cbn; lia. } { intros x. cbn. lia. }
    rewrite F3 in *. rewrite A0. cbn [bind deref].
    assert (EE : E h3 e = E h e).
    { rewrite E3. eqbs. destruct (ptr_eqb_spec prev (Some e)) as [Q|]; auto.
      destruct (HP e Q) as [_ X]. destruct X. now left. }
    assert (E40 : E h4 e = mkhe (en h e) (Some (nf h)) (Some (ne h)) (Some (S (ne h))) (op h e)).
    { change e with (nth 0 ts 0) at 1. rewrite A5 by (cbn; lia). unfold lp, en, op, cyc. cbn. now rewrite EE. }
    assert (E41 : E h4 (ne h) = mkhe (Some v) (Some (nf h)) (Some (S (ne h))) (Some e) None).
    { change (ne h) with (nth 1 ts 0) at 1. rewrite A5 by (cbn; lia). unfold lp, en, op, cyc. cbn. rewrite E3. eqbs. reflexivity. }
    assert (E42 : E h4 (S (ne h)) = mkhe (Some s) (Some (nf h)) (Some e) (Some (ne h)) prev).
    { change (S (ne h)) with (nth 2 ts 0) at 1. rewrite A5 by (cbn; lia). unfold lp, en, op, cyc. cbn. rewrite E3. eqbs. reflexivity. }
    assert (E43 : forall x, x < ne h -> x <> e -> E h4 x = if ptr_eqb prev (Some x) then wopp (E h x) (Some (S (ne h))) else E h x).
    { intros x Bx Nx. rewrite A6 by (cbn; lia). rewrite E3. eqbs. reflexivity. }
    assert (V4 : nv h4 = nv h) by (unfold nv in *; rewrite A1; lia).
    inversion ND as [|? ? ND1 ND2]; subst.
    assert (ENS : forall x, x < ne h -> en h4 x = en h x /\ (x <> e -> pv h4 x = pv h x)).
    { intros x Bx. destruct (Nat.eq_dec x e) as [->|Nx].
      - unfold en. rewrite E40. split; [reflexivity|congruence].
      - unfold en, pv. rewrite E43 by auto. destruct (ptr_eqb prev (Some x)); auto. }
    destruct (IH h4 (Some (ne h))) as (h' & B0 & B1 & B2 & B3 & B4 & B5 & B6 & B7 & B8 & B9 & B10 & B11 & B12).
    { auto. }
    { intros x Ix. destruct (HB x) as (Bx & y & t & P1 & P2 & P3 & P4); [now right|].
      assert (Nx : x <> e) by congruence. split; [lia|]. exists y, t.
      destruct (ENS x Bx) as [_ Q1]. destruct (ENS y P2) as [Q2 _]. rewrite Q1, Q2 by auto. repeat split; auto; lia. }
    { lia. }
    { intros y [= <-]. split; [lia|]. intros I. destruct (HB (ne h)) as (X & _); [now right|]. lia. }
    rewrite A2, A3, M3 in *. rewrite B0. cbn [bind length seq].
    assert (NI0 : ~ In (ne h) es) by (intros I; destruct (HB (ne h)) as (X & _); [now right|lia]).
    assert (NI1 : ~ In (S (ne h)) es) by (intros I; destruct (HB (S (ne h))) as (X & _); [now right|lia]).
    exists h'. split; [reflexivity|]. split; [lia|]. split; [lia|]. split; [lia|].
    split.
    { intros x. rewrite B4. unfold vco. rewrite A1. fold (vco h3 x).
      unfold h3. destruct prev; rewrite ?vco_lk; unfold h2; rewrite vco_mke; apply vco_mke. }
    split.
    { intros f Hf. rewrite B5 by lia. rewrite A4. eqbs. unfold h3. destruct prev; rewrite ?F_lk; unfold h2; rewrite F_mke; apply F_mke. }
    split.
    { intros [|i] Hi.
      - rewrite Nat.add_0_r, B5 by lia. rewrite A4. eqbs. reflexivity.
      - replace (nf h + S i) with (S (nf h) + i) by lia. rewrite B6 by lia. reflexivity. }
    split.
    { intros [|i] Hi.
      - cbn [nth]. rewrite B10 by (auto; lia).
        replace (ptr_eqb (Some (ne h)) (Some e) && (0 <? length es)) with false by (cbn; eqbs; reflexivity).
        rewrite E40. f_equal; f_equal; lia.
      - cbn [nth]. rewrite B7 by lia. assert (I : In (nth i es 0) es) by (apply nth_In; lia).
        destruct (HB (nth i es 0)) as (Bx & _); [now right|].
        assert (Nx : nth i es 0 <> e) by congruence.
        rewrite (proj1 (ENS _ Bx)). unfold op. rewrite E43 by auto.
        destruct (ptr_eqb_spec prev (Some (nth i es 0))) as [Q|Q].
        + destruct (HP _ Q) as [_ X]. destruct X. now right.
        + f_equal; f_equal; lia. }
    split.
    { intros [|i] Hi.
      - replace (ne h + 2 * 0) with (ne h) by lia. rewrite B10 by (auto; lia).
        cbn [ptr_eqb]. rewrite Nat.eqb_refl. cbn [andb]. rewrite E41. change (1 <? S (length es)) with (0 <? length es). cbn [nth].
        destruct (0 <? length es); unfold wopp; cbn [he_vertex he_face he_next he_prev he_opp]; f_equal; try (f_equal; lia).
      - replace (ne h + 2 * S i) with (S (S (ne h)) + 2 * i) by lia. rewrite B8 by lia.
        cbn [nth]. replace (S (S i) <? S (length es)) with (S i <? length es) by reflexivity.
        destruct (S i <? length es); f_equal; f_equal; lia. }
    split.
    { intros [|i] Hi.
      - replace (ne h + 2 * 0 + 1) with (S (ne h)) by lia.
        rewrite B10 by (auto; lia).
        replace (ptr_eqb (Some (ne h)) (Some (S (ne h))) && (0 <? length es)) with false by (cbn; eqbs; reflexivity).
        rewrite E42. cbn [nth Nat.eqb]. rewrite SE. f_equal; f_equal; lia.
      - replace (ne h + 2 * S i + 1) with (S (S (ne h)) + 2 * i + 1) by lia. rewrite B9 by lia.
        cbn [nth Nat.eqb]. assert (I : In (nth i es 0) es) by (apply nth_In; lia).
        destruct (HB (nth i es 0)) as (Bx & y & t & P1 & P2 & P3 & P4); [now right|].
        assert (Nx : nth i es 0 <> e) by congruence.
        assert (SS : st h4 (nth i es 0) = st h (nth i es 0)).
        { unfold st. destruct (ENS _ Bx) as [_ Q1]. rewrite Q1 by auto. rewrite P1. apply ENS. auto. }
        rewrite SS. destruct i as [|i]; cbn [Nat.eqb]; f_equal; f_equal; lia. }
    split.
    { intros x Bx Ix. assert (Nx : x <> e) by (intros ->; apply Ix; now left).
      rewrite B10; [|lia|intros I; apply Ix; now right].
      replace (ptr_eqb (Some (ne h)) (Some x) && (0 <? length es)) with false by (cbn; eqbs; reflexivity).
      rewrite E43 by auto. change (0 <? S (length es)) with true. rewrite andb_true_r. replace (ne h + 1) with (S (ne h)) by lia. reflexivity. }
    assert (VEE : forall x, ve h4 x = ve h2 x).
    { intros x. unfold ve. rewrite A1. unfold h3. destruct prev; reflexivity. }
    split.
    { intros x Nx. assert (Q : ve h4 x = ve h x).
      { rewrite VEE. unfold h2. rewrite ve_mke by lia. unfold h1. rewrite !ve_mke by lia.
        destruct (ve h x) as [w|] eqn:Q; [|congruence].
        destruct (Nat.eqb_spec x s), (Nat.eqb_spec s v), (Nat.eqb_spec x v); subst; try congruence; rewrite ?Q; auto. }
      rewrite B11; congruence. }
    { intros Nv _. assert (Q : ve h4 v = Some (ne h)).
      { rewrite VEE. unfold h2. rewrite ve_mke by lia. unfold h1. rewrite !ve_mke by lia. rewrite Nat.eqb_refl, Nv.
        destruct (Nat.eqb_spec v s) as [<-|]; [rewrite Nat.eqb_refl|]; auto. }
      rewrite B11; congruence. }
Qed.

(** The whole of add_vertex on a non-empty list of half-edges with known starts *)
Lemma add_vertex_ok h es v : NoDup es -> es <> [] -> (forall e, In e es -> based h e) -> v < nv h ->
  exists h', add_vertex h es v = Ok (h', seq (nf h) (length es)) /\
    ne h' = ne h + 2 * length es /\ nv h' = nv h /\ nf h' = nf h + length es /\
    (forall x, vco h' x = vco h x) /\
    (forall f, f < nf h -> F h' f = F h f) /\
    (forall i, i < length es -> F h' (nf h + i) = Some (nth i es 0)) /\
    (forall i, i < length es -> E h' (nth i es 0) =
       mkhe (en h (nth i es 0)) (Some (nf h + i)) (Some (ne h + 2 * i)) (Some (ne h + 2 * i + 1)) (op h (nth i es 0))) /\
    (forall i, i < length es -> E h' (ne h + 2 * i) =
       mkhe (Some v) (Some (nf h + i)) (Some (ne h + 2 * i + 1)) (Some (nth i es 0))
            (Some (ne h + 2 * ((i + 1) mod length es) + 1))) /\
    (forall i, i < length es -> E h' (ne h + 2 * i + 1) =
       mkhe (st h (nth i es 0)) (Some (nf h + i)) (Some (nth i es 0)) (Some (ne h + 2 * i))
            (Some (ne h + 2 * ((i + length es - 1) mod length es)))) /\
    (forall x, x < ne h -> ~ In x es -> E h' x = E h x) /\
    (forall x, x <> v -> ve h x <> None -> ve h' x = ve h x) /\
    ve h' v = Some (ne h).
Proof.
  intros ND NE HB Bv. unfold add_vertex. rewrite set_vedge_ok by auto. cbn [bind]. set (h0 := uv h v None).
  assert (M0 : ne h0 = ne h) by apply ne_uv. assert (V0 : nv h0 = nv h) by apply nv_uv. assert (F0 : nf h0 = nf h) by apply nf_uv.
  assert (E0 : forall x, E h0 x = E h x) by (intros; apply E_uv).
  set (n := length es). assert (Hn : 0 < n) by (unfold n; destruct es; [congruence|cbn; lia]).
  destruct (fan_ok v es h0 None) as (h1 & B0 & B1 & B2 & B3 & B4 & B5 & B6 & B7 & B8 & B9 & B10 & B11 & B12); auto.
  { intros e Ie. destruct (HB e Ie) as (Be & q & s & P). split; [lia|]. exists q, s. unfold pv, en in *. rewrite !E0, M0, V0. auto. }
  { lia. } { discriminate. }
  fold n in B0, B1, B3, B6, B7, B8, B9, B10.
  rewrite M0 in B1, B7, B8, B9, B10, B12. rewrite F0 in B0, B3, B5, B6, B7, B8, B9.
  assert (SS : forall x, st h0 x = st h x).
  { intros x. unfold st, pv, en. rewrite E0. destruct (he_prev (E h x)); auto. now rewrite E0. }
  rewrite B0. cbn [bind].
  assert (BK : back (seq (nf h) n) = Ok (nf h + (n - 1))).
  { unfold back. destruct n as [|m]; [lia|]. rewrite seq_S, rev_app_distr. cbn. f_equal. lia. }
  rewrite BK. cbn [bind]. rewrite get_f_ok by lia. rewrite B6 by lia. cbn [bind deref].
  assert (I1 : nth (n - 1) es 0 < ne h1).
  { destruct (HB (nth (n-1) es 0)) as (X & _); [apply nth_In; fold n; lia|]. lia. }
  rewrite (next_of_ok h1 _ (ne h + 2 * (n - 1))).
  2: auto. 2:{ unfold nx. rewrite B7 by lia. reflexivity. }
  cbn [bind]. replace (front (seq (nf h) n)) with (@Ok nat (nf h)) by (destruct n; [lia|reflexivity]).
  cbn [bind]. rewrite get_f_ok by lia.
  replace (F h1 (nf h)) with (Some (nth 0 es 0)) by (rewrite <- (B6 0) by lia; f_equal; lia). cbn [bind deref].
  assert (I0 : nth 0 es 0 < ne h1).
  { destruct (HB (nth 0 es 0)) as (X & _); [apply nth_In; fold n; lia|]. lia. }
  rewrite (prev_of_ok h1 _ (ne h + 1)).
  2: auto. 2:{ unfold pv. rewrite B7 by lia. cbn. f_equal. lia. }
  cbn [bind]. set (a := ne h + 2 * (n - 1)). set (b := ne h + 1).
  assert (Nab : a <> b) by (unfold a, b; lia).
  rewrite link_ok by (unfold a, b; lia). cbn [bind].
  exists (lk h1 a b). split; [reflexivity|]. rewrite ne_lk, nv_lk, nf_lk. split; [lia|]. split; [lia|]. split; [lia|].
  split; [intros x; rewrite vco_lk, B4; apply vco_uv|].
  split; [intros f Hf; rewrite F_lk, B5 by auto; apply F_uv|].
  split; [intros i Hi; rewrite F_lk; auto|].
  assert (EL : forall x, E (lk h1 a b) x = if x =? a then wopp (E h1 a) (Some b) else if x =? b then wopp (E h1 b) (Some a) else E h1 x).
  { intros x. apply E_lk; unfold a, b; lia. }
  split.
  { intros i Hi. rewrite EL. assert (X : nth i es 0 < ne h) by (apply HB, nth_In; auto).
    unfold a, b. eqbs. rewrite B7 by auto. unfold en, op. now rewrite E0. }
  split.
  { intros i Hi. rewrite EL. destruct (Nat.eq_dec i (n - 1)) as [->|Ni].
    - fold a. rewrite Nat.eqb_refl. unfold a. rewrite B8 by lia. unfold wopp; cbn [he_vertex he_face he_next he_prev].
      replace ((n - 1 + 1) mod n) with 0.
      2:{ replace (n - 1 + 1) with n by lia. now rewrite Nat.mod_same by lia. }
      unfold b. f_equal; f_equal; lia.
    - destruct (Nat.eqb_spec (ne h + 2 * i) a); [unfold a in *; lia|].
      destruct (Nat.eqb_spec (ne h + 2 * i) b); [unfold b in *; lia|].
      rewrite B8 by auto. destruct (Nat.ltb_spec (S i) n); [|lia]. rewrite Nat.mod_small by lia. f_equal; f_equal; lia. }
  split.
  { intros i Hi. rewrite EL. destruct (Nat.eqb_spec (ne h + 2 * i + 1) a); [unfold a in *; lia|].
    destruct (Nat.eq_dec i 0) as [->|Ni].
    - replace (ne h + 2 * 0 + 1) with b by (unfold b; lia). rewrite Nat.eqb_refl.
      replace b with (ne h + 2 * 0 + 1) by (unfold b; lia). rewrite B9 by lia. unfold wopp; cbn [he_vertex he_face he_next he_prev].
      rewrite SS. rewrite Nat.mod_small by lia. unfold a. f_equal; f_equal; lia.
    - destruct (Nat.eqb_spec (ne h + 2 * i + 1) b); [unfold b in *; lia|].
      rewrite B9 by auto. destruct (Nat.eqb_spec i 0); [lia|]. rewrite SS.
      replace (i + n - 1) with (i - 1 + 1 * n) by lia. rewrite Nat.mod_add, Nat.mod_small by lia. f_equal; f_equal; lia. }
  split.
  { intros x Bx Ix. rewrite EL. unfold a, b. eqbs. rewrite B10 by auto. cbn. apply E0. }
  split.
  { intros x Nx Vx. rewrite ve_lk. assert (Q : ve h0 x = ve h x) by (unfold h0; rewrite ve_uv by auto; eqbs; auto; congruence).
    rewrite B11; congruence. }
  { rewrite ve_lk. apply B12; auto. unfold h0. rewrite ve_uv by auto. now rewrite Nat.eqb_refl. }
Qed.
End Mesh.
