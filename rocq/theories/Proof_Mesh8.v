(** flip. *)
From Coq Require Import List Arith Lia Bool Permutation.
From Verif Require Import Model_Base Proof_Base Model_Mesh Spec_Mesh Proof_Mesh Proof_Mesh2 Proof_Mesh3 Proof_Mesh4 Proof_Mesh5.
Import ListNotations.
Local Open Scope nat_scope.

(** Six different half-edges; packed so that arithmetic tactics do not split on it. *)
Definition dist6 (a b c d e f : nat) := a <> b /\ a <> c /\ a <> d /\ a <> e /\ a <> f /\ b <> c /\ b <> d /\ b <> e /\ b <> f /\
  c <> d /\ c <> e /\ c <> f /\ d <> e /\ d <> f /\ e <> f.
Ltac clash := match goal with
  | Z : ?a <> ?b, Q : ?a = ?b |- _ => contradiction (Z Q)
  | Z : ?a <> ?b, Q : ?b = ?a |- _ => contradiction (Z (eq_sym Q))
  | Z : ?a <> ?a |- _ => contradiction (Z eq_refl)
  end.
Ltac open6 := match goal with NN : dist6 _ _ _ _ _ _ |- _ =>
  let NN' := fresh in pose proof NN as NN'; unfold dist6 in NN';
  destruct NN' as (?Z1 & ?Z2 & ?Z3 & ?Z4 & ?Z5 & ?Z6 & ?Z7 & ?Z8 & ?Z9 & ?Z10 & ?Z11 & ?Z12 & ?Z13 & ?Z14 & ?Z15) end.
(** not in a short list of distinct half-edges *)
Ltac notin := open6; cbn; intros ?Q; repeat match goal with H : _ \/ _ |- _ => destruct H end; try contradiction; clash.
Ltac nodup3 := repeat apply NoDup_cons; [notin|notin|notin|constructor].

Section Mesh.
Context {C : Type}.
Implicit Types (h : heap C) (fs l es K N : list nat) (f e o v x y : nat) (p : ptr).

Lemma tri_from h f l e : floop h f l -> length l = 3 -> In e l -> exists y z,
  NoDup [e; y; z] /\ (forall x, In x l <-> In x [e; y; z]) /\
  nx h e = Some y /\ nx h y = Some z /\ nx h z = Some e /\
  pv h e = Some z /\ pv h y = Some e /\ pv h z = Some y.
Proof.
  intros (H1 & H2 & H3 & H3' & H4) L Ie. destruct l as [|a [|b [|c [|]]]]; try discriminate.
  destruct (H4 0 ltac:(cbn; lia)) as (_ & _ & A1 & A2 & _).
  destruct (H4 1 ltac:(cbn; lia)) as (_ & _ & B1 & B2 & _).
  destruct (H4 2 ltac:(cbn; lia)) as (_ & _ & D1 & D2 & _).
  unfold cyc in *. cbn in A1, A2, B1, B2, D1, D2.
  assert (ND : a <> b /\ b <> c /\ a <> c).
  { inversion H2 as [|? ? X Y]; subst. inversion Y as [|? ? X' Y']; subst. cbn in *. repeat split; intros ->; tauto. }
  destruct ND as (N1 & N2 & N3).
  destruct Ie as [<-|[<-|[<-|[]]]]; [exists b, c|exists c, a|exists a, b];
    (split; [repeat constructor; cbn; intuition congruence|]); (split; [intros x; cbn; tauto|]); auto 8.
Qed.

Lemma find_common_ok h f2 : forall es, (forall e, In e es -> e < ne h /\ forall o, op h e = Some o -> o < ne h) ->
  exists r, find_common h f2 es = Ok r /\
  match r with
  | Some e => In e es /\ exists o, op h e = Some o /\ fc h o = Some f2
  | None => forall e o, In e es -> op h e = Some o -> fc h o <> Some f2
  end.
Proof.
  induction es as [|e es IH]; intros HB.
  - exists None. split; [reflexivity|]. intros e o [].
  - cbn [find_common]. destruct (HB e) as [Be Bo]; [now left|]. rewrite get_e_ok by auto. cbn [bind].
    destruct IH as (r & R1 & R2); [intros; apply HB; now right|].
    change (he_opp (E h e)) with (op h e). destruct (op h e) as [o|] eqn:Eo.
    + rewrite get_e_ok by auto. cbn [bind]. change (he_face (E h o)) with (fc h o).
      destruct (ptr_eqb_spec (fc h o) (Some f2)) as [D|D].
      * exists (Some e). split; [reflexivity|]. split; [now left|eauto].
      * exists r. split; [auto|]. destruct r as [e'|].
        -- destruct R2. split; [now right|auto].
        -- intros e' o' [<-|I] Ho; [congruence|eauto].
    + exists r. split; [auto|]. destruct r as [e'|].
      * destruct R2. split; [now right|auto].
      * intros e' o' [<-|I] Ho; [congruence|eauto].
Qed.

Lemma getCommonEdges_ok h fs f1 f2 : minv h fs -> In f1 fs ->
  (exists e o, In e (Lf h f1) /\ op h e = Some o /\ fc h o = Some f2 /\ getCommonEdges h f1 f2 = Ok (Some e, Some o)) \/
  ((forall e o, In e (Lf h f1) -> op h e = Some o -> fc h o <> Some f2) /\ getCommonEdges h f1 f2 = Ok (None, None)).
Proof.
  intros H I1. unfold getCommonEdges, getCommonEdge. rewrite (getFaceEdges_ok _ _ _ (Lf_of _ _ _ H I1)). cbn [bind].
  destruct (find_common_ok h f2 (Lf h f1)) as (r & R1 & R2).
  { intros e Ie. assert (LV : Live h fs e) by (exists f1; auto). split; [now apply (Live_lt _ _ _ H)|].
    intros o Ho. destruct (minv_pair _ _ _ _ H LV Ho) as (A & _). now apply (Live_lt _ _ _ H). }
  rewrite R1. cbn [bind]. destruct r as [e|]; [left|right; auto].
  destruct R2 as (Ie & o & Ho & Fo). exists e, o. rewrite get_e_ok. { cbn [bind]. unfold op in Ho. rewrite Ho. auto. }
  apply (Live_lt _ _ _ H). exists f1; auto.
Qed.

Lemma repoint_ok h v a b : v < nv h -> exists h', repoint h v a b = Ok h' /\ h_e h' = h_e h /\ h_f h' = h_f h /\
  nv h' = nv h /\ (forall x, vco h' x = vco h x) /\
  (forall x, ve h' x = if (x =? v) && ptr_eqb (ve h v) (Some a) then Some b else ve h x).
Proof.
  intros Bv. unfold repoint. destruct (get_v_ok h v Bv) as (r & Hr & Er & _). rewrite Hr. cbn [bind]. rewrite Er.
  destruct (ptr_eqb (ve h v) (Some a)) eqn:Q.
  - rewrite set_vedge_ok by auto. exists (uv h v (Some b)). split; [auto|].
    split; [unfold uv; now destruct (nth_error (h_v h) v)|]. split; [unfold uv; now destruct (nth_error (h_v h) v)|].
    split; [apply nv_uv|]. split; [apply vco_uv|]. intros x. rewrite ve_uv by auto. now rewrite andb_true_r.
  - exists h. do 5 (split; [auto|]). intros x. now rewrite andb_false_r.
Qed.

Lemma flip_ok h fs f1 f2 : minv h fs -> In f1 fs -> In f2 fs -> f1 <> f2 -> length (Lf h f1) = 3 -> length (Lf h f2) = 3 ->
  ((forall e o, In e (Lf h f1) -> op h e = Some o -> fc h o <> Some f2) /\ flip h f1 f2 = Ok h) \/
  (exists h' e11 e21 e31 e12 e22 e32 v1 v2 v3 v4,
    NoDup [e11; e21; e31; e12; e22; e32] /\
    (forall x, In x (Lf h f1) <-> In x [e11; e21; e31]) /\ (forall x, In x (Lf h f2) <-> In x [e12; e22; e32]) /\
    nx h e11 = Some e21 /\ nx h e21 = Some e31 /\ nx h e31 = Some e11 /\
    nx h e12 = Some e22 /\ nx h e22 = Some e32 /\ nx h e32 = Some e12 /\
    en h e11 = Some v1 /\ en h e21 = Some v2 /\ en h e31 = Some v3 /\
    en h e12 = Some v3 /\ en h e22 = Some v4 /\ en h e32 = Some v1 /\
    op h e11 = Some e12 /\ op h e12 = Some e11 /\
    flip h f1 f2 = Ok h' /\
    E h' e11 = mkhe (Some v4) (Some f1) (Some e32) (Some e21) (Some e12) /\
    E h' e32 = mkhe (Some v1) (Some f1) (Some e21) (Some e11) (op h e32) /\
    E h' e21 = mkhe (Some v2) (Some f1) (Some e11) (Some e32) (op h e21) /\
    E h' e12 = mkhe (Some v2) (Some f2) (Some e31) (Some e22) (Some e11) /\
    E h' e31 = mkhe (Some v3) (Some f2) (Some e22) (Some e12) (op h e31) /\
    E h' e22 = mkhe (Some v4) (Some f2) (Some e12) (Some e31) (op h e22) /\
    Lf h' f1 = [e11; e32; e21] /\ Lf h' f2 = [e12; e31; e22] /\
    (forall x, ~ In x [e11; e21; e31; e12; e22; e32] -> E h' x = E h x) /\
    (forall f, f <> f1 -> f <> f2 -> F h' f = F h f) /\
    ne h' = ne h /\ nv h' = nv h /\ nf h' = nf h /\ (forall x, vco h' x = vco h x) /\
    (forall x, ve h' x = if (x =? v3) && ptr_eqb (if (x =? v1) && ptr_eqb (if x =? v2 then Some e12 else if x =? v4 then Some e11 else ve h x) (Some e11) then Some e32 else if x =? v2 then Some e12 else if x =? v4 then Some e11 else ve h x) (Some e12) then Some e31 else
      if (x =? v1) && ptr_eqb (if x =? v2 then Some e12 else if x =? v4 then Some e11 else ve h x) (Some e11) then Some e32 else if x =? v2 then Some e12 else if x =? v4 then Some e11 else ve h x) /\
    minv h' fs).
Proof.
  intros H I1 I2 N12 T1 T2. pose proof H as (NDf & HL & _).
  pose proof (HL f1 I1) as FL1. pose proof (HL f2 I2) as FL2.
  destruct (getCommonEdges_ok h fs f1 f2 H I1) as [(e11 & e12 & I11 & O11 & F12 & HC)|[A B]].
  2:{ left. split; auto. unfold flip. rewrite B. reflexivity. }
  right.
  assert (L11 : Live h fs e11) by (exists f1; auto).
  destruct (minv_pair _ _ _ _ H L11 O11) as (L12 & N1112 & O12 & R1 & R2).
  assert (I12 : In e12 (Lf h f2)).
  { destruct L12 as (g & Ig & Io). assert (fc h e12 = Some g) by (apply (floop_in _ _ _ _ (HL g Ig) Io)). congruence. }
  destruct (tri_from _ _ _ _ FL1 T1 I11) as (e21 & e31 & ND1 & M1 & X1 & X2 & X3 & P1 & P2 & P3).
  destruct (tri_from _ _ _ _ FL2 T2 I12) as (e22 & e32 & ND2 & M2 & Y1 & Y2 & Y3 & Q1 & Q2 & Q3).
  assert (DJ : forall x, In x [e11; e21; e31] -> In x [e12; e22; e32] -> False).
  { intros x Hx Hy. apply N12. apply (floop_face h f1 f2 (Lf h f1) (Lf h f2) x); auto; [now apply M1|now apply M2]. }
  assert (J1 : forall x, In x [e11; e21; e31] -> Live h fs x /\ x < ne h).
  { intros x Hx. assert (Live h fs x) by (exists f1; split; auto; now apply M1). split; auto. now apply (Live_lt _ _ _ H). }
  assert (J2 : forall x, In x [e12; e22; e32] -> Live h fs x /\ x < ne h).
  { intros x Hx. assert (Live h fs x) by (exists f2; split; auto; now apply M2). split; auto. now apply (Live_lt _ _ _ H). }
  assert (ND : NoDup [e11; e21; e31; e12; e22; e32]).
  { change [e11; e21; e31; e12; e22; e32] with ([e11; e21; e31] ++ [e12; e22; e32]). apply NoDup_app_intro; [auto|auto|]. intros a Ha Hb. eapply DJ; eauto. }
  destruct (J1 e11) as (_ & B11); [cbn; auto|]. destruct (J1 e21) as (L21 & B21); [cbn; auto|]. destruct (J1 e31) as (L31 & B31); [cbn; auto|].
  destruct (J2 e12) as (_ & B12); [cbn; auto|]. destruct (J2 e22) as (L22 & B22); [cbn; auto|]. destruct (J2 e32) as (L32 & B32); [cbn; auto|].
  destruct (Live_e _ _ _ HL L11) as (_ & _ & (v1 & V1 & W1) & _).
  destruct (Live_e _ _ _ HL L21) as (_ & _ & (v2 & V2 & W2) & _).
  destruct (Live_e _ _ _ HL L31) as (_ & _ & (v3 & V3 & W3) & _).
  destruct (Live_e _ _ _ HL L22) as (_ & _ & (v4 & V4 & W4) & _).
  assert (V12 : en h e12 = Some v3) by (rewrite R1; unfold st; now rewrite P1).
  assert (V32 : en h e32 = Some v1) by (rewrite <- V1, <- R2; unfold st; now rewrite Q1).
  assert (NN : dist6 e11 e21 e31 e12 e22 e32).
  { clear - ND. unfold dist6. repeat match goal with H : NoDup (_ :: _) |- _ => inversion H; clear H; subst end. cbn in *.
    repeat split; intros ->; tauto. }
  unfold flip. rewrite HC. cbn [bind].
  rewrite (next_of_ok h e11 e21) by auto. cbn [bind].
  rewrite (next_of_ok h e21 e31) by auto. cbn [bind].
  rewrite (next_of_ok h e12 e22) by auto. cbn [bind].
  rewrite (next_of_ok h e22 e32) by auto. cbn [bind].
  rewrite (end_of_ok h e11 v1) by auto. cbn [bind].
  rewrite (end_of_ok h e21 v2) by auto. cbn [bind].
  rewrite (end_of_ok h e31 v3) by auto. cbn [bind].
  rewrite (end_of_ok h e22 v4) by auto. cbn [bind].
  assert (ASS : forall (g : heap C) (v e : nat), e < ne g -> v < nv g -> exists g', associate g v e = Ok g' /\ ne g' = ne g /\ nv g' = nv g /\ nf g' = nf g /\
    (forall x, E g' x = if x =? e then wvert (E g e) (Some v) else E g x) /\ (forall f, F g' f = F g f) /\
    (forall x, ve g' x = if x =? v then Some e else ve g x) /\ (forall x, vco g' x = vco g x)).
  { clear. intros g v e Be Bv. unfold associate. rewrite set_vertex_ok by auto. cbn [bind]. rewrite set_vedge_ok by auto.
    eexists; split; [reflexivity|]. rewrite ne_uv, ne_ue, nv_uv, nv_ue, nf_uv, nf_ue. do 3 (split; [reflexivity|]).
    split; [intros x; rewrite E_uv, E_ue by auto; reflexivity|]. split; [intros f; now rewrite F_uv, F_ue|].
    split; [intros x; rewrite ve_uv by auto; now rewrite ve_ue|]. intros x. now rewrite vco_uv, vco_ue. }
  destruct (ASS h v4 e11 B11 W4) as (g2 & a0 & n2 & w2 & f2' & EG2 & FG2 & VG2 & CG2). rewrite a0. cbn [bind].
  destruct (ASS g2 v2 e12) as (g4 & a1 & n4 & w4 & f4' & EG4 & FG4 & VG4 & CG4); [lia|lia|]. rewrite a1. cbn [bind]. clear ASS.
  rewrite n2 in n4. rewrite w2 in w4. rewrite f2' in f4'.
  destruct (repoint_ok g4 v1 e11 e32) as (g5 & K1 & K2 & K3 & K4 & K5 & K6); [lia|]. rewrite K1. cbn [bind].
  destruct (repoint_ok g5 v3 e12 e31) as (g6 & K7 & K8 & K9 & K10 & K11 & K12); [lia|]. rewrite K7. cbn [bind].
  assert (EG : forall x, E g6 x = if x =? e12 then wvert (E h e12) (Some v2) else if x =? e11 then wvert (E h e11) (Some v4) else E h x).
  { intros x. unfold E at 1. rewrite K8, K2. change (nth x (h_e g4) dE) with (E g4 x). rewrite EG4, !EG2.
    destruct (Nat.eqb_spec e12 e11); [open6; clash|]. reflexivity. }
  assert (n6 : ne g6 = ne h) by (unfold ne in *; rewrite K8, K2; exact n4).
  assert (f6 : nf g6 = nf h) by (unfold nf in *; rewrite K9, K3; exact f4').
  assert (FG : forall f, F g6 f = F h f).
  { intros f. unfold F at 1. rewrite K9, K3. change (nth f (h_f g4) None) with (F g4 f). now rewrite FG4, FG2. }
  assert (b1 : f1 < nf h) by apply FL1. assert (b2 : f2 < nf h) by apply FL2.
  set (l1 := [e11; e32; e21]). set (l2 := [e12; e31; e22]).
  destruct (make_loop_ok g6 l1 f1) as (g7 & A0 & A1 & A2 & A3 & A4 & A5 & A6).
  { unfold l1. nodup3. } { discriminate. }
  { intros x. cbn. intros [<-|[<-|[<-|[]]]]; lia. } { lia. }
  rewrite A0. cbn [bind].
  destruct (make_loop_ok g7 l2 f2) as (h' & D0 & D1 & D2 & D3 & D4 & D5 & D6).
  { unfold l2. nodup3. } { discriminate. }
  { intros x. cbn. intros [<-|[<-|[<-|[]]]]; lia. } { lia. }
  rewrite D0. exists h', e11, e21, e31, e12, e22, e32, v1, v2, v3, v4.
  assert (S1 : E h' e11 = mkhe (Some v4) (Some f1) (Some e32) (Some e21) (Some e12)).
  { rewrite D6 by notin. change e11 with (nth 0 l1 0) at 1. rewrite A5 by (cbn; lia). unfold lp, en, op, cyc. cbn.
    rewrite EG. destruct (Nat.eqb_spec e11 e12); [open6; clash|]. rewrite Nat.eqb_refl. cbn. unfold op in O11. now rewrite O11. }
  assert (S2 : E h' e32 = mkhe (Some v1) (Some f1) (Some e21) (Some e11) (op h e32)).
  { rewrite D6 by notin. change e32 with (nth 1 l1 0) at 1. rewrite A5 by (cbn; lia). unfold lp, en, op, cyc. cbn.
    rewrite EG. destruct (Nat.eqb_spec e32 e12); [open6; clash|]. destruct (Nat.eqb_spec e32 e11); [open6; clash|]. unfold en in V32. now rewrite V32. }
  assert (S3 : E h' e21 = mkhe (Some v2) (Some f1) (Some e11) (Some e32) (op h e21)).
  { rewrite D6 by notin. change e21 with (nth 2 l1 0) at 1. rewrite A5 by (cbn; lia). unfold lp, en, op, cyc. cbn.
    rewrite EG. destruct (Nat.eqb_spec e21 e12); [open6; clash|]. destruct (Nat.eqb_spec e21 e11); [open6; clash|]. unfold en in V2. now rewrite V2. }
  assert (S4 : E h' e12 = mkhe (Some v2) (Some f2) (Some e31) (Some e22) (Some e11)).
  { change e12 with (nth 0 l2 0) at 1. rewrite D5 by (cbn; lia). unfold lp, en, op, cyc. cbn. rewrite A6 by notin.
    rewrite EG. rewrite Nat.eqb_refl. cbn. unfold op in O12. now rewrite O12. }
  assert (S5 : E h' e31 = mkhe (Some v3) (Some f2) (Some e22) (Some e12) (op h e31)).
  { change e31 with (nth 1 l2 0) at 1. rewrite D5 by (cbn; lia). unfold lp, en, op, cyc. cbn. rewrite A6 by notin.
    rewrite EG. destruct (Nat.eqb_spec e31 e12); [open6; clash|]. destruct (Nat.eqb_spec e31 e11); [open6; clash|]. unfold en in V3. now rewrite V3. }
  assert (S6 : E h' e22 = mkhe (Some v4) (Some f2) (Some e12) (Some e31) (op h e22)).
  { change e22 with (nth 2 l2 0) at 1. rewrite D5 by (cbn; lia). unfold lp, en, op, cyc. cbn. rewrite A6 by notin.
    rewrite EG. destruct (Nat.eqb_spec e22 e12); [open6; clash|]. destruct (Nat.eqb_spec e22 e11); [open6; clash|]. unfold en in V4. now rewrite V4. }
  assert (ne' : ne h' = ne h) by lia. assert (nf' : nf h' = nf h) by lia.
  assert (nv' : nv h' = nv h) by (unfold nv in *; rewrite D1, A1; lia).
  assert (F1' : F h' f1 = Some e11).
  { rewrite D4. destruct (Nat.eqb_spec f1 f2); [congruence|]. rewrite A4, Nat.eqb_refl. reflexivity. }
  assert (F2' : F h' f2 = Some e12) by (rewrite D4, Nat.eqb_refl; reflexivity).
  assert (FO : forall f, f <> f1 -> f <> f2 -> F h' f = F h f).
  { intros f n1 n2'. rewrite D4. destruct (Nat.eqb_spec f f2); [congruence|]. rewrite A4. destruct (Nat.eqb_spec f f1); [congruence|]. apply FG. }
  assert (FLa : floop h' f1 l1).
  { split; [cbn; lia|]. split; [unfold l1; nodup3|]. split; [lia|]. split; [exact F1'|].
    intros i Hi. cbn in Hi. unfold fc, nx, pv, en, cyc. destruct i as [|[|[|i]]]; [| | |lia]; cbn [nth l1]; rewrite ?S1, ?S2, ?S3; cbn;
      (split; [lia|]); repeat (split; [reflexivity|]); eexists; (split; [reflexivity|]); lia. }
  assert (FLb : floop h' f2 l2).
  { split; [cbn; lia|]. split; [unfold l2; nodup3|]. split; [lia|]. split; [exact F2'|].
    intros i Hi. cbn in Hi. unfold fc, nx, pv, en, cyc. destruct i as [|[|[|i]]]; [| | |lia]; cbn [nth l2]; rewrite ?S4, ?S5, ?S6; cbn;
      (split; [lia|]); repeat (split; [reflexivity|]); eexists; (split; [reflexivity|]); lia. }
  assert (EO : forall x, ~ In x [e11; e21; e31; e12; e22; e32] -> E h' x = E h x).
  { intros x Hx. cbn in Hx. rewrite D6 by (cbn; tauto). rewrite A6 by (cbn; tauto). rewrite EG.
    destruct (Nat.eqb_spec x e12) as [->|]; [tauto|]. destruct (Nat.eqb_spec x e11) as [->|]; [tauto|]. reflexivity. }
  split; [exact ND|]. split; [exact M1|]. split; [exact M2|].
  repeat (split; [first [assumption|reflexivity|now apply Lf_ok]|]).
  split.
  { intros x. unfold vco. rewrite D1, A1. fold (vco g6 x). now rewrite K11, K5, CG4, CG2. }
  split.
  { intros x. unfold ve at 1. rewrite D1, A1. fold (ve g6 x). rewrite K12.
    assert (G4 : forall x, ve g4 x = if x =? v2 then Some e12 else if x =? v4 then Some e11 else ve h x).
    { intros y. now rewrite VG4, VG2. }
    rewrite !K6. rewrite !G4.
    destruct (Nat.eqb_spec x v3) as [->|Na]; cbn [andb].
    - destruct (Nat.eqb_spec v3 v1) as [->|Nb]; cbn [andb]; reflexivity.
    - destruct (Nat.eqb_spec x v1) as [->|Nb]; cbn [andb]; reflexivity. }
  (* invariant *)
  set (K := filter (fun f => negb (f =? f1) && negb (f =? f2)) fs).
  assert (PK : Permutation fs (K ++ [f1; f2])).
  { apply NoDup_Permutation; auto.
    - apply NoDup_app_intro; [apply NoDup_filter; auto|repeat constructor; cbn; intuition congruence|].
      intros a Ha Hb. apply filter_In in Ha as [_ Ha]. destruct Hb as [<-|[<-|[]]]; rewrite Nat.eqb_refl in Ha; rewrite ?andb_false_r in Ha; discriminate.
    - intros x. unfold K. rewrite in_app_iff, filter_In. cbn. split.
      + intros Hx. destruct (Nat.eqb_spec x f1) as [->|]; [auto|]. destruct (Nat.eqb_spec x f2) as [->|]; auto.
      + intros [[Hx _]|[<-|[<-|[]]]]; auto. }
  assert (KI : forall g, In g K <-> In g fs /\ g <> f1 /\ g <> f2).
  { intros g. unfold K. rewrite filter_In. destruct (Nat.eqb_spec g f1), (Nat.eqb_spec g f2); cbn; intuition congruence. }
  assert (KE : forall e, Live h K e -> ~ In e [e11; e21; e31; e12; e22; e32]).
  { intros e (g & Ig & Ie) J. apply KI in Ig as (Ig & G1 & G2).
    change [e11; e21; e31; e12; e22; e32] with ([e11; e21; e31] ++ [e12; e22; e32]) in J. apply in_app_or in J as [J|J].
    - apply G1. apply (floop_face h g f1 (Lf h g) (Lf h f1) e); auto. now apply M1.
    - apply G2. apply (floop_face h g f2 (Lf h g) (Lf h f2) e); auto. now apply M2. }
  assert (IK : incl K fs) by (intros g Ig; now apply KI in Ig).
  assert (SK : forall e, Live h K e -> st h' e = st h e).
  { intros e (g & Ig & Ie). apply (floop_st_frame h h' g (Lf h g)); auto.
    intros x Ix. unfold en, pv. rewrite EO; [auto|]. apply KE. exists g; auto. }
  (* outer edges keep their ends *)
  assert (OUT : forall x, In x [e21; e31; e22; e32] -> en h' x = en h x /\ st h' x = st h x /\ op h' x = op h x /\ op h x <> Some e11 /\ op h x <> Some e12).
  { intros x Hx.
    assert (LX : Live h fs x) by (destruct Hx as [<-|[<-|[<-|[<-|[]]]]]; auto).
    assert (Q : op h x <> Some e11 /\ op h x <> Some e12).
    { split; intros Q; destruct (minv_pair _ _ _ _ H LX Q) as (_ & _ & Q' & _);
        [assert (Q3' : x = e12) by congruence|assert (Q3' : x = e11) by congruence]; revert Hx; rewrite Q3'; notin. }
    split; [|split; [|split; [|exact Q]]].
    - unfold en. destruct Hx as [<-|[<-|[<-|[<-|[]]]]]; rewrite ?S2, ?S3, ?S5, ?S6; cbn; auto.
    - unfold st. destruct Hx as [<-|[<-|[<-|[<-|[]]]]].
      + rewrite P2. unfold pv, en. rewrite S3. cbn. rewrite S2. cbn. auto.
      + rewrite P3. unfold pv, en. rewrite S5. cbn. rewrite S4. cbn. auto.
      + rewrite Q2. unfold pv, en. rewrite S6. cbn. rewrite S5. cbn. auto.
      + rewrite Q3. unfold pv, en. rewrite S2. cbn. rewrite S1. cbn. auto.
    - unfold op. destruct Hx as [<-|[<-|[<-|[<-|[]]]]]; rewrite ?S2, ?S3, ?S5, ?S6; cbn; auto. }
  set (LN := fun g => if g =? f1 then l1 else l2).
  assert (LN1 : LN f1 = l1) by (unfold LN; now rewrite Nat.eqb_refl).
  assert (LN2 : LN f2 = l2) by (unfold LN; destruct (Nat.eqb_spec f2 f1); [congruence|auto]).
  apply minv_perm with (K ++ [f1; f2]); [|now apply Permutation_sym].
  assert (OLD : forall e o, Live h K e \/ In e [e21; e31; e22; e32] -> op h' e = Some o ->
     (Live h K o \/ exists g, In g [f1; f2] /\ In o (LN g)) /\ o <> e /\ op h' o = Some e /\ rev_pair h' e o).
  { intros e o Le Ho.
    assert (Fe : op h' e = op h e /\ en h' e = en h e /\ st h' e = st h e).
    { destruct Le as [Le|Ie]; [unfold op, en; rewrite EO by (now apply KE); rewrite SK by auto; auto|]. apply OUT in Ie. tauto. }
    destruct Fe as (Fo & Fe & Fs). rewrite Fo in Ho.
    assert (LV : Live h fs e).
    { destruct Le as [Le|Ie]; [now apply (Live_incl _ K)|]. destruct Ie as [<-|[<-|[<-|[<-|[]]]]]; auto. }
    destruct (minv_pair _ _ _ _ H LV Ho) as (C1 & C2 & C3 & C4 & C5).
    assert (Lo : Live h K o \/ In o [e21; e31; e22; e32]).
    { destruct C1 as (g & Ig & Io). destruct (Nat.eq_dec g f1) as [->|G1]; [|destruct (Nat.eq_dec g f2) as [->|G2]].
      - right. apply M1 in Io. destruct Io as [<-|[<-|[<-|[]]]]; [|cbn; auto|cbn; auto].
        exfalso. rewrite O11 in C3. injection C3 as <-. destruct Le as [Le|Ie]; [apply (KE _ Le); cbn; auto 8|revert Ie; notin].
      - right. apply M2 in Io. destruct Io as [<-|[<-|[<-|[]]]]; [|cbn; auto|cbn; auto].
        exfalso. rewrite O12 in C3. injection C3 as <-. destruct Le as [Le|Ie]; [apply (KE _ Le); cbn; auto 8|revert Ie; notin].
      - left. exists g. split; auto. apply KI. auto. }
    assert (Go : op h' o = op h o /\ en h' o = en h o /\ st h' o = st h o).
    { destruct Lo as [Lo|Io]; [unfold op, en; rewrite EO by (now apply KE); rewrite SK by auto; auto|]. apply OUT in Io. tauto. }
    destruct Go as (Go & Ge & Gs). split; [|split; [auto|split; [congruence|unfold rev_pair; rewrite Fe, Fs, Ge, Gs; auto]]].
    destruct Lo as [Lo|Io]; auto. right. destruct Io as [<-|[<-|[<-|[<-|[]]]]].
    - exists f1. rewrite LN1. cbn; auto. - exists f2. rewrite LN2. cbn; auto.
    - exists f2. rewrite LN2. cbn; auto. - exists f1. rewrite LN1. cbn; auto. }
  apply (minv_build h h' fs K [f1; f2] LN); auto; try lia.
  - apply (Permutation_NoDup PK). auto.
  - intros g Ig. apply KI in Ig as (_ & G1 & G2). auto.
  - intros e Le. unfold en, fc, nx, pv. rewrite EO by (now apply KE). auto.
  - intros g [<-|[<-|[]]]; rewrite ?LN1, ?LN2; auto.
  - assert (SA : st h' e11 = Some v2) by (unfold st, pv, en; rewrite S1; cbn; now rewrite S3).
    assert (SB : st h' e12 = Some v4) by (unfold st, pv, en; rewrite S4; cbn; now rewrite S6).
    assert (EA : en h' e11 = Some v4) by (unfold en; now rewrite S1).
    assert (EB : en h' e12 = Some v2) by (unfold en; now rewrite S4).
    intros g e o [<-|[<-|[]]] Ie Ho; rewrite ?LN1, ?LN2 in Ie.
    + destruct Ie as [<-|[<-|[<-|[]]]]; [|apply OLD; auto; cbn; auto 8|apply OLD; auto; cbn; auto 8].
      unfold op in Ho. rewrite S1 in Ho. cbn in Ho. injection Ho as <-.
      split; [right; exists f2; rewrite LN2; cbn; auto|]. split; [auto|]. split; [unfold op; now rewrite S4|].
      unfold rev_pair. now rewrite SA, SB, EA, EB.
    + destruct Ie as [<-|[<-|[<-|[]]]]; [|apply OLD; auto; cbn; auto 8|apply OLD; auto; cbn; auto 8].
      unfold op in Ho. rewrite S4 in Ho. cbn in Ho. injection Ho as <-.
      split; [right; exists f1; rewrite LN1; cbn; auto|]. split; [auto|]. split; [unfold op; now rewrite S1|].
      unfold rev_pair. now rewrite SA, SB, EA, EB.
Qed.
End Mesh.
