(** Moving the poles of a surface: constraints met, displacement, misses. *)
From Coq Require Import List Arith Reals Lia Lra Bool.
From Verif Require Import Model_Base Model_Knots Model_Basis Model_Curve Model_Interp Model_Surface Model_Skin Model_Shape
  Spec_Base Spec_Basis Spec_Eval Spec_Class Spec_Surface Spec_Interp Spec_Solve Spec_Shape
  Proof_Base Proof_Blossom Proof_Basis Proof_Eval Proof_PropBasis Proof_Curve Proof_Interp Proof_Interp2 Proof_Interp3
  Proof_Tfi Proof_SurfEdit Proof_Skin1 Proof_Skin2 Proof_Skin3 Proof_Shape1 Proof_Shape2 Proof_Shape3 Proof_Shape6.
Import ListNotations.
Local Open Scope R_scope.

Lemma div_in l nu nv : (l < nu * nv)%nat -> (l mod nu < nu /\ l / nu < nv /\ l = l mod nu + nu * (l / nu))%nat.
Proof.
  intros H. assert (nu <> 0)%nat by (intros ->; simpl in H; lia).
  split; [apply Nat.mod_upper_bound; assumption|]. split; [apply Nat.div_lt_upper_bound; assumption|].
  rewrite Nat.add_comm. apply Nat.div_mod. assumption.
Qed.

Section AtR.
Variable eps : R.
Local Hint Extern 0 (Num R) => exact (NumR eps) : typeclass_instances.

Section Srf.
Variable s : surf R.
Hypothesis Hs : shapeable_surface eps s.
Notation ku := (s_ku s).
Notation kv := (s_kv s).
Notation n := (s_nU s).
Notation m := (s_nV s).
Notation p := (s_degU s).
Notation q := (s_degV s).
Notation rvu := (rv eps ku n p).
Notation rvv := (rv eps kv m q).

Lemma ss_facts : knots_ok ku n p /\ knots_ok kv m q /\ end_clamped ku n p /\ end_clamped kv m q /\
  separated eps ku /\ separated eps kv /\ 0 < eps /\ length (s_poles s) = (n * m)%nat.
Proof.
  destruct Hs as ((A & B & C) & _ & He & (_ & C1) & (_ & C2) & S1 & S2). repeat (split; [assumption|]). exact C.
Qed.
Lemma ss_ev : evaluable2 eps ku n p kv m q.
Proof. destruct ss_facts as (_ & _ & A & B & C & D & E & _). right. auto. Qed.

(** Weight of the pole of index l at (u, v). *)
Definition wgt (u v : R) (l : nat) : R := rvu u 0 (l mod n) * rvv v 0 (l / n).

Definition same_shape (s' : surf R) : Prop :=
  s_degU s' = p /\ s_degV s' = q /\ s_ku s' = ku /\ s_kv s' = kv /\
  s_u1 s' = s_u1 s /\ s_u2 s' = s_u2 s /\ s_v1 s' = s_v1 s /\ s_v2 s' = s_v2 s /\
  length (s_poles s') = length (s_poles s).

Lemma ss_value0 (s' : surf R) u v du dv : same_shape s' -> in_surface s u v ->
  exists z, surf_value s' u v du dv = Ok z /\
    forall co, z co = sumn m (fun j => rvv v dv j * sumn n (fun i => rvu u du i * nth (i + n * j) (s_poles s') (fun _ => 0) co)).
Proof.
  intros (E1 & E2 & E3 & E4 & E5 & E6 & E7 & E8 & E9) Hin.
  destruct ss_facts as (Hku & Hkv & _ & _ & _ & _ & He & LP).
  assert (Hn' : s_nU s' = n) by (unfold s_nU; rewrite E1, E3; reflexivity).
  assert (Hm' : s_nV s' = m) by (unfold s_nV; rewrite E2, E4; reflexivity).
  assert (LP' : length (s_poles s') = (n * m)%nat) by congruence.
  destruct (surf_rv eps ku kv n m p q Hku Hkv ss_ev (s_poles s') u v du dv LP' Hin) as (z & Ez & Vz).
  exists z. split; [|exact Vz].
  rewrite (surf_value_in eps s' u v du dv).
  - rewrite E1, E2, E3, E4. exact Ez.
  - lra.
  - unfold surface_ok, grid_ok. rewrite Hn', Hm', E1, E2, E3, E4. auto.
  - unfold natural_surface. rewrite Hn', Hm', E1, E2, E3, E4, E5, E6, E7, E8. destruct Hs as (_ & H & _). exact H.
  - unfold in_surface. rewrite Hn', Hm', E1, E2, E3, E4. exact Hin.
Qed.

Lemma ss_value (s' : surf R) u v : same_shape s' -> in_surface s u v ->
  exists z, surf_value s' u v 0 0 = Ok z /\
    forall co, z co = sumn (n * m) (fun l => wgt u v l * nth l (s_poles s') (fun _ => 0) co).
Proof.
  intros Hsh Hin. destruct (ss_value0 s' u v 0 0 Hsh Hin) as (z & Ez & Vz). exists z. split; [exact Ez|].
  destruct ss_facts as ((_ & Hp & _) & _).
  intros co. rewrite Vz. rewrite sumn_grid by lia. apply sumn_ext. intros j Hj. rewrite <- sumn_scal. apply sumn_ext.
  intros i Hi. unfold wgt. destruct (grid_index i j n ltac:(lia) Hi) as (-> & ->). ring.
Qed.

Section Win.
Variables (i1 i2 j1 j2 nu nv : nat).
Hypothesis Hi2 : (i2 < n)%nat.
Hypothesis Hj2 : (j2 < m)%nat.
Hypothesis Hnu : (i1 + nu = i2 + 1)%nat.
Hypothesis Hnv : (j1 + nv = j2 + 1)%nat.

Definition widx (l : nat) : nat := (i1 + l mod nu) + n * (j1 + l / nu).

Lemma widx_lt l : (l < nu * nv)%nat -> (widx l < n * m)%nat.
Proof. intros Hl. destruct (div_in l nu nv Hl) as (A & B & _). apply grid_lt; lia. Qed.
Lemma widx_inj l l' : (l < nu * nv)%nat -> (l' < nu * nv)%nat -> widx l = widx l' -> l = l'.
Proof.
  intros Hl Hl' E. destruct (div_in l nu nv Hl) as (A & B & C), (div_in l' nu nv Hl') as (A' & B' & C').
  apply grid_inj in E as (E1 & E2); [|lia|lia].
  assert (F1 : (l mod nu = l' mod nu)%nat) by lia. assert (F2 : (l / nu = l' / nu)%nat) by lia. rewrite C, C', F1, F2. reflexivity.
Qed.
Lemma widx_out l : (l < n * m)%nat -> (forall b, (b < nu * nv)%nat -> widx b <> l) ->
  (l mod n < i1 \/ i2 < l mod n \/ l / n < j1 \/ j2 < l / n)%nat.
Proof.
  intros Hl Hb. destruct (div_in l n m Hl) as (A & B & C).
  destruct (Nat.lt_ge_cases (l mod n) i1); [auto|]. destruct (Nat.lt_ge_cases i2 (l mod n)); [auto|].
  destruct (Nat.lt_ge_cases (l / n) j1); [auto|]. destruct (Nat.lt_ge_cases j2 (l / n)); [auto|]. exfalso.
  set (a := (l mod n - i1)%nat). set (b := (l / n - j1)%nat).
  apply (Hb (a + nu * b)%nat); [apply grid_lt; unfold a, b; lia|].
  unfold widx. destruct (grid_index a b nu) as (-> & ->); [unfold a; lia|unfold a; lia|].
  transitivity (l mod n + n * (l / n))%nat; [|symmetry; exact C].
  replace (i1 + a)%nat with (l mod n)%nat by (unfold a; lia). replace (j1 + b)%nat with (l / n)%nat by (unfold b; lia). reflexivity.
Qed.

Lemma reshaped_shape s' : reshaped_surface s i1 i2 j1 j2 s' -> same_shape s'.
Proof. unfold reshaped_surface, same_shape. tauto. Qed.

Lemma out_eq s' l co : reshaped_surface s i1 i2 j1 j2 s' -> (l < n * m)%nat ->
  (forall b, (b < nu * nv)%nat -> widx b <> l) -> nth l (s_poles s') (fun _ => 0) co = nth l (s_poles s) (fun _ => 0) co.
Proof.
  intros Hr Hl Hb. destruct (div_in l n m Hl) as (A & B & C). pose proof (widx_out l Hl Hb) as Ho.
  destruct Hr as (_ & _ & _ & _ & _ & _ & _ & _ & _ & H). rewrite C. rewrite H by auto. reflexivity.
Qed.

Definition dsp (P P' : list (pt R)) co (l : nat) : R := nth (widx l) P' (fun _ => 0) co - nth (widx l) P (fun _ => 0) co.

Lemma val_window s' u v co : reshaped_surface s i1 i2 j1 j2 s' ->
  sumn (n * m) (fun l => wgt u v l * nth l (s_poles s') (fun _ => 0) co) =
  sumn (n * m) (fun l => wgt u v l * nth l (s_poles s) (fun _ => 0) co) +
  sumn (nu * nv) (fun l => wgt u v (widx l) * dsp (s_poles s) (s_poles s') co l).
Proof.
  intros Hr.
  rewrite (sumn_ext (n * m) (fun l => wgt u v l * nth l (s_poles s') (fun _ => 0) co)
   (fun l => wgt u v l * nth l (s_poles s) (fun _ => 0) co + wgt u v l * (nth l (s_poles s') (fun _ => 0) co - nth l (s_poles s) (fun _ => 0) co))) by (intros; ring).
  rewrite sumn_plus. f_equal.
  rewrite (sumn_inj (n * m) (nu * nv) widx); [reflexivity|exact widx_lt|exact widx_inj|].
  intros l Hl Hb. rewrite (out_eq s' l co Hr Hl Hb). ring.
Qed.
Lemma disp_surf s' co : reshaped_surface s i1 i2 j1 j2 s' ->
  displacement (s_poles s) (s_poles s') co = sumn (nu * nv) (fun l => dsp (s_poles s) (s_poles s') co l ^ 2).
Proof.
  intros Hr. destruct ss_facts as (_ & _ & _ & _ & _ & _ & _ & LP). unfold displacement. rewrite LP.
  rewrite (sumn_inj (n * m) (nu * nv) widx); [reflexivity|exact widx_lt|exact widx_inj|].
  intros l Hl Hb. rewrite (out_eq s' l co Hr Hl Hb). ring.
Qed.
End Win.

Section Delta.
Variables (lu llt : @solver R) (dim : nat) (goals ds : list (@scons R)) (i1 i2 j1 j2 : nat).
Hypothesis Hlu : exact_solver lu.
Hypothesis Hllt : exact_solver llt.
Hypothesis Hi2 : (i2 < n)%nat.
Hypothesis Hj2 : (j2 < m)%nat.
Hypothesis Hpos : forall g, In g goals -> in_surface s (sc_u g) (sc_v g).
Hypothesis Hg : surface_gaps eps s goals ds.

Lemma sgaps_len : length ds = length goals.
Proof. symmetry. clear Hpos. unfold surface_gaps in Hg. induction Hg as [|? ? ? ? ? ? IH]; simpl; auto. Qed.
Lemma sgaps_in d : In d ds -> in_rect ku n p kv m q (sc_u d) (sc_v d).
Proof.
  intros Hd. apply In_nth_error in Hd as (r & Hr).
  destruct (nth_error goals r) as [g|] eqn:Eg.
  - destruct (f2_nth _ _ _ Hg r g Eg) as (d' & Hd' & E1 & E2 & _). rewrite Hr in Hd'. injection Hd' as <-. rewrite E1, E2.
    apply Hpos. eapply nth_error_In; eauto.
  - apply nth_error_None in Eg. rewrite <- sgaps_len in Eg. apply nth_error_None in Eg. congruence.
Qed.

Lemma surf_delta_core P' : surf_move_delta lu llt dim (s_poles s) ds ku kv p q i1 i2 j1 j2 = Ok P' ->
  exists nu nv B, (i1 + nu = i2 + 1)%nat /\ (j1 + nv = j2 + 1)%nat /\
    surf_shape_matrix ds ku kv p q i1 nu j1 nv = Ok B /\
    m_rows B = length goals /\ m_cols B = (nu * nv)%nat /\
    (forall r g l, nth_error goals r = Some g -> (l < nu * nv)%nat -> m_cell B r l = wgt (sc_u g) (sc_v g) (widx i1 j1 nu l)) /\
    length P' = length (s_poles s) /\
    (forall i j, (i < n)%nat -> (i < i1 \/ i2 < i \/ j < j1 \/ j2 < j)%nat ->
       nth (i + n * j) P' (fun _ => 0) = nth (i + n * j) (s_poles s) (fun _ => 0)) /\
    forall co, (co < dim)%nat -> exists x,
      shape_solve lu llt B (map (fun d => sc_x d co) ds) = Ok x /\ length x = (nu * nv)%nat /\
      forall l, (l < nu * nv)%nat -> dsp i1 j1 nu (s_poles s) P' co l = nth l x 0.
Proof.
  intros E. destruct ss_facts as (Hku & Hkv & Hcu & Hcv & Hsu & Hsv & He & LP).
  unfold surf_move_delta in E. destruct (bind_inv _ _ _ E) as (nu & Enu & E1). clear E.
  destruct (bind_inv _ _ _ E1) as (nv & Env & E2). clear E1.
  unfold subi in Enu, Env. destruct (Nat.leb_spec i1 (i2 + 1)) as [Hle|]; [|discriminate]. injection Enu as Enu.
  destruct (Nat.leb_spec j1 (j2 + 1)) as [Hle'|]; [|discriminate]. injection Env as Env.
  destruct (bind_inv _ _ _ E2) as (npu & Ep & E3). clear E2.
  assert (npu = n) as ->.
  { unfold subi in Ep. destruct (Nat.leb_spec (p + 1) (length ku)); [|discriminate]. injection Ep as Ep. unfold s_nU. lia. }
  destruct (surf_shape_matrix_ok eps ku kv n m p q Hku Hkv Hcu Hcv Hsu Hsv He ds i1 nu j1 nv ltac:(lia) ltac:(lia) sgaps_in) as (B & EB & RB & CB & VB).
  rewrite EB in E3. cbn [bind] in E3. destruct (bind_inv _ _ _ E3) as (X & EX & E4). clear E3.
  destruct (surf_shift_ok eps (s_poles s) (poles_of_columns (nu * nv) X) n m i1 nu j1 nv LP ltac:(lia) ltac:(lia) (poles_length eps _ X)) as (P1 & EP & LP1 & VP).
  assert (P1 = P') as ->. { pose proof (eq_trans (eq_sym EP) E4) as H. injection H as H. exact H. } clear E4.
  exists nu, nv, B. split; [lia|]. split; [lia|]. split; [exact EB|]. split; [rewrite RB; apply sgaps_len|]. split; [exact CB|].
  split.
  { intros r g l Hr Hl. destruct (div_in l nu nv Hl) as (A1 & A2 & A3).
    destruct (f2_nth _ _ _ Hg r g Hr) as (d & Hd & Eu & Ev & _).
    rewrite A3 at 1. rewrite (VB r d _ _ Hd A1 A2), Eu, Ev. unfold wgt, widx.
    destruct (grid_index (i1 + l mod nu) (j1 + l / nu) n) as (-> & ->); [lia|lia|]. reflexivity. }
  split; [exact LP1|]. split.
  { intros i j Hi Ho. rewrite VP by exact Hi. destruct (in_win i1 nu j1 nv i j) eqn:Ew; [|reflexivity].
    apply in_win_iff in Ew. lia. }
  intros co Hco. destruct (mapM_seq _ _ _ EX) as (LX & HX). destruct (HX co Hco) as (x & Hx & Ex).
  exists x. split; [exact Ex|].
  assert (Lb : length (map (fun d => sc_x d co) ds) = m_rows B) by (rewrite map_length; congruence).
  destruct (shape_solve_ok eps lu llt B _ x Hlu Hllt Lb Ex) as (Lx & _). rewrite CB in Lx. split; [exact Lx|].
  intros l Hl. destruct (div_in l nu nv Hl) as (A1 & A2 & A3). unfold dsp, widx. rewrite VP by lia.
  assert (in_win i1 nu j1 nv (i1 + l mod nu) (j1 + l / nu) = true) as -> by (apply in_win_iff; lia).
  replace (i1 + l mod nu - i1 + nu * (j1 + l / nu - j1))%nat with l
    by (replace (i1 + l mod nu - i1)%nat with (l mod nu)%nat by lia; replace (j1 + l / nu - j1)%nat with (l / nu)%nat by lia; exact A3).
  unfold padd. nsimp. pose proof (poles_cell eps (nu * nv) X co l x Hx Hl Lx) as Hp. unfold pole in Hp.
  match goal with |- ?a + ?b - ?a' = _ => change (a + b - a = nth l x 0) end.
  transitivity (nth l (poles_of_columns (nu * nv) X) (fun _ => 0) co); [ring|exact Hp].
Qed.

Lemma surf_delta_ok s' : (0 < length goals)%nat -> positions s goals ->
  surf_moved_delta lu llt dim s ds i1 i2 j1 j2 = Ok s' ->
  reshaped_surface s i1 i2 j1 j2 s' /\
  ((length goals <= (i2 + 1 - i1) * (j2 + 1 - j1))%nat -> meets_surface eps dim s' goals) /\
  ((length goals < (i2 + 1 - i1) * (j2 + 1 - j1))%nat -> forall s'' co, (co < dim)%nat ->
     reshaped_surface s i1 i2 j1 j2 s'' -> meets_surface eps dim s'' goals ->
     displacement (s_poles s) (s_poles s') co <= displacement (s_poles s) (s_poles s'') co) /\
  (((i2 + 1 - i1) * (j2 + 1 - j1) < length goals)%nat -> forall s'' co e e'', (co < dim)%nat ->
     reshaped_surface s i1 i2 j1 j2 s'' -> surface_misses_by eps s' goals co e -> surface_misses_by eps s'' goals co e'' -> e <= e'').
Proof.
  intros Hne Hps E. destruct ss_facts as (Hku & Hkv & _ & _ & _ & _ & He & LP).
  unfold surf_moved_delta in E. rewrite sgaps_len in E. destruct (Nat.ltb_spec 0 (length goals)); [|lia].
  destruct (bind_inv _ _ _ E) as (P' & EP & E1). clear E.
  destruct (surf_delta_core P' EP) as (nu & nv & B & Hnu & Hnv & EB & RB & CB & VB & LP' & Out & Col).
  apply (mk_surf_inv eps) in E1. subst s'. set (s' := mks p q P' ku kv _ _ _ _).
  assert (Lku : length ku = (n + p + 1)%nat) by (destruct Hku as (L & _); exact L).
  assert (Lkv : length kv = (m + q + 1)%nat) by (destruct Hkv as (L & _); exact L).
  assert (Hr : reshaped_surface s i1 i2 j1 j2 s').
  { destruct Hs as (_ & (N1 & N2 & N3 & N4) & _).
    unfold reshaped_surface, s'. cbn [s_degU s_degV s_ku s_kv s_u1 s_u2 s_v1 s_v2 s_poles].
    rewrite N1, N2, N3, N4, Lku, Lkv. repeat (split; [first [reflexivity|f_equal; lia|assumption]|]). exact Out. }
  assert (Row : forall (s'' : surf R) r g co, reshaped_surface s i1 i2 j1 j2 s'' -> nth_error goals r = Some g ->
     exists z, surf_value s'' (sc_u g) (sc_v g) (sc_du g) (sc_dv g) = Ok z /\
       z co = sumn (n * m) (fun l => wgt (sc_u g) (sc_v g) l * nth l (s_poles s) (fun _ => 0) co) +
              row_of B (fun l => dsp i1 j1 nu (s_poles s) (s_poles s'') co l) r).
  { intros s'' r g co Hr'' Hg'. destruct (Hps g (nth_error_In _ _ Hg')) as (-> & -> & Hin).
    destruct (ss_value s'' (sc_u g) (sc_v g) (reshaped_shape i1 i2 j1 j2 s'' Hr'') Hin) as (z & Ez & Vz).
    exists z. split; [exact Ez|]. rewrite Vz, (val_window i1 i2 j1 j2 nu nv Hi2 Hj2 Hnu Hnv s'') by exact Hr''.
    f_equal. unfold row_of. rewrite CB. apply sumn_ext. intros l Hl. rewrite (VB r g l Hg' Hl). reflexivity. }
  assert (Rhs : forall r g co, nth_error goals r = Some g ->
     nth r (map (fun d => sc_x d co) ds) 0 = sc_x g co - sumn (n * m) (fun l => wgt (sc_u g) (sc_v g) l * nth l (s_poles s) (fun _ => 0) co)).
  { intros r g co Hg'. destruct (f2_nth _ _ _ Hg r g Hg') as (d & Hd & _ & _ & z & Ez & Vz).
    destruct (Hps g (nth_error_In _ _ Hg')) as (Edu & Edv & Hin). rewrite Edu, Edv in Ez.
    destruct (ss_value s (sc_u g) (sc_v g)) as (z' & Ez' & Vz'); [unfold same_shape; tauto|exact Hin|].
    rewrite Ez in Ez'. injection Ez' as <-. rewrite <- Vz'. rewrite <- Vz.
    apply nth_error_nth. rewrite (map_nth_error _ _ _ Hd). reflexivity. }
  assert (Lb : forall co, length (map (fun d => sc_x d co) ds) = m_rows B)
    by (intros co; rewrite map_length, RB; apply sgaps_len).
  replace (i2 + 1 - i1)%nat with nu by lia. replace (j2 + 1 - j1)%nat with nv by lia.
  split; [exact Hr|]. split; [|split].
  - intros Hle g Hgin. apply In_nth_error in Hgin as (r & Hg').
    destruct (Row s' r g 0%nat Hr Hg') as (z & Ez & _). exists z. split; [exact Ez|]. intros co Hco.
    destruct (Row s' r g co Hr Hg') as (z' & Ez' & Vz). rewrite Ez in Ez'. injection Ez' as <-. rewrite Vz.
    destruct (Col co Hco) as (x & Ex & Lx & Vx).
    destruct (shape_solve_ok eps lu llt B _ x Hlu Hllt (Lb co) Ex) as (_ & H1 & _).
    assert (Hr' : (r < m_rows B)%nat) by (rewrite RB; apply nth_error_Some; congruence).
    specialize (H1 ltac:(lia) r Hr'). rewrite (Rhs r g co Hg') in H1.
    transitivity (sumn (n * m) (fun l => wgt (sc_u g) (sc_v g) l * nth l (s_poles s) (fun _ => 0) co) + row_of B (fun l => nth l x 0) r).
    + f_equal. unfold row_of. rewrite CB. apply sumn_ext. intros l Hl. f_equal. apply (Vx l Hl).
    + rewrite H1. ring.
  - intros Hlt s'' co Hco Hr'' Hm. destruct (Col co Hco) as (x & Ex & Lx & Vx).
    destruct (shape_solve_ok eps lu llt B _ x Hlu Hllt (Lb co) Ex) as (_ & _ & H2 & _).
    specialize (H2 ltac:(lia)). rewrite CB, RB in H2.
    rewrite (disp_surf i1 i2 j1 j2 nu nv Hi2 Hj2 Hnu Hnv s' co Hr), (disp_surf i1 i2 j1 j2 nu nv Hi2 Hj2 Hnu Hnv s'' co Hr'').
    rewrite (sumn_ext (nu * nv) (fun l => dsp i1 j1 nu (s_poles s) (s_poles s') co l ^ 2) (fun l => nth l x 0 ^ 2))
      by (intros l Hl; f_equal; apply (Vx l Hl)).
    apply H2. intros r Hr'. assert (exists g, nth_error goals r = Some g) as (g & Hg').
    { destruct (nth_error goals r) eqn:Eg; [eauto|apply nth_error_None in Eg; lia]. }
    rewrite (Rhs r g co Hg'). destruct (Row s'' r g co Hr'' Hg') as (z & Ez & Vz).
    destruct (Hm g (nth_error_In _ _ Hg')) as (z' & Ez' & Vg). rewrite Ez in Ez'. injection Ez' as <-.
    rewrite <- (Vg co Hco), Vz.
    change (fun l : nat => dsp i1 j1 nu (s_poles s) (s_poles s'') co l) with (dsp i1 j1 nu (s_poles s) (s_poles s'') co). ring.
  - intros Hgt s'' co e e'' Hco Hr'' (V & HV & ->) (V'' & HV'' & ->). destruct (Col co Hco) as (x & Ex & Lx & Vx).
    destruct (shape_solve_ok eps lu llt B _ x Hlu Hllt (Lb co) Ex) as (_ & _ & _ & H3).
    specialize (H3 ltac:(lia) (fun l => dsp i1 j1 nu (s_poles s) (s_poles s'') co l)).
    rewrite RB in H3.
    assert (Term : forall (s1 : surf R) (V1 : nat -> pt R) (y : nat -> R), reshaped_surface s i1 i2 j1 j2 s1 ->
      (forall i g, nth_error goals i = Some g -> surf_value s1 (sc_u g) (sc_v g) (sc_du g) (sc_dv g) = Ok (V1 i)) ->
      (forall l, (l < nu * nv)%nat -> dsp i1 j1 nu (s_poles s) (s_poles s1) co l = y l) ->
      sumn (length goals) (fun i => (V1 i co - sc_x (nth i goals (mksc 0 0 (fun _ => 0) 0%nat 0%nat)) co) ^ 2)
      = sumn (length goals) (fun r => (row_of B y r - nth r (map (fun d => sc_x d co) ds) 0) ^ 2)).
    { intros s1 V1 y Hr1 HV1 Hy. apply sumn_ext. intros i Hi.
      pose proof (nth_error_default goals i (mksc 0 0 (fun _ => 0) 0%nat 0%nat) Hi) as Hg'. set (g := nth i goals _) in *.
      destruct (Row s1 i g co Hr1 Hg') as (z & Ez & Vz). rewrite (HV1 i g Hg') in Ez. injection Ez as Ez.
      rewrite (Rhs i g co Hg'). f_equal. rewrite Ez, Vz.
      replace (row_of B y i) with (row_of B (fun l => dsp i1 j1 nu (s_poles s) (s_poles s1) co l) i).
      - ring.
      - unfold row_of. rewrite CB. apply sumn_ext. intros l Hl. f_equal. apply (Hy l Hl). }
    rewrite (Term s' V (fun l => nth l x 0) Hr HV Vx).
    rewrite (Term s'' V'' _ Hr'' HV'' (fun l _ => eq_refl)). exact H3.
Qed.
End Delta.
End Srf.
End AtR.
