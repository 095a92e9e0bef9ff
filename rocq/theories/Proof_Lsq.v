(** Least squares on surfaces. *)
From Coq Require Import List Arith ZArith Reals Lia Lra Bool.
From Verif Require Import Model_Base Model_Knots Model_Math Model_Basis Model_Curve Model_Interp Model_Surface Model_Skin
  Spec_Base Spec_Basis Spec_Eval Spec_Knots Spec_Interp Spec_Surface Spec_Skin Spec_Solve Spec_Approx Proof_Base Proof_Eval Proof_Builders Proof_Builders2
  Proof_Band Proof_Interp Proof_Interp2 Proof_Interp3 Proof_Interp4 Proof_Surface Proof_SurfEdit Proof_Tfi Proof_Json Proof_Skin1 Proof_Skin2 Proof_Skin3 Proof_SW2 Proof_SW3.
Import ListNotations.
Local Open Scope R_scope.

Lemma gram_apply m n (A : nat -> nat -> R) x i :
  sumn n (fun l => sumn m (fun r => A r i * A r l) * x l) = sumn m (fun r => A r i * sumn n (fun l => A r l * x l)).
Proof.
  rewrite (sumn_ext n _ (fun l => sumn m (fun r => A r i * A r l * x l))) by (intros; rewrite Rmult_comm, <- sumn_scal; apply sumn_ext; intros; ring).
  rewrite sumn_swap. apply sumn_ext. intros r _. rewrite <- sumn_scal. apply sumn_ext. intros; ring.
Qed.
Lemma sumn_cross a b (f g : nat -> R) (h : nat -> nat -> R) :
  sumn a (fun i => f i * sumn b (fun j => g j * h i j)) = sumn b (fun j => g j * sumn a (fun i => f i * h i j)).
Proof.
  rewrite (sumn_ext a _ (fun i => sumn b (fun j => f i * (g j * h i j)))) by (intros; rewrite sumn_scal; reflexivity).
  rewrite sumn_swap. apply sumn_ext. intros j _. rewrite <- sumn_scal. apply sumn_ext. intros; ring.
Qed.

Lemma lsq_opt2 a b n m (U V X Q Y : nat -> nat -> R) : (0 < n)%nat ->
  (forall i j, (i < n)%nat -> (j < m)%nat ->
     sumn a (fun r => U r i * sumn b (fun s => V s j * (sumn m (fun j' => V s j' * sumn n (fun i' => U r i' * X i' j')) - Q r s))) = 0) ->
  sumn b (fun s => sumn a (fun r => (sumn m (fun j => V s j * sumn n (fun i => U r i * X i j)) - Q r s) ^ 2)) <=
  sumn b (fun s => sumn a (fun r => (sumn m (fun j => V s j * sumn n (fun i => U r i * Y i j)) - Q r s) ^ 2)).
Proof.
  intros Hn H. destruct (Nat.eq_dec a 0) as [->|Ha]; [cbn [sumn]; apply Rle_refl|].
  assert (M : forall i j c, (i < c)%nat -> ((i + c * j) mod c = i /\ (i + c * j) / c = j)%nat).
  { intros i j c Hi. rewrite Nat.mul_comm, Nat.mod_add, Nat.div_add, Nat.mod_small, Nat.div_small by lia. split; lia. }
  set (A := fun r l => U (r mod a)%nat (l mod n)%nat * V (r / a)%nat (l / n)%nat).
  set (bb := fun r => Q (r mod a)%nat (r / a)%nat).
  assert (E : forall Z : nat -> nat -> R, forall r s, (r < a)%nat ->
    sumn (n * m) (fun l => A (r + a * s)%nat l * Z (l mod n)%nat (l / n)%nat) - bb (r + a * s)%nat =
    sumn m (fun j => V s j * sumn n (fun i => U r i * Z i j)) - Q r s).
  { intros Z r s Hr. unfold A, bb. destruct (M r s a Hr) as (-> & ->). f_equal. rewrite sumn_grid by exact Hn.
    apply sumn_ext. intros j _. rewrite <- sumn_scal. apply sumn_ext. intros i Hi. destruct (M i j n Hi) as (-> & ->). ring. }
  pose proof (lsq_opt (a * b) (n * m) A (fun l => X (l mod n)%nat (l / n)%nat) bb (fun l => Y (l mod n)%nat (l / n)%nat)) as L.
  assert (G : forall Z : nat -> nat -> R,
    sumn (a * b) (fun r => (sumn (n * m) (fun l => A r l * Z (l mod n)%nat (l / n)%nat) - bb r) ^ 2) =
    sumn b (fun s => sumn a (fun r => (sumn m (fun j => V s j * sumn n (fun i => U r i * Z i j)) - Q r s) ^ 2))).
  { intros Z. rewrite sumn_grid by lia. apply sumn_ext. intros s _. apply sumn_ext. intros r Hr. rewrite E by exact Hr. reflexivity. }
  rewrite <- (G X), <- (G Y). apply L. intros l Hl.
  assert (Hi : (l mod n < n)%nat) by (apply Nat.mod_upper_bound; lia).
  assert (Hj : (l / n < m)%nat) by (apply Nat.div_lt_upper_bound; lia).
  rewrite <- (H _ _ Hi Hj). rewrite sumn_grid by lia. rewrite (sumn_cross a b). apply sumn_ext. intros s _.
  rewrite <- sumn_scal. apply sumn_ext. intros r Hr. rewrite E by exact Hr. unfold A. destruct (M r s a Hr) as (-> & ->). ring.
Qed.

Section AtR.
Variable eps : R.
Local Hint Extern 0 (Num R) => exact (NumR eps) : typeclass_instances.

Section Data.
Variables (ku kv : list R) (n m p q : nat).
Hypothesis Hku : knots_ok ku n p.
Hypothesis Hkv : knots_ok kv m q.
Hypothesis Hev : evaluable2 eps ku n p kv m q.
Notation rvu := (rv eps ku n p).
Notation rvv := (rv eps kv m q).

Lemma npoles_of k c d : knots_ok k c d -> npoles k d = Ok c.
Proof. intros (L & H & _). unfold npoles, subi. destruct (Nat.leb_spec (d + 1) (length k)); [f_equal; lia|lia]. Qed.

Lemma gap_grid (P : list (pt R)) (Q : list (pt R)) (u v : list R) c : length P = (n * m)%nat ->
  (forall x, In x u -> kn ku p <= x <= kn ku n) -> (forall x, In x v -> kn kv q <= x <= kn kv m) ->
  forall i j, (i < length u)%nat -> (j < length v)%nat ->
    gap eps ku kv P p q (nth i u 0) (nth j v 0) 0 0 (nth (i + length u * j) Q (fun _ => 0)) c
      (sumn m (fun b => rvv (nth j v 0) 0 b * sumn n (fun a => rvu (nth i u 0) 0 a * pole P c (a + n * b)))
       - nth (i + length u * j) Q (fun _ => 0) c).
Proof.
  intros LP Hu Hv i j Hi Hj.
  destruct (surf_rv eps ku kv n m p q Hku Hkv Hev P (nth i u 0) (nth j v 0) 0 0 LP) as (z & Ez & Vz).
  { split; [apply Hu|apply Hv]; apply nth_In; assumption. }
  exists z. split; [exact Ez|]. rewrite Vz. reflexivity.
Qed.

(** The columns of Mu^T Q Mv. *)
Lemma approx_grid_ok ldlt dim (Q : list (pt R)) (u v : list R) P : exact_solver ldlt ->
  (forall x, In x u -> kn ku p <= x <= kn ku n) -> (forall x, In x v -> kn kv q <= x <= kn kv m) ->
  approx_grid ldlt dim Q ku kv u v p q = Ok P ->
  length P = (n * m)%nat /\ (n * m <= length Q)%nat /\
  forall c P', (c < dim)%nat -> length P' = (n * m)%nat -> exists e e' : nat -> nat -> R,
    (forall i j, (i < length u)%nat -> (j < length v)%nat ->
       gap eps ku kv P p q (nth i u 0) (nth j v 0) 0 0 (nth (i + length u * j) Q (fun _ => 0)) c (e i j) /\
       gap eps ku kv P' p q (nth i u 0) (nth j v 0) 0 0 (nth (i + length u * j) Q (fun _ => 0)) c (e' i j)) /\
    sumn (length v) (fun j => sumn (length u) (fun i => e i j ^ 2)) <=
    sumn (length v) (fun j => sumn (length u) (fun i => e' i j ^ 2)).
Proof.
  intros Hex Hu Hv E. unfold approx_grid in E. rewrite (npoles_of ku n p Hku), (npoles_of kv m q Hkv) in E. cbn [bind] in E.
  apply bind_inv in E as ([] & Ec & E). unfold check_approx_sizes_surf in Ec.
  destruct ((n <? p + 1)%nat || (m <? q + 1)%nat); [discriminate|].
  destruct (Nat.ltb_spec (length Q) (n * m)) as [|HQ]; [discriminate|]. clear Ec.
  destruct (row_matrix_ok eps ku u n p Hku (ev2_1 _ _ _ _ _ _ _ Hev) Hu) as (Mu & EMu & RMu & CMu & VMu).
  destruct (row_matrix_ok eps kv v m q Hkv (ev2_2 _ _ _ _ _ _ _ Hev) Hv) as (Mv & EMv & RMv & CMv & VMv).
  rewrite EMu, EMv in E. cbn [bind] in E. apply bind_inv in E as (X & EX & E). injection E as <-.
  assert (LP : length (poles_of_grids n m X) = (n * m)%nat) by apply grids_length.
  split; [exact LP|]. split; [exact HQ|]. intros c P' Hc LP'.
  assert (Hn : (0 < n)%nat) by (destruct Hku as (_ & H & _); lia).
  eexists. eexists. split.
  { intros i j Hi Hj. split; apply gap_grid; assumption. }
  destruct (mapM_seq _ _ _ EX) as (LX & HX). destruct (HX c Hc) as (Xc & HXc & EXc).
  apply bind_inv in EXc as (Qd & EQd & EXc).
  assert (HQd : length Qd = length v /\ forall b, (b < length v)%nat -> length (nth b Qd []) = length u /\
      forall a, (a < length u)%nat -> nth a (nth b Qd []) 0 = nth (a + length u * b) Q (fun _ => 0) c).
  { destruct (mapM_seq _ _ _ EQd) as (L1 & H1). split; [exact L1|]. intros b Hb. destruct (H1 b Hb) as (col & Hcol & Ecol).
    rewrite (nth_error_nth _ _ [] Hcol). destruct (mapM_seq _ _ _ Ecol) as (L2 & H2). split; [exact L2|]. intros a Ha.
    destruct (H2 a Ha) as (x & Hx & Ex). rewrite (nth_error_nth _ _ 0 Hx). cbv beta in Ex.
    destruct (Nat.lt_ge_cases (a + length u * b) (length Q)) as [Hlt|Hge].
    - rewrite (get_nth Q _ (fun _ => 0)) in Ex by exact Hlt. cbn [bind] in Ex. congruence.
    - exfalso. unfold get in Ex. apply nth_error_None in Hge. rewrite Hge in Ex. discriminate. }
  destruct HQd as (LQd & HQd).
  match type of EXc with two_solves _ _ _ ?cc _ = _ => set (cols := cc) in EXc end.
  assert (Hcols : forall i j, (i < n)%nat -> (j < m)%nat ->
    nth i (nth j cols []) 0 = sumn (length v) (fun iv => sumn (length u) (fun iu =>
       rvu (nth iu u 0) 0 i * nth (iu + length u * iv) Q (fun _ => 0) c) * rvv (nth iv v 0) 0 j)).
  { intros i j Hi Hj. unfold cols. rewrite nth_map_seq by exact Hj. rewrite nth_map_seq by exact Hi. rewrite nsum_R.
    apply sumn_ext. intros iv Hiv. destruct (HQd iv Hiv) as (L2 & H2). nsimp. rewrite VMv by exact Hiv. f_equal.
    rewrite nth_error_map, (nth_error_nth' Qd []) by lia. cbn [option_map]. unfold trans_mul.
    rewrite CMu. rewrite (nth_error_nth' _ 0) by (rewrite map_length, seq_length; exact Hi). rewrite nth_map_seq by exact Hi.
    rewrite nsum_R, RMu. apply sumn_ext. intros iu Hiu. rewrite (nth_error_nth' _ 0) by lia. nsimp. rewrite VMu, H2 by assumption. reflexivity. }
  assert (EXc' : two_solves ldlt (gram Mu) (gram Mv) cols (m_rows (gram Mu)) = Ok Xc) by (cbn [gram m_rows]; rewrite CMu; exact EXc).
  destruct (two_solves_ok ldlt (gram Mu) (gram Mv) cols Xc Hex) as (LXc & HXr & HS); try reflexivity.
  { unfold cols. rewrite map_length, seq_length. symmetry. exact CMv. }
  { intros r Hr. unfold cols in Hr. apply in_map_iff in Hr as (j & <- & _). rewrite map_length, seq_length. symmetry. exact CMu. }
  { exact EXc'. }
  cbn [gram m_rows m_cols m_cell] in LXc, HXr, HS. rewrite CMu, CMv in *.
  assert (HP : forall a b, (a < n)%nat -> (b < m)%nat -> pole (poles_of_grids n m X) c (a + n * b) = nth b (nth a Xc []) 0).
  { intros a b Ha Hb. rewrite (grids_pole eps n m X c a b Ha Hb) by (try rewrite (nth_error_nth _ _ [] HXc); try lia;
      rewrite HXr by (apply nth_In; lia); lia). rewrite (nth_error_nth _ _ [] HXc). reflexivity. }
  apply (lsq_opt2 (length u) (length v) n m (fun r i => rvu (nth r u 0) 0 i) (fun s j => rvv (nth s v 0) 0 j)
    (fun i j => pole (poles_of_grids n m X) c (i + n * j)) (fun r s => nth (r + length u * s) Q (fun _ => 0) c)
    (fun i j => pole P' c (i + n * j)) Hn).
  intros i j Hi Hj. specialize (HS i j Hi Hj). rewrite Hcols in HS by assumption.
  set (U := fun r i => rvu (nth r u 0) 0 i) in *. set (V := fun s j => rvv (nth s v 0) 0 j) in *.
  set (XX := fun i j => nth j (nth i Xc []) 0).
  assert (HS' : sumn n (fun i' => sumn (length u) (fun r => U r i * U r i') * sumn m (fun j' => sumn (length v) (fun s => V s j * V s j') * XX i' j')) =
    sumn (length v) (fun iv => sumn (length u) (fun iu => U iu i * nth (iu + length u * iv) Q (fun _ => 0) c) * V iv j)).
  { refine (eq_trans _ HS). apply sumn_ext. intros i' Hi'. rewrite nsum_R, RMu. f_equal.
    - apply sumn_ext. intros r Hr. nsimp. rewrite !VMu by exact Hr. reflexivity.
    - apply sumn_ext. intros j' Hj'. rewrite nsum_R, RMv. f_equal. apply sumn_ext. intros s Hs. nsimp. rewrite !VMv by exact Hs. reflexivity. }
  clear HS.
  rewrite (sumn_ext n _ (fun i' => sumn (length u) (fun r => U r i * U r i') * sumn (length v) (fun s => V s j * sumn m (fun j' => V s j' * XX i' j')))) in HS'
    by (intros i' _; rewrite (gram_apply (length v) m V); reflexivity).
  rewrite (gram_apply (length u) n U) in HS'.
  rewrite (sumn_ext (length u) _ (fun r => U r i * sumn (length v) (fun s => V s j * sumn m (fun j' => V s j' * sumn n (fun i' => U r i' * XX i' j')))
     - U r i * sumn (length v) (fun s => V s j * nth (r + length u * s) Q (fun _ => 0) c))).
  2:{ intros r Hr. rewrite <- Rmult_minus_distr_l, <- sumn_minus. f_equal. apply sumn_ext. intros s Hs. rewrite <- Rmult_minus_distr_l. f_equal. f_equal.
      apply sumn_ext. intros j' Hj'. f_equal. apply sumn_ext. intros i' Hi'. rewrite HP by assumption. reflexivity. }
  rewrite sumn_minus. apply Rminus_diag_eq.
  etransitivity; [|etransitivity; [exact HS'|]].
  - apply sumn_ext. intros r _. f_equal. rewrite (sumn_cross n (length v) (U r)). apply sumn_ext. intros s _. f_equal. rewrite (sumn_cross n m (U r)). reflexivity.
  - rewrite (sumn_cross (length u) (length v)). apply sumn_ext. intros s _. ring.
Qed.

Lemma approx_surf_ok qr dim (Q : list (@scons R)) s : least_squares_solver qr ->
  (forall c, In c Q -> in_rect ku n p kv m q (sc_u c) (sc_v c)) ->
  approx_surf_constraints qr dim Q ku kv p q = Ok s ->
  s_degU s = p /\ s_degV s = q /\ s_ku s = ku /\ s_kv s = kv /\ length (s_poles s) = (n * m)%nat /\ (n * m <= length Q)%nat /\
  forall d P', (d < dim)%nat -> length P' = (n * m)%nat -> exists e e' : nat -> R,
    (forall i c, nth_error Q i = Some c ->
       gap eps ku kv (s_poles s) p q (sc_u c) (sc_v c) (sc_du c) (sc_dv c) (sc_x c) d (e i) /\
       gap eps ku kv P' p q (sc_u c) (sc_v c) (sc_du c) (sc_dv c) (sc_x c) d (e' i)) /\
    sumn (length Q) (fun i => e i ^ 2) <= sumn (length Q) (fun i => e' i ^ 2).
Proof.
  intros Hls HQ E. unfold approx_surf_constraints in E. rewrite (npoles_of ku n p Hku), (npoles_of kv m q Hkv) in E. cbn [bind] in E.
  apply bind_inv in E as ([] & Ec & E). unfold check_approx_sizes_surf in Ec.
  destruct ((n <? p + 1)%nat || (m <? q + 1)%nat); [discriminate|].
  destruct (Nat.ltb_spec (length Q) (n * m)) as [|HQn]; [discriminate|]. clear Ec.
  destruct (surf_matrix_ok eps ku kv n m p q Hku Hkv Hev Q HQ) as (N & EN & RN & CN & VN). rewrite EN in E. cbn [bind] in E.
  apply bind_inv in E as (X & EX & E). apply (mk_surf_inv eps) in E.
  subst s. cbn [s_degU s_degV s_ku s_kv s_poles].
  assert (LP : length (poles_of_columns (n * m) X) = (n * m)%nat) by apply poles_length.
  repeat (split; [solve [reflexivity|assumption]|]). intros d P' Hd LP'.
  assert (Hn : (0 < n)%nat) by (destruct Hku as (_ & H & _); lia).
  set (df := mksc 0 0 (fun _ => 0) 0 0 : @scons R).
  set (val := fun (P : list (pt R)) i => sumn m (fun b => rvv (sc_v (nth i Q df)) (sc_dv (nth i Q df)) b *
     sumn n (fun a => rvu (sc_u (nth i Q df)) (sc_du (nth i Q df)) a * pole P d (a + n * b))) - sc_x (nth i Q df) d).
  exists (val (poles_of_columns (n * m) X)), (val P'). split.
  { assert (G : forall P i c, length P = (n * m)%nat -> nth_error Q i = Some c ->
       gap eps ku kv P p q (sc_u c) (sc_v c) (sc_du c) (sc_dv c) (sc_x c) d (val P i)).
    { intros P i c LPP Hi. unfold val. rewrite (nth_error_nth Q i df Hi).
      destruct (surf_rv eps ku kv n m p q Hku Hkv Hev P (sc_u c) (sc_v c) (sc_du c) (sc_dv c) LPP) as (z & Ez & Vz).
      { apply HQ. eapply nth_error_In; eauto. }
      exists z. split; [exact Ez|]. rewrite Vz. reflexivity. }
    intros i c Hi. split; apply G; assumption. }
  destruct (mapM_seq _ _ _ EX) as (LX & HX). destruct (HX d Hd) as (x & Hx & Ex).
  destruct (Hls _ _ _ Ex ltac:(rewrite map_length; congruence)) as (Lx & Hmin). rewrite RN, CN in *.
  specialize (Hmin (map (fun l => pole P' d l) (seq 0 (n * m))) ltac:(rewrite map_length, seq_length; reflexivity)).
  assert (W : forall (P : list (pt R)) (y : list R) i, (i < length Q)%nat -> (forall l, (l < n * m)%nat -> nth l y 0 = pole P d l) ->
    val P i = sumn (n * m) (fun l => m_cell N i l * nth l y 0) - nth i (map (fun c => sc_x c d) Q) 0).
  { intros P y i Hi Hy. unfold val. destruct (nth_error Q i) as [c|] eqn:Hc; [|apply nth_error_None in Hc; lia].
    rewrite (nth_error_nth Q i df Hc). rewrite (nth_error_nth (map (fun c => sc_x c d) Q) i 0 (x := sc_x c d)) by (rewrite nth_error_map, Hc; reflexivity).
    f_equal. rewrite sumn_grid by exact Hn. apply sumn_ext. intros b Hb. rewrite <- sumn_scal. apply sumn_ext. intros a Ha.
    rewrite (VN i c a b Hc Ha Hb), Hy by nia. ring. }
  rewrite (sumn_ext (length Q) (fun i => val (poles_of_columns (n * m) X) i ^ 2) (fun i => (sumn (n * m) (fun l => m_cell N i l * nth l x 0) - nth i (map (fun c => sc_x c d) Q) 0) ^ 2)).
  2:{ intros i Hi. rewrite (W _ x i Hi); [reflexivity|]. intros l Hl. symmetry. apply (poles_cell eps (n * m) X d l x Hx Hl Lx). }
  eapply Rle_trans; [exact Hmin|]. right. apply sumn_ext. intros i Hi. rewrite (W P' (map (fun l => pole P' d l) (seq 0 (n * m))) i Hi); [reflexivity|].
  intros l Hl. rewrite nth_map_seq by exact Hl. reflexivity.
Qed.

Lemma sumn_sq_zero b (f : nat -> R) : sumn b (fun i => f i ^ 2) = 0 -> forall i, (i < b)%nat -> f i = 0.
Proof.
  induction b as [|b IH]; intros H i Hi; [lia|]. cbn [sumn] in H.
  assert (A : 0 <= sumn b (fun i => f i ^ 2)) by (apply sumn_nonneg; intros; apply pow2_ge_0).
  pose proof (pow2_ge_0 (f b)) as B. assert (Z1 : sumn b (fun i => f i ^ 2) = 0) by lra. assert (Z2 : f b ^ 2 = 0) by lra.
  destruct (Nat.eq_dec i b) as [->|]; [|apply IH; [exact Z1|lia]]. destruct (Req_dec (f b) 0); [assumption|].
  exfalso. apply (pow_nonzero (f b) 2) in H0. contradiction.
Qed.

Lemma gram_injective (M : @mat R) :
  (forall x, (forall i, (i < m_rows M)%nat -> sumn (m_cols M) (fun j => m_cell M i j * x j) = 0) ->
     forall j, (j < m_cols M)%nat -> x j = 0) ->
  nonsingular (m_rows (gram M)) (m_cell (gram M)).
Proof.
  intros HM. cbn [gram m_rows m_cell]. intros x Hx. apply HM. set (A := m_cell M). set (c := m_cols M) in *.
  assert (Hx' : forall i, (i < c)%nat -> sumn (m_rows M) (fun r => A r i * sumn c (fun l => A r l * x l)) = 0).
  { intros i Hi. rewrite <- gram_apply, <- (Hx i Hi). apply sumn_ext. intros l Hl. rewrite nsum_R. reflexivity. }
  apply (sumn_sq_zero (m_rows M) (fun r => sumn c (fun l => A r l * x l))).
  rewrite (sumn_ext (m_rows M) _ (fun r => sumn c (fun i => x i * (A r i * sumn c (fun l => A r l * x l))))).
  - rewrite sumn_swap. rewrite (sumn_ext c _ (fun _ => 0)); [apply sumn_zero; reflexivity|]. intros i Hi. rewrite sumn_scal, Hx' by exact Hi. ring.
  - intros r _. replace (sumn c (fun l => A r l * x l) ^ 2) with (sumn c (fun l => A r l * x l) * sumn c (fun l => A r l * x l)) by ring.
    rewrite <- sumn_scal. apply sumn_ext. intros; ring.
Qed.

Lemma gram_nonsingular k c d (u : list R) (M : @mat R) : knots_ok k c d -> evaluable eps k c d ->
  (forall x, In x u -> kn k d <= x <= kn k c) -> resolve eps k c d u ->
  m_rows M = length u -> m_cols M = c -> (forall i b, (i < length u)%nat -> m_cell M i b = rv eps k c d (nth i u 0) 0 b) ->
  nonsingular (m_rows (gram M)) (m_cell (gram M)).
Proof.
  intros Hk Hd Hu Hr RM CM VM. apply gram_injective. rewrite RM, CM. intros x Z0 j Hj.
  set (P := map (fun j _ => x j) (seq 0 c) : list (pt R)).
  assert (LP : length P = c) by (unfold P; rewrite map_length, seq_length; reflexivity).
  assert (HP : forall l, (l < c)%nat -> nth l P (fun _ => 0) 0%nat = x l) by (intros l Hl; unfold P; rewrite nth_map_seq by exact Hl; reflexivity).
  rewrite <- (HP j Hj). apply Hr; [exact LP| |exact Hj]. intros y Hy.
  destruct (rv_eval eps k c d Hk y 0 P (Hu y Hy) LP Hd) as (z & Ez & Vz). exists z. split; [exact Ez|]. rewrite Vz.
  apply (In_nth _ _ 0) in Hy as (r & Hrr & <-). refine (eq_trans _ (Z0 r Hrr)). apply sumn_ext. intros l Hl. unfold pole. rewrite HP, VM by assumption. reflexivity.
Qed.

Lemma approx_grid_returns ldlt dim (Q : list (pt R)) (u v : list R) : complete_solver ldlt ->
  (forall x, In x u -> kn ku p <= x <= kn ku n) -> (forall x, In x v -> kn kv q <= x <= kn kv m) ->
  resolve eps ku n p u -> resolve eps kv m q v -> (n * m <= length Q)%nat -> (length u * length v <= length Q)%nat ->
  exists P, approx_grid ldlt dim Q ku kv u v p q = Ok P.
Proof.
  intros Hco Hu Hv Ru Rv HQ HQ'. unfold approx_grid. rewrite (npoles_of ku n p Hku), (npoles_of kv m q Hkv). cbn [bind].
  unfold check_approx_sizes_surf. pose proof Hku as (_ & Hpn & _). pose proof Hkv as (_ & Hqm & _).
  destruct (Nat.ltb_spec n (p + 1)); [lia|]. destruct (Nat.ltb_spec m (q + 1)); [lia|]. cbn [orb].
  destruct (Nat.ltb_spec (length Q) (n * m)); [lia|]. cbn [bind].
  destruct (row_matrix_ok eps ku u n p Hku (ev2_1 _ _ _ _ _ _ _ Hev) Hu) as (Mu & EMu & RMu & CMu & VMu).
  destruct (row_matrix_ok eps kv v m q Hkv (ev2_2 _ _ _ _ _ _ _ Hev) Hv) as (Mv & EMv & RMv & CMv & VMv).
  rewrite EMu, EMv. cbn [bind].
  match goal with |- context [mapM ?f (seq 0 dim)] => destruct (mapM_all_ok f (seq 0 dim)) as (X & EX) end.
  - intros d _.
    rewrite (mapM_ok _ (fun iv => map (fun iu => nth (iu + length u * iv) Q (fun _ => 0) d) (seq 0 (length u)))).
    2:{ intros iv Hiv. apply in_seq in Hiv. cbv beta. apply mapM_ok. intros iu Hiu. apply in_seq in Hiu. rewrite (get_nth Q _ (fun _ => 0)) by nia. reflexivity. }
    cbn [bind]. match goal with |- context [two_solves _ _ _ ?c _] => replace (two_solves ldlt (gram Mu) (gram Mv) c n) with (two_solves ldlt (gram Mu) (gram Mv) c (m_rows (gram Mu))) by (cbn [gram m_rows]; rewrite CMu; reflexivity) end.
    apply two_solves_returns; try reflexivity; try assumption.
    + apply (gram_nonsingular ku n p u); auto. exact (ev2_1 _ _ _ _ _ _ _ Hev).
    + apply (gram_nonsingular kv m q v); auto. exact (ev2_2 _ _ _ _ _ _ _ Hev).
    + rewrite map_length, seq_length. symmetry. exact CMv.
    + intros c Hc. apply in_map_iff in Hc as (iv & <- & _). rewrite map_length, seq_length. symmetry. exact CMu.
  - rewrite EX. cbn [bind]. eexists. reflexivity.
Qed.

Lemma approx_surf_returns qr dim (Q : list (@scons R)) : complete_least_squares qr ->
  (forall c, In c Q -> in_rect ku n p kv m q (sc_u c) (sc_v c)) -> resolve_surface eps ku kv n m p q Q -> (n * m <= length Q)%nat ->
  (Z.of_nat (n + p + 1) < 2 ^ 64)%Z -> (Z.of_nat (m + q + 1) < 2 ^ 64)%Z -> (Z.of_nat (n * m) < 2 ^ 64)%Z ->
  exists s, approx_surf_constraints qr dim Q ku kv p q = Ok s.
Proof.
  intros (_ & Hco) HQ Hdet LQ B1 B2 B3. unfold approx_surf_constraints. rewrite (npoles_of ku n p Hku), (npoles_of kv m q Hkv). cbn [bind].
  unfold check_approx_sizes_surf. pose proof Hku as (Lku & Hpn & Nku & _). pose proof Hkv as (Lkv & Hqm & Nkv & _).
  destruct (Nat.ltb_spec n (p + 1)); [lia|]. destruct (Nat.ltb_spec m (q + 1)); [lia|]. cbn [orb].
  destruct (Nat.ltb_spec (length Q) (n * m)); [lia|]. cbn [bind].
  destruct (surf_matrix_ok eps ku kv n m p q Hku Hkv Hev Q HQ) as (N & EN & RN & CN & VN).
  rewrite EN. cbn [bind]. assert (Hn : (0 < n)%nat) by lia.
  match goal with |- context [mapM ?f (seq 0 dim)] => destruct (mapM_all_ok f (seq 0 dim)) as (X & EX) end.
  - intros d _. apply Hco; [rewrite map_length; lia|]. rewrite RN, CN. intros x Hx j Hj.
    set (P := map (fun i (_ : nat) => x i) (seq 0 (n * m)) : list (pt R)).
    assert (LP : length P = (n * m)%nat) by (unfold P; rewrite map_length, seq_length; reflexivity).
    assert (HP : forall i, (i < n * m)%nat -> nth i P (fun _ => 0) 0%nat = x i) by (intros i Hi; unfold P; rewrite nth_map_seq by exact Hi; reflexivity).
    rewrite <- HP by exact Hj. apply Hdet; [exact LP| |exact Hj].
    intros c Hc. destruct (surf_rv eps ku kv n m p q Hku Hkv Hev P (sc_u c) (sc_v c) (sc_du c) (sc_dv c) LP (HQ c Hc)) as (z & Ez & Vz).
    exists z. split; [exact Ez|]. rewrite Vz. apply In_nth_error in Hc as (k & Hk).
    rewrite <- (Hx k) by (apply nth_error_Some; rewrite Hk; discriminate). rewrite sumn_grid by exact Hn.
    apply sumn_ext. intros j' Hj'. rewrite <- sumn_scal. apply sumn_ext. intros i Hi. rewrite (VN k c i j' Hk Hi Hj').
    unfold pole. rewrite HP by nia. ring.
  - rewrite EX. cbn [bind]. eexists. apply (mk_surf_accepts eps); try assumption; rewrite ?poles_length, ?Lku, ?Lkv; try lia.
Qed.

Lemma approx_rejects ldlt qr dim (Q : list (pt R)) (C : list (@scons R)) (u v : list R) :
  ((length Q < n * m)%nat -> approx_grid ldlt dim Q ku kv u v p q = Throw LengthError) /\
  ((length C < n * m)%nat -> approx_surf_constraints qr dim C ku kv p q = Throw LengthError).
Proof.
  pose proof Hku as (_ & Hpn & _). pose proof Hkv as (_ & Hqm & _).
  split; intros H; [unfold approx_grid|unfold approx_surf_constraints]; rewrite (npoles_of ku n p Hku), (npoles_of kv m q Hkv); cbn [bind];
    unfold check_approx_sizes_surf; (destruct (Nat.ltb_spec n (p + 1)); [lia|]); (destruct (Nat.ltb_spec m (q + 1)); [lia|]); cbn [orb];
    (match goal with |- context [Nat.ltb ?a (n * m)] => destruct (Nat.ltb_spec a (n * m)); [|lia] end); reflexivity.
Qed.
End Data.

Lemma interlaced_resolve k p (u0 u : list R) : (1 <= p)%nat -> (p < length u0)%nat -> interlaced k p u0 ->
  evaluable eps k (length u0) p -> (forall x, In x u0 -> In x u) -> resolve eps k (length u0) p u.
Proof.
  intros Hp Hl Hi Hd Hsub P LP H i Hii. destruct (interlaced_knots k p u0 Hp Hl Hi) as (Hk & Hin).
  set (Z := map (fun _ _ => 0) (seq 0 (length u0)) : list (pt R)).
  assert (LZ : length Z = length u0) by (unfold Z; rewrite map_length, seq_length; reflexivity).
  assert (HZ : forall j, (j < length u0)%nat -> nth j Z (fun _ => 0) 0%nat = 0) by (intros j Hj; unfold Z; rewrite nth_map_seq by exact Hj; reflexivity).
  rewrite (interlaced_unique eps k p u0 P Z 0 Hp Hl Hi Hd LP LZ); [apply HZ; exact Hii| |exact Hii].
  intros x Hx. destruct (H x (Hsub x Hx)) as (z & Ez & Vz). destruct (rv_eval eps k (length u0) p Hk x 0 Z (Hin x Hx) LZ Hd) as (z' & Ez' & Vz').
  exists z, z'. split; [exact Ez|]. split; [exact Ez'|]. rewrite Vz, Vz'. symmetry. rewrite (sumn_ext _ _ (fun _ => 0)); [apply sumn_zero; reflexivity|].
  intros j Hj. unfold pole. rewrite HZ by exact Hj. ring.
Qed.

(** Normal equations make a least squares solver. *)
Lemma normal_lsq (S : @solver R) : exact_solver S -> least_squares_solver (fun N b => S (gram N) (trans_mul N b)).
Proof.
  intros Hex N b x E Lb.
  assert (E' : solve_approx_banded S N b = Ok x) by (unfold solve_approx_banded; rewrite Lb, Nat.eqb_refl; exact E).
  destruct (solve_lsq eps S N b x Hex E') as (_ & Lx & Hne). split; [exact Lx|]. intros y _.
  apply (lsq_opt (m_rows N) (m_cols N) (m_cell N) (fun l => nth l x 0) (fun r => nth r b 0) (fun l => nth l y 0)). exact Hne.
Qed.
Lemma normal_complete (S : @solver R) : complete_solver S -> complete_least_squares (fun N b => S (gram N) (trans_mul N b)).
Proof.
  intros (Hex & Hco). split; [apply normal_lsq; exact Hex|]. intros N b Lb Hi. apply Hco; [reflexivity| |].
  - unfold trans_mul. rewrite map_length, seq_length. reflexivity.
  - apply gram_injective. exact Hi.
Qed.
End AtR.
