(** Surfaces through constraints on values and derivatives. *)
From Coq Require Import List Arith ZArith Reals Lia Lra Bool.
From Verif Require Import Model_Base Model_Knots Model_Basis Model_Curve Model_Interp Model_Surface Model_Skin
  Spec_Base Spec_Basis Spec_Eval Spec_Interp Spec_Surface Proof_Base Proof_Blossom Proof_Basis Proof_Ders Proof_Eval
  Proof_Band Proof_Interp Proof_Interp4 Proof_Surface Proof_Tfi Proof_Skin1.
Import ListNotations.
Local Open Scope R_scope.

Section AtR.
Variable eps : R.
Local Hint Extern 0 (Num R) => exact (NumR eps) : typeclass_instances.

Lemma bfun_clamped k n p u d r : knots_ok k n p -> kn k p <= u <= kn k n -> end_clamped k n p -> separated eps k -> 0 < eps ->
  (d <= p)%nat -> (r <= p)%nat ->
  basis_function u (spn eps k n p u - p + r) p d k = Ok (rv eps k n p u d (spn eps k n p u - p + r)).
Proof.
  intros Hk Hu Hcl Hsep He Hd Hr. destruct (spn_ok eps k n p Hk u Hu) as (Ef & Hl & Hs & _).
  unfold basis_function. rewrite (basis_der_ok eps k n p (spn eps k n p u) u Hk Hcl Hsep He Hl Hs p d) by lia.
  unfold rv. destruct (Nat.leb_spec (spn eps k n p u - p + r) (spn eps k n p u)); [reflexivity|lia].
Qed.

Lemma pair_inj n i j i' j' : (i < n)%nat -> (i' < n)%nat -> (i + n * j = i' + n * j')%nat -> i = i' /\ j = j'.
Proof.
  intros Hi Hi' E. assert (j = j').
  { assert (A : ((i + n * j) / n = j)%nat) by (rewrite (Nat.mul_comm n), Nat.div_add, Nat.div_small; lia).
    assert (B : ((i' + n * j') / n = j')%nat) by (rewrite (Nat.mul_comm n), Nat.div_add, Nat.div_small; lia).
    congruence. }
  subst. split; [lia|reflexivity].
Qed.

Section Data.
Variables (ku kv : list R) (n m p q : nat).
Hypothesis Hku : knots_ok ku n p.
Hypothesis Hkv : knots_ok kv m q.
Hypothesis Hev : evaluable2 eps ku n p kv m q.
Notation rvu := (rv eps ku n p).
Notation rvv := (rv eps kv m q).
Notation spu := (spn eps ku n p).
Notation spv := (spn eps kv m q).

Lemma write_block (N : @mat R) row (c : @scons R) (body : nat -> nat -> @mat R -> result (@mat R)) :
  in_rect ku n p kv m q (sc_u c) (sc_v c) -> (row < m_rows N)%nat -> m_cols N = (n * m)%nat ->
  (forall b, m_cell N row b = 0) -> (sc_du c <= p)%nat -> (sc_dv c <= q)%nat ->
  (forall ii jj N, (ii <= p)%nat -> (jj <= q)%nat ->
     body jj ii N = mset N row ((spu (sc_u c) - p + ii) + n * (spv (sc_v c) - q + jj))
       (rvu (sc_u c) (sc_du c) (spu (sc_u c) - p + ii) * rvv (sc_v c) (sc_dv c) (spv (sc_v c) - q + jj))) ->
  exists N', for_ 0 (q + 1) (fun jj => for_ 0 (p + 1) (body jj)) N = Ok N' /\
    m_rows N' = m_rows N /\ m_cols N' = (n * m)%nat /\
    (forall a b, a <> row -> m_cell N' a b = m_cell N a b) /\
    (forall i j, (i < n)%nat -> (j < m)%nat -> m_cell N' row (i + n * j) = rvu (sc_u c) (sc_du c) i * rvv (sc_v c) (sc_dv c) j).
Proof.
  intros [Hu Hv] Hrow Hc Hz Hdu Hdv Hb.
  destruct (spn_ok eps ku n p Hku _ Hu) as (_ & Hl & _). destruct (spn_ok eps kv m q Hkv _ Hv) as (_ & Hm & _).
  set (i0 := (spu (sc_u c) - p)%nat) in *. set (j0 := (spv (sc_v c) - q)%nat) in *.
  set (g := fun i j => rvu (sc_u c) (sc_du c) i * rvv (sc_v c) (sc_dv c) j) in *.
  assert (Hg : forall i j, (i < n)%nat -> (j < m)%nat ->
    ~ (i0 <= i < i0 + (p + 1) /\ j0 <= j < j0 + (q + 1))%nat -> g i j = 0).
  { intros i j Hi Hj Hn. unfold g. destruct (Nat.lt_ge_cases i i0) as [A|A].
    { rewrite (rv_low eps) by (auto; lia). ring. }
    destruct (Nat.lt_ge_cases i (i0 + (p + 1))) as [B|B].
    2:{ rewrite (rv_high eps ku) by lia. ring. }
    destruct (Nat.lt_ge_cases j j0) as [C|C].
    { rewrite (rv_low eps kv) by (auto; lia). ring. }
    destruct (Nat.lt_ge_cases j (j0 + (q + 1))) as [D|D]; [lia|].
    rewrite (rv_high eps kv) by lia. ring. }
  destruct (for_inv (fun jj N' => m_rows N' = m_rows N /\ m_cols N' = (n * m)%nat /\
     (forall a b, a <> row -> m_cell N' a b = m_cell N a b) /\
     (forall i j, (i < n)%nat -> (j < m)%nat -> m_cell N' row (i + n * j) =
        if ((j0 <=? j) && (j <? j0 + jj) && (i0 <=? i) && (i <? i0 + (p + 1)))%nat then g i j else 0))
    (fun jj => for_ 0 (p + 1) (body jj)) 0 (q + 1) N) as (N' & E & R' & C' & O' & V').
  - split; [reflexivity|]. split; [exact Hc|]. split; [reflexivity|]. intros i j Hi Hj.
    destruct (Nat.leb_spec j0 j), (Nat.ltb_spec j (j0 + 0)); try lia; cbn [andb]; apply Hz.
  - intros jj N1 Hjj (R1 & C1 & O1 & V1).
    destruct (for_inv (fun ii N' => m_rows N' = m_rows N /\ m_cols N' = (n * m)%nat /\
       (forall a b, a <> row -> m_cell N' a b = m_cell N a b) /\
       (forall i j, (i < n)%nat -> (j < m)%nat -> m_cell N' row (i + n * j) =
          if ((j =? j0 + jj) && (i0 <=? i) && (i <? i0 + ii))%nat then g i j else m_cell N1 row (i + n * j)))
      (body jj) 0 (p + 1) N1) as (N2 & E2 & R2 & C2 & O2 & V2).
    + split; [exact R1|]. split; [exact C1|]. split; [exact O1|]. intros i j Hi Hj.
      destruct (Nat.leb_spec i0 i), (Nat.ltb_spec i (i0 + 0)); try lia; rewrite ?andb_false_r; reflexivity.
    + intros ii N3 Hii (R3 & C3 & O3 & V3). rewrite Hb by lia.
      destruct (mset_ok N3 row (i0 + ii + n * (j0 + jj)) (g (i0 + ii)%nat (j0 + jj)%nat)) as (N4 & E4 & R4 & C4 & V4);
        [lia|rewrite C3; nia|].
      exists N4. split; [exact E4|]. split; [congruence|]. split; [congruence|]. split.
      * intros a b Ha. rewrite V4. destruct (Nat.eqb_spec a row); [contradiction|]. cbn [andb]. apply O3. exact Ha.
      * intros i j Hi Hj. rewrite V4, Nat.eqb_refl. cbn [andb].
        destruct (Nat.eqb_spec (i + n * j) (i0 + ii + n * (j0 + jj))) as [Eq|Ne].
        { apply pair_inj in Eq as [-> ->]; [|lia|lia]. rewrite Nat.eqb_refl.
          destruct (Nat.leb_spec i0 (i0 + ii)), (Nat.ltb_spec (i0 + ii) (i0 + S ii)); try lia. reflexivity. }
        rewrite V3 by assumption. destruct (Nat.eqb_spec j (j0 + jj)) as [->|]; cbn [andb]; [|reflexivity].
        destruct (Nat.leb_spec i0 i), (Nat.ltb_spec i (i0 + ii)), (Nat.ltb_spec i (i0 + S ii)); cbn [andb]; try reflexivity; try lia;
          exfalso; apply Ne; f_equal; lia.
    + exists N2. split; [exact E2|]. split; [exact R2|]. split; [exact C2|]. split; [exact O2|].
      intros i j Hi Hj. rewrite V2, V1 by assumption. cbn [Nat.add].
      destruct (Nat.eqb_spec j (j0 + jj)) as [->|].
      * destruct (Nat.leb_spec j0 (j0 + jj)), (Nat.ltb_spec (j0 + jj) (j0 + S jj)), (Nat.ltb_spec (j0 + jj) (j0 + jj));
          try lia; cbn [andb]. destruct (i0 <=? i)%nat, (i <? i0 + (p + 1))%nat; reflexivity.
      * cbn [andb]. destruct (Nat.leb_spec j0 j), (Nat.ltb_spec j (j0 + jj)), (Nat.ltb_spec j (j0 + S jj)); try lia; reflexivity.
  - exists N'. split; [exact E|]. split; [exact R'|]. split; [exact C'|]. split; [exact O'|].
    intros i j Hi Hj. rewrite V' by assumption. fold (g i j). cbn [Nat.add].
    destruct (Nat.leb_spec j0 j), (Nat.ltb_spec j (j0 + (q + 1))), (Nat.leb_spec i0 i), (Nat.ltb_spec i (i0 + (p + 1)));
      cbn [andb]; try reflexivity; symmetry; apply Hg; try assumption; lia.
Qed.

Lemma fill_surf_row_ok (N : @mat R) row (c : @scons R) :
  in_rect ku n p kv m q (sc_u c) (sc_v c) -> (row < m_rows N)%nat -> m_cols N = (n * m)%nat ->
  (forall b, m_cell N row b = 0) ->
  exists N', fill_surf_row N row c ku kv p q = Ok N' /\ m_rows N' = m_rows N /\ m_cols N' = (n * m)%nat /\
    (forall a b, a <> row -> m_cell N' a b = m_cell N a b) /\
    (forall i j, (i < n)%nat -> (j < m)%nat -> m_cell N' row (i + n * j) = rvu (sc_u c) (sc_du c) i * rvv (sc_v c) (sc_dv c) j).
Proof.
  intros Hin Hrow Hc Hz. unfold fill_surf_row.
  destruct (Nat.ltb_spec p (sc_du c)) as [Hd|Hdu]; cbn [orb].
  { exists N. split; [reflexivity|]. split; [reflexivity|]. split; [exact Hc|]. split; [reflexivity|].
    intros i j _ _. rewrite (rv_big eps ku) by exact Hd. rewrite Hz. ring. }
  destruct (Nat.ltb_spec q (sc_dv c)) as [Hd|Hdv].
  { exists N. split; [reflexivity|]. split; [reflexivity|]. split; [exact Hc|]. split; [reflexivity|].
    intros i j _ _. rewrite (rv_big eps kv) by exact Hd. rewrite Hz. ring. }
  rewrite (npoles_ok ku n p) by apply Hku. rewrite (npoles_ok kv m q) by apply Hkv. cbn [bind].
  pose proof Hin as [Hu Hv].
  rewrite (extent_ok eps ku n p Hku) by exact Hu. cbn [bind].
  rewrite (extent_ok eps kv m q Hkv) by exact Hv. cbn [bind].
  destruct (Nat.leb_spec p stack_max) as [Hp|Hp]; cbn [andb].
  - destruct (Nat.leb_spec q stack_max) as [Hq|Hq].
    + rewrite (bders_ok eps ku n p Hku), (bders_ok eps kv m q Hkv) by auto. cbn [bind].
      apply (write_block N row c (fun jj ii N => let* a := get _ ii in let* b := get _ jj in mset N row _ (nmul a b))); auto.
      intros ii jj N1 Hi Hj. rewrite !get_map_seq by lia. reflexivity.
    + destruct Hev as [[_ H]|(H1 & H2 & H3 & H4 & H5)]; [unfold stack_max in Hq; lia|].
      apply (write_block N row c (fun jj ii N => let* a := basis_function _ _ _ _ _ in let* b := basis_function _ _ _ _ _ in mset N row _ (nmul a b))); auto.
      intros ii jj N1 Hi Hj. rewrite (bfun_clamped ku n p), (bfun_clamped kv m q) by auto. reflexivity.
  - destruct Hev as [[H _]|(H1 & H2 & H3 & H4 & H5)]; [unfold stack_max in Hp; lia|].
    apply (write_block N row c (fun jj ii N => let* a := basis_function _ _ _ _ _ in let* b := basis_function _ _ _ _ _ in mset N row _ (nmul a b))); auto.
    intros ii jj N1 Hi Hj. rewrite (bfun_clamped ku n p), (bfun_clamped kv m q) by auto. reflexivity.
Qed.

Lemma surf_matrix_ok (Q : list (@scons R)) :
  (forall c, In c Q -> in_rect ku n p kv m q (sc_u c) (sc_v c)) ->
  exists N, surf_matrix Q ku kv p q (n * m) = Ok N /\ m_rows N = length Q /\ m_cols N = (n * m)%nat /\
    forall k c i j, nth_error Q k = Some c -> (i < n)%nat -> (j < m)%nat ->
      m_cell N k (i + n * j) = rvu (sc_u c) (sc_du c) i * rvv (sc_v c) (sc_dv c) j.
Proof.
  intros HQ. unfold surf_matrix.
  destruct (for_inv (fun a N => m_rows N = length Q /\ m_cols N = (n * m)%nat /\
     (forall k c i j, (k < a)%nat -> nth_error Q k = Some c -> (i < n)%nat -> (j < m)%nat ->
        m_cell N k (i + n * j) = rvu (sc_u c) (sc_du c) i * rvv (sc_v c) (sc_dv c) j) /\
     (forall k b, (a <= k)%nat -> m_cell N k b = 0))
    (fun k N => let* c := get Q k in fill_surf_row N k c ku kv p q) 0 (length Q) (mzero (length Q) (n * m))) as (N & E & H).
  - split; [reflexivity|]. split; [reflexivity|]. split; [intros; lia|]. reflexivity.
  - intros k N Hk (R1 & C1 & V1 & Z1). destruct (nth_error Q k) as [c|] eqn:Ec; [|apply nth_error_None in Ec; lia].
    unfold get. rewrite Ec. cbn [bind].
    destruct (fill_surf_row_ok N k c) as (N' & E' & R' & C' & O' & V');
      [apply HQ; eapply nth_error_In; eauto|lia|exact C1|intros; apply Z1; lia|].
    exists N'. split; [exact E'|]. split; [congruence|]. split; [exact C'|]. split.
    + intros a c' i j Ha Hc' Hi Hj. destruct (Nat.eq_dec a k) as [->|].
      * rewrite Ec in Hc'. injection Hc' as <-. apply V'; assumption.
      * rewrite O' by assumption. apply V1; try assumption. lia.
    + intros a b Ha. rewrite O' by lia. apply Z1. lia.
  - exists N. destruct H as (H1 & H2 & H3 & H4). split; [exact E|]. split; [exact H1|]. split; [exact H2|].
    intros k c i j Hc Hi Hj. apply H3; try assumption. cbn. apply nth_error_Some. congruence.
Qed.

Lemma sumn_grid a b (f : nat -> R) : (0 < a)%nat -> sumn (a * b) f = sumn b (fun j => sumn a (fun i => f (i + a * j)%nat)).
Proof.
  intros Ha. induction b as [|b IH]; [rewrite Nat.mul_0_r; reflexivity|].
  rewrite Nat.mul_succ_r. cbn [sumn]. rewrite <- IH. generalize a at 2 4. intros c.
  induction c as [|c IHc]; [rewrite Nat.add_0_r; cbn [sumn]; ring|].
  rewrite Nat.add_succ_r. cbn [sumn]. rewrite IHc. rewrite (Nat.add_comm (a * b) c). ring.
Qed.

(** Poles that solve the collocation system of the constraints meet them. *)
Lemma constraints_eval (Q : list (@scons R)) (X : list (list R)) dim N :
  (forall c, In c Q -> in_rect ku n p kv m q (sc_u c) (sc_v c)) ->
  surf_matrix Q ku kv p q (n * m) = Ok N -> length X = dim ->
  (forall d x, nth_error X d = Some x -> solves (length Q) (n * m) (m_cell N) x (map (fun c => sc_x c d) Q)) ->
  forall c, In c Q -> exists z, surf_eval (sc_u c) (sc_v c) ku kv (poles_of_columns (n * m) X) p q (sc_du c) (sc_dv c) = Ok z /\
    forall d, (d < dim)%nat -> z d = sc_x c d.
Proof.
  intros HQ EN LX HX c Hc. destruct (surf_matrix_ok Q HQ) as (N' & EN' & RN & CN & VN).
  rewrite EN in EN'. injection EN' as <-. apply In_nth_error in Hc as (k & Hk).
  destruct (surf_rv eps ku kv n m p q Hku Hkv Hev (poles_of_columns (n * m) X) (sc_u c) (sc_v c) (sc_du c) (sc_dv c))
    as (z & Ez & Vz); [apply poles_length|apply HQ; eapply nth_error_In; eauto|].
  exists z. split; [exact Ez|]. intros d Hd. rewrite Vz.
  destruct (nth_error X d) as [x|] eqn:Ex; [|apply nth_error_None in Ex; lia].
  destruct (HX d x Ex) as (Lx & _ & S).
  assert (Hkl : (k < length Q)%nat) by (apply nth_error_Some; congruence).
  specialize (S k Hkl). rewrite (nth_error_nth (map (fun c => sc_x c d) Q) k 0 (x := sc_x c d)) in S.
  2:{ rewrite nth_error_map, Hk. reflexivity. }
  rewrite <- S. rewrite sumn_grid by (destruct Hku as (_ & H & _); lia). apply sumn_ext. intros j Hj. rewrite <- sumn_scal.
  apply sumn_ext. intros i Hi. rewrite (VN k c i j Hk Hi Hj).
  rewrite (poles_cell eps (n * m) X d (i + n * j) x Ex) by (try exact Lx; nia). ring.
Qed.

Lemma constraint_poles_ok lu dim (Q : list (@scons R)) P : exact_solver lu -> length Q = (n * m)%nat ->
  (forall c, In c Q -> in_rect ku n p kv m q (sc_u c) (sc_v c)) ->
  surf_constraint_poles lu dim Q ku kv p q = Ok P ->
  length P = (n * m)%nat /\
  forall c, In c Q -> exists z, surf_eval (sc_u c) (sc_v c) ku kv P p q (sc_du c) (sc_dv c) = Ok z /\
    forall d, (d < dim)%nat -> z d = sc_x c d.
Proof.
  intros Hex HL HQ E. unfold surf_constraint_poles in E. rewrite HL in E.
  destruct (surf_matrix_ok Q HQ) as (N & EN & RN & CN & _). rewrite EN in E. cbn [bind] in E.
  apply bind_inv in E as (X & EX & E). injection E as <-. split; [apply poles_length|].
  destruct (mapM_seq _ _ _ EX) as (LX & HX). apply (constraints_eval Q X dim N HQ EN LX).
  intros d x Hx. assert (Hd : (d < dim)%nat) by (rewrite <- LX; apply nth_error_Some; congruence).
  destruct (HX d Hd) as (b & Hb & Eb). rewrite Hx in Hb. injection Hb as <-.
  pose proof (Hex _ _ _ Eb ltac:(rewrite map_length; congruence)) as S. rewrite RN, CN in S. exact S.
Qed.
End Data.
End AtR.
