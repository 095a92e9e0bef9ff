(** Collocation matrices hold basis derivatives; solved poles interpolate. *)
From Coq Require Import List Arith ZArith Reals Lia Lra Bool Permutation.
From Verif Require Import Model_Base Model_Knots Model_Basis Model_Curve Model_Interp
  Spec_Base Spec_Basis Spec_Interp Proof_Base Proof_Blossom Proof_Basis Proof_Ders Proof_Eval
  Proof_PropBasis Proof_Band.
Import ListNotations.
Local Open Scope R_scope.

Section AtR.
Variable eps : R.
Local Hint Extern 0 (Num R) => exact (NumR eps) : typeclass_instances.

Section Rows.
Variables (k : list R) (n p : nat).
Hypothesis Hk : knots_ok k n p.
Definition inside (u : R) : Prop := kn k p <= u <= kn k n.

Definition spn (u : R) : nat := match find_span n p u k with Ok l => l | _ => 0%nat end.

(** Entry [j] of the row of the [d]-th derivative at [u]. *)
Definition rv (u : R) (d j : nat) : R :=
  if (j <=? spn u)%nat
  then ffall p d * NH (kn k) (spn u) (repeat (1, 0) d ++ repeat (u, 1) (p - d)) j else 0.

Lemma ffall_big d : (p < d)%nat -> ffall p d = 0.
Proof.
  induction d as [|d IH]; intros H; [lia|]. cbn [ffall].
  destruct (Nat.eq_dec d p) as [->|]; [rewrite Nat.sub_diag; simpl; ring|]. rewrite IH by lia. ring.
Qed.

Lemma rv_big u d j : (p < d)%nat -> rv u d j = 0.
Proof. intros H. unfold rv. rewrite ffall_big by exact H. destruct (j <=? spn u)%nat; ring. Qed.

Lemma spn_ok u : inside u -> find_span n p u k = Ok (spn u) /\ (p <= spn u < n)%nat /\
  span_at k n u (spn u) /\ kn k (spn u) < kn k (S (spn u)).
Proof.
  intros Hu. destruct (span_pack eps k n p u Hk Hu) as (l & Ef & H). unfold spn. rewrite Ef. auto.
Qed.

Lemma rv_low u d j : (d <= p)%nat -> (j + p < spn u)%nat -> rv u d j = 0.
Proof.
  intros Hd Hj. unfold rv. destruct (Nat.leb_spec j (spn u)); [|reflexivity].
  rewrite NH_out; [ring|]. rewrite app_length, !repeat_length. lia.
Qed.
Lemma rv_high u d j : (spn u < j)%nat -> rv u d j = 0.
Proof. intros Hj. unfold rv. destruct (Nat.leb_spec j (spn u)); [lia|reflexivity]. Qed.

Lemma rv_window u d r : inside u -> (r <= p)%nat -> rv u d (spn u - p + r) = NSd k (spn u) p u d r.
Proof.
  intros Hu Hr. destruct (spn_ok u Hu) as (_ & Hl & _). unfold rv, NSd.
  destruct (Nat.leb_spec (spn u - p + r) (spn u)); [reflexivity|lia].
Qed.

Lemma rv_eval u d (poles : list (pt R)) : inside u -> length poles = n -> eval_dom eps k n p ->
  exists q, eval_value u k poles p d = Ok q /\
    forall c, q c = sumn n (fun j => rv u d j * pole poles c j).
Proof.
  intros Hu HP Hd. destruct (spn_ok u Hu) as (Ef & Hl & Hs & _).
  destruct (Nat.le_gt_cases d p) as [Hdp|Hdp].
  - destruct (eval_value_span eps k n p poles u d (spn u) Hk HP Hl Hs Hdp Hd) as (q & E & V).
    exists q. split; [exact E|]. intros c. rewrite V. unfold PS.
    rewrite (sumn_window n 0 (S (spn u))); [|lia|].
    + apply sumn_ext. intros i Hi. cbn [Nat.add]. unfold rv.
      destruct (Nat.leb_spec i (spn u)); [reflexivity|lia].
    + intros i Hi Hor. rewrite rv_high by lia. ring.
  - exists pzero. split.
    + unfold eval_value. destruct (Nat.ltb_spec p d); [reflexivity|lia].
    + intros c. rewrite sumn_zero; [reflexivity|]. intros i Hi. rewrite rv_big by exact Hdp. ring.
Qed.

Lemma count_ok : basis_count k p = Ok n.
Proof.
  destruct Hk as (Hlen & _). unfold basis_count, subi. rewrite Hlen.
  destruct (Nat.leb_spec (p + 1) (n + p + 1)); [|lia]. f_equal. lia.
Qed.

Lemma extent_ok u : inside u -> basis_band_extent n p u k = Ok (spn u, (spn u - p)%nat, p).
Proof.
  intros Hu. destruct (spn_ok u Hu) as (Ef & Hl & _). unfold basis_band_extent. rewrite Ef. cbn [bind].
  destruct (Nat.leb_spec p (spn u)); [|lia]. destruct (Nat.ltb_spec (spn u - p + p) n); [|lia]. reflexivity.
Qed.

Lemma ders_ok u dd : inside u -> (p <= stack_max)%nat -> (dd <= p)%nat ->
  exists ders, ders_basis_funs_st (spn u) p dd u k = Ok ders /\
    forall d r, (d <= dd)%nat -> (r <= p)%nat -> geti ders (d * (p + 1) + r) = Ok (rv u d (spn u - p + r)).
Proof.
  intros Hu Hst Hdd. destruct (spn_ok u Hu) as (Ef & Hl & Hs & Hst'). pose proof Hk as (Hlen & Hp & Hnd & _).
  destruct (ders_basis_funs_st_ok eps k (spn u) p u Hnd ltac:(lia) ltac:(lia) Hst' Hst dd Hdd)
    as (ders & E & _ & V).
  exists ders. split; [exact E|]. intros d r Hd Hr. rewrite V by lia. rewrite rv_window by auto. reflexivity.
Qed.

Lemma bders_ok u d : inside u -> (p <= stack_max)%nat -> (d <= p)%nat ->
  basis_ders (spn u) p d u k = Ok (map (fun r => rv u d (spn u - p + r)) (seq 0 (p + 1))).
Proof.
  intros Hu Hst Hd. destruct (spn_ok u Hu) as (Ef & Hl & Hs & Hst'). pose proof Hk as (Hlen & Hp & Hnd & _).
  rewrite (basis_ders_ok eps k (spn u) p u Hnd ltac:(lia) ltac:(lia) Hst' Hst d Hd). f_equal.
  apply map_ext_in. intros r Hr. apply in_seq in Hr. rewrite rv_window by (auto; lia). reflexivity.
Qed.

Lemma bfun_ok u d r : inside u -> eval_dom eps k n p -> (stack_max < p)%nat -> (d <= p)%nat -> (r <= p)%nat ->
  basis_function u (spn u - p + r) p d k = Ok (rv u d (spn u - p + r)).
Proof.
  intros Hu [H|(Hcl & Hsep & He)] Hst Hd Hr; [lia|]. destruct (spn_ok u Hu) as (Ef & Hl & Hs & _).
  unfold basis_function. rewrite (basis_der_ok eps k n p (spn u) u Hk Hcl Hsep He Hl Hs p d) by lia.
  unfold rv. destruct (Nat.leb_spec (spn u - p + r) (spn u)); [reflexivity|lia].
Qed.

(** ** Dense matrices *)
Lemma mset_ok (N : @mat R) i j (v : R) : (i < m_rows N)%nat -> (j < m_cols N)%nat ->
  exists N', mset N i j v = Ok N' /\ m_rows N' = m_rows N /\ m_cols N' = m_cols N /\
    forall a b, m_cell N' a b = if ((a =? i) && (b =? j))%nat then v else m_cell N a b.
Proof.
  intros Hi Hj. unfold mset. apply Nat.ltb_lt in Hi; apply Nat.ltb_lt in Hj. rewrite Hi, Hj. cbn [andb].
  eexists; split; [reflexivity|]. auto.
Qed.

(** Writing the p+1 entries of one row. *)
Lemma write_row (N : @mat R) row u d (body : nat -> @mat R -> result (@mat R)) :
  inside u -> (row < m_rows N)%nat -> m_cols N = n ->
  (forall b, m_cell N row b = 0) -> (d <= p)%nat ->
  (forall r N, (r <= p)%nat -> body r N = mset N row (spn u - p + r) (rv u d (spn u - p + r))) ->
  exists N', for_ 0 (p + 1) body N = Ok N' /\ m_rows N' = m_rows N /\ m_cols N' = n /\
    forall a b, m_cell N' a b = if (a =? row)%nat then rv u d b else m_cell N a b.
Proof.
  intros Hu Hrow Hc Hz Hd Hb. destruct (spn_ok u Hu) as (_ & Hl & _).
  destruct (for_inv (fun r N' => m_rows N' = m_rows N /\ m_cols N' = n /\
      forall a b, m_cell N' a b =
        if ((a =? row) && (spn u - p <=? b) && (b <? spn u - p + r))%nat then rv u d b else m_cell N a b)
     body 0 (p + 1) N) as (N' & E & Hr' & Hc' & V).
  - split; [reflexivity|]. split; [exact Hc|]. intros a b.
    destruct (Nat.leb_spec (spn u - p) b), (Nat.ltb_spec b (spn u - p + 0)); try lia;
      rewrite ?andb_false_r; reflexivity.
  - intros r N1 Hr (R1 & C1 & V1). rewrite Hb by lia.
    destruct (mset_ok N1 row (spn u - p + r) (rv u d (spn u - p + r))) as (N2 & E2 & R2 & C2 & V2); [lia|lia|].
    exists N2. split; [exact E2|]. split; [congruence|]. split; [congruence|]. intros a b. rewrite V2, V1.
    destruct (Nat.eqb_spec a row) as [->|]; cbn [andb]; [|reflexivity].
    destruct (Nat.eqb_spec b (spn u - p + r)) as [->|].
    + destruct (Nat.leb_spec (spn u - p) (spn u - p + r)), (Nat.ltb_spec (spn u - p + r) (spn u - p + S r)); try lia. reflexivity.
    + destruct (Nat.leb_spec (spn u - p) b), (Nat.ltb_spec b (spn u - p + r)), (Nat.ltb_spec b (spn u - p + S r)); try lia; reflexivity.
  - exists N'. split; [exact E|]. split; [exact Hr'|]. split; [exact Hc'|]. intros a b. rewrite V.
    destruct (Nat.eqb_spec a row) as [->|]; cbn [andb]; [|reflexivity].
    destruct (Nat.leb_spec (spn u - p) b), (Nat.ltb_spec b (spn u - p + (0 + (p + 1)))); cbn [andb]; try reflexivity;
      rewrite Hz; symmetry; first [apply rv_low; lia|apply rv_high; lia].
Qed.

Lemma fill_row_ok (N : @mat R) row u d : inside u -> eval_dom eps k n p ->
  (row < m_rows N)%nat -> m_cols N = n -> (forall b, m_cell N row b = 0) ->
  exists N', fill_basis_row N row u k p d = Ok N' /\ m_rows N' = m_rows N /\ m_cols N' = n /\
    forall a b, m_cell N' a b = if (a =? row)%nat then rv u d b else m_cell N a b.
Proof.
  intros Hu Hdom Hrow Hc Hz. unfold fill_basis_row. destruct (Nat.ltb_spec p d) as [Hd|Hd].
  { exists N. split; [reflexivity|]. split; [reflexivity|]. split; [exact Hc|]. intros a b.
    destruct (Nat.eqb_spec a row) as [->|]; [|reflexivity]. rewrite rv_big by exact Hd. apply Hz. }
  rewrite count_ok. cbn [bind]. rewrite extent_ok by exact Hu. cbn [bind].
  destruct (Nat.leb_spec p stack_max) as [Hs|Hs].
  - rewrite bders_ok by auto. cbn [bind]. apply write_row; auto.
    intros r N1 Hr. rewrite get_map_seq by lia. reflexivity.
  - apply write_row; auto. intros r N1 Hr. rewrite bfun_ok by auto. reflexivity.
Qed.

Lemma fill_band_ok (N : @mat R) row0 u dmax : inside u -> eval_dom eps k n p ->
  (row0 + dmax < m_rows N)%nat -> m_cols N = n ->
  (forall a b, (row0 <= a <= row0 + dmax)%nat -> m_cell N a b = 0) ->
  exists N', fill_basis_band N row0 u k p dmax = Ok N' /\ m_rows N' = m_rows N /\ m_cols N' = n /\
    forall a b, m_cell N' a b =
      if ((row0 <=? a) && (a <=? row0 + dmax))%nat then rv u (a - row0) b else m_cell N a b.
Proof.
  intros Hu Hdom Hrow Hc Hz. unfold fill_basis_band. rewrite count_ok. cbn [bind].
  rewrite extent_ok by exact Hu. cbn [bind]. set (dd := Nat.min dmax p).
  assert (G : forall body : nat -> nat -> @mat R -> result (@mat R),
    (forall d r N, (d <= dd)%nat -> (r <= p)%nat ->
       body d r N = mset N (row0 + d) (spn u - p + r) (rv u d (spn u - p + r))) ->
    exists N', for_ 0 (dd + 1) (fun d => for_ 0 (p + 1) (body d)) N = Ok N' /\
      m_rows N' = m_rows N /\ m_cols N' = n /\
    forall a b, m_cell N' a b =
      if ((row0 <=? a) && (a <=? row0 + dmax))%nat then rv u (a - row0) b else m_cell N a b).
  { intros body Hb.
    destruct (for_inv (fun d N' => m_rows N' = m_rows N /\ m_cols N' = n /\
       forall a b, m_cell N' a b =
        if ((row0 <=? a) && (a <? row0 + d))%nat then rv u (a - row0) b else m_cell N a b)
      (fun d => for_ 0 (p + 1) (body d)) 0 (dd + 1) N) as (N' & E & R' & C' & V).
    - split; [reflexivity|]. split; [exact Hc|]. intros a b.
      destruct (Nat.leb_spec row0 a), (Nat.ltb_spec a (row0 + 0)); try lia; reflexivity.
    - intros d N1 Hd (R1 & C1 & V1).
      destruct (write_row N1 (row0 + d) u d (body d)) as (N2 & E2 & R2 & C2 & V2);
        [exact Hu|lia|exact C1| |lia| |].
      + intros b. rewrite V1. destruct (Nat.ltb_spec (row0 + d) (row0 + d)); [lia|].
        rewrite andb_false_r. apply Hz. lia.
      + intros r N2 Hr. apply Hb; lia.
      + exists N2. split; [exact E2|]. split; [congruence|]. split; [exact C2|]. intros a b. rewrite V2, V1.
        destruct (Nat.eqb_spec a (row0 + d)) as [->|].
        * destruct (Nat.leb_spec row0 (row0 + d)), (Nat.ltb_spec (row0 + d) (row0 + S d)); try lia. cbn [andb].
          f_equal. lia.
        * destruct (Nat.leb_spec row0 a), (Nat.ltb_spec a (row0 + d)), (Nat.ltb_spec a (row0 + S d)); try lia; reflexivity.
    - exists N'. split; [exact E|]. split; [exact R'|]. split; [exact C'|]. intros a b. rewrite V.
      destruct (Nat.leb_spec row0 a); cbn [andb]; [|reflexivity].
      destruct (Nat.ltb_spec a (row0 + (0 + (dd + 1)))), (Nat.leb_spec a (row0 + dmax)); try reflexivity; try lia.
      rewrite Hz by lia. rewrite rv_big by lia. reflexivity. }
  destruct (Nat.leb_spec p stack_max) as [Hs|Hs].
  - destruct (ders_ok u dd Hu Hs ltac:(lia)) as (ders & E & V). rewrite E. cbn [bind].
    apply (G (fun d r N => let* v := geti ders (d * (p + 1) + r) in mset N (row0 + d) (spn u - p + r) v)).
    intros d r N1 Hd Hr. rewrite V by auto. reflexivity.
  - apply (G (fun d r N => let* v := basis_function u (spn u - p + r) p d k in mset N (row0 + d) (spn u - p + r) v)).
    intros d r N1 Hd Hr. rewrite bfun_ok by (auto; lia). reflexivity.
Qed.

Lemma div_rows nc i d a : (1 <= nc)%nat -> (d < nc)%nat -> (a < i)%nat -> (nc * a + d < nc * i)%nat.
Proof. intros. assert (nc * S a <= nc * i)%nat by (apply Nat.mul_le_mono_l; lia). lia. Qed.

Lemma matrix_ok nc (u : list R) rows : (1 <= nc)%nat -> eval_dom eps k n p ->
  (forall x, In x u -> inside x) -> (nc * length u <= rows)%nat ->
  exists N, build_poles_matrix nc k u p rows n = Ok N /\ m_rows N = rows /\ m_cols N = n /\
    (forall i d b, (i < length u)%nat -> (d < nc)%nat -> m_cell N (nc * i + d) b = rv (nth i u 0) d b) /\
    (forall a b, (nc * length u <= a)%nat -> m_cell N a b = 0).
Proof.
  intros Hnc Hdom Hu Hrows. unfold build_poles_matrix.
  destruct (for_inv (fun m N => m_rows N = rows /\ m_cols N = n /\
     (forall i d b, (i < m)%nat -> (d < nc)%nat -> m_cell N (nc * i + d) b = rv (nth i u 0) d b) /\
     (forall a b, (nc * m <= a)%nat -> m_cell N a b = 0))
    (fun i N => let* ui := get u i in fill_basis_band N (nc * i) ui k p (nc - 1)) 0 (length u) (mzero rows n))
    as (N & E & H).
  - split; [reflexivity|]. split; [reflexivity|]. split; [intros; lia|]. reflexivity.
  - intros i N Hi (R1 & C1 & V1 & Z1). rewrite (get_nth _ _ 0) by lia. cbn [bind].
    assert (nc * S i <= rows)%nat by (etransitivity; [|exact Hrows]; apply Nat.mul_le_mono_l; lia).
    destruct (fill_band_ok N (nc * i) (nth i u 0) (nc - 1)) as (N' & E' & R' & C' & V');
      [apply Hu, nth_In; lia|exact Hdom|lia|exact C1|intros; apply Z1; lia|].
    exists N'. split; [exact E'|]. split; [congruence|]. split; [exact C'|]. split.
    + intros a d b Ha Hd. rewrite V'. destruct (Nat.eq_dec a i) as [->|Hne].
      * destruct (Nat.leb_spec (nc * i) (nc * i + d)), (Nat.leb_spec (nc * i + d) (nc * i + (nc - 1))); try lia.
        cbn [andb]. f_equal. lia.
      * pose proof (div_rows nc i d a Hnc Hd ltac:(lia)).
        destruct (Nat.leb_spec (nc * i) (nc * a + d)); [lia|]. cbn [andb]. apply V1; lia.
    + intros a b Ha. rewrite V'. destruct (Nat.leb_spec a (nc * i + (nc - 1))); [lia|]. rewrite andb_false_r.
      apply Z1. lia.
  - exists N. destruct H as (H1 & H2 & H3 & H4). auto.
Qed.

(** ** The band *)
Lemma pass1_ok nc dd (u : list R) : (forall x, In x u -> inside x) ->
  exists kl ku, band_pass1 n p nc dd k u = Ok (map (fun x => (spn x, (spn x - p)%nat, p)) u, kl, ku) /\
    (0 <= kl)%Z /\ (0 <= ku)%Z /\
    forall i, (i < length u)%nat ->
      (Z.of_nat (nc * i + dd) - Z.of_nat (spn (nth i u 0%R) - p) <= kl)%Z /\
      (Z.of_nat (spn (nth i u 0%R)) - Z.of_nat (nc * i) <= ku)%Z.
Proof.
  intros Hu. unfold band_pass1.
  destruct (for_inv (fun m st => let '(ext, kl, ku) := st in
      ext = map (fun x => (spn x, (spn x - p)%nat, p)) (firstn m u) /\ (0 <= kl)%Z /\ (0 <= ku)%Z /\
      forall i, (i < m)%nat ->
      (Z.of_nat (nc * i + dd) - Z.of_nat (spn (nth i u 0%R) - p) <= kl)%Z /\
      (Z.of_nat (spn (nth i u 0%R)) - Z.of_nat (nc * i) <= ku)%Z)
     (fun i st => let '(ext, kl, ku) := st in
    let* ui := get u i in
    let* e := basis_band_extent n p ui k in
    let '(_, i_min, r_max) := e in
    Ok (ext ++ [e],
        Z.max kl (Z.of_nat (nc * i + dd) - Z.of_nat i_min),
        Z.max ku (Z.of_nat (i_min + r_max) - Z.of_nat (nc * i)))) 0 (length u) ([], 0%Z, 0%Z))
    as (((ext & kl) & ku) & E & Hext & H1 & H2 & H3).
  - split; [reflexivity|]. split; [lia|]. split; [lia|]. intros; lia.
  - intros i ((ext & kl) & ku) Hi (He & H1 & H2 & H3). rewrite (get_nth _ _ 0) by lia. cbn [bind].
    assert (Hin : inside (nth i u 0)) by (apply Hu, nth_In; lia).
    rewrite extent_ok by exact Hin. cbn [bind]. eexists; split; [reflexivity|].
    destruct (spn_ok _ Hin) as (_ & Hl & _).
    cbv zeta. split; [|split; [lia|split; [lia|]]].
    + rewrite He. rewrite <- (firstn_skipn i u) at 3.
      assert (Es : skipn i u = nth i u 0 :: skipn (S i) u).
      { clear -Hi. revert i Hi. induction u as [|x t IH]; intros [|i] Hi; simpl in *; try lia; [reflexivity|]. apply IH; lia. }
      assert (Ef : firstn (S i) u = firstn i u ++ [nth i u 0]).
      { clear -Hi. revert i Hi. induction u as [|x t IH]; intros [|i] Hi; simpl in *; try lia; [reflexivity|].
        f_equal. apply IH; lia. }
      rewrite firstn_skipn, Ef, map_app. reflexivity.
    + intros j Hj. destruct (Nat.eq_dec j i) as [->|]; [lia|]. destruct (H3 j ltac:(lia)). lia.
  - exists kl, ku. cbn [Nat.add] in Hext. rewrite firstn_all in Hext. rewrite <- Hext. auto.
Qed.

Lemma max_abs_ge (scale v : R) : 0 <= scale -> 0 <= max_abs scale v.
Proof.
  intros H. unfold max_abs. rewrite nabs_R. cbn [nltb NumR]. destruct (Rltb_spec scale (Rabs v)); [|exact H].
  apply Rabs_pos.
Qed.

(** Writing the p+1 entries of one row into the band. *)
Lemma write_band_row kl ku rows row u d (M : list R) scale (body : nat -> list R * R -> result (list R * R)) :
  inside u -> (row < rows)%nat -> length M = (rows * (kl + ku + 1))%nat -> 0 <= scale ->
  (row <= spn u - p + kl)%nat -> (spn u <= row + ku)%nat ->
  (forall b, banded kl ku M row b = 0) -> (d <= p)%nat ->
  (forall r st, (r <= p)%nat -> body r st =
     let '(M, scale) := st in
     let* M := bset kl (kl + ku + 1) M row (spn u - p + r) (rv u d (spn u - p + r)) in
     Ok (M, max_abs scale (rv u d (spn u - p + r)))) ->
  exists M' scale', for_ 0 (p + 1) body (M, scale) = Ok (M', scale') /\
    length M' = (rows * (kl + ku + 1))%nat /\ 0 <= scale' /\
    forall a b, banded kl ku M' a b = if (a =? row)%nat then rv u d b else banded kl ku M a b.
Proof.
  intros Hu Hrow HM Hsc Hkl Hku Hz Hd Hb. destruct (spn_ok u Hu) as (_ & Hl & _).
  destruct (for_inv (fun r st => let '(M', scale') := st in length M' = (rows * (kl + ku + 1))%nat /\ 0 <= scale' /\
      forall a b, banded kl ku M' a b =
        if ((a =? row) && (spn u - p <=? b) && (b <? spn u - p + r))%nat then rv u d b else banded kl ku M a b)
     body 0 (p + 1) (M, scale)) as ((M' & scale') & E & L' & S' & V).
  - split; [exact HM|]. split; [exact Hsc|]. intros a b.
    destruct (Nat.leb_spec (spn u - p) b), (Nat.ltb_spec b (spn u - p + 0)); try lia;
      rewrite ?andb_false_r; reflexivity.
  - intros r (M1 & s1) Hr (L1 & S1 & V1). rewrite Hb by lia.
    destruct (bset_ok kl ku rows M1 row (spn u - p + r) (rv u d (spn u - p + r)) L1 Hrow) as (M2 & E2 & L2 & V2).
    { apply inb_spec. lia. }
    rewrite E2. cbn [bind]. eexists; split; [reflexivity|]. split; [exact L2|].
    split; [apply max_abs_ge; exact S1|]. intros a b. rewrite V2, V1.
    destruct (Nat.eqb_spec a row) as [->|]; cbn [andb]; [|reflexivity].
    destruct (Nat.eqb_spec b (spn u - p + r)) as [->|].
    + destruct (Nat.leb_spec (spn u - p) (spn u - p + r)), (Nat.ltb_spec (spn u - p + r) (spn u - p + S r)); try lia. reflexivity.
    + destruct (Nat.leb_spec (spn u - p) b), (Nat.ltb_spec b (spn u - p + r)), (Nat.ltb_spec b (spn u - p + S r)); try lia; reflexivity.
  - exists M', scale'. split; [exact E|]. split; [exact L'|]. split; [exact S'|]. intros a b. rewrite V.
    destruct (Nat.eqb_spec a row) as [->|]; cbn [andb]; [|reflexivity].
    destruct (Nat.leb_spec (spn u - p) b), (Nat.ltb_spec b (spn u - p + (0 + (p + 1)))); cbn [andb]; try reflexivity;
      rewrite Hz; symmetry; first [apply rv_low; lia|apply rv_high; lia].
Qed.

Lemma banded_zero kl ku m a b : banded kl ku (filled m 0) a b = 0.
Proof. unfold banded, filled. destruct (_ && _)%bool; [|reflexivity]. apply nth_repeat. Qed.

Lemma width_nonneg z : (0 <= z)%Z -> width z = Z.to_nat z.
Proof. intros H. unfold width. destruct (Z.ltb_spec z 0); [lia|reflexivity]. Qed.

Lemma assemble_ok nc (u : list R) rows : (1 <= nc)%nat -> (p <= stack_max)%nat ->
  (forall x, In x u -> inside x) -> (nc * length u <= rows)%nat ->
  exists kl ku M scale, band_assemble k u p nc rows = Ok (mkband rows kl ku M, scale) /\
    length M = (rows * (kl + ku + 1))%nat /\ 0 <= scale /\
    (forall i d b, (i < length u)%nat -> (d < nc)%nat -> banded kl ku M (nc * i + d) b = rv (nth i u 0) d b) /\
    (forall a b, (nc * length u <= a)%nat -> banded kl ku M a b = 0).
Proof.
  intros Hnc Hst Hu Hrows. unfold band_assemble. rewrite count_ok. cbn [bind].
  set (dd := Nat.min (nc - 1) p).
  destruct (pass1_ok nc dd u Hu) as (kl_ & ku_ & E1 & Hkl & Hku & Hw). rewrite E1. cbn [bind].
  rewrite !width_nonneg by assumption. set (kl := Z.to_nat kl_). set (ku := Z.to_nat ku_).
  exists kl, ku. unfold band_pass2.
  set (ext := map (fun x => (spn x, (spn x - p)%nat, p)) u).
  destruct (for_inv (fun m st => let '(M, scale) := st in length M = (rows * (kl + ku + 1))%nat /\ 0 <= scale /\
    (forall i d b, (i < m)%nat -> (d < nc)%nat -> banded kl ku M (nc * i + d) b = rv (nth i u 0) d b) /\
    (forall a b, (nc * m <= a)%nat -> banded kl ku M a b = 0))
    (fun i st =>
    let* ui := get u i in
    let* (span, i_min, r_max) := get ext i in
    let* ders := ders_basis_funs_st span p dd ui k in
    for_ 0 (dd + 1) (fun d st =>
      for_ 0 (r_max + 1) (fun r st =>
        let '(M, scale) := st in
        let* v := geti ders (d * (p + 1) + r) in
        let* M := bset kl (kl + ku + 1) M (nc * i + d) (i_min + r) v in
        Ok (M, max_abs scale v)) st) st) 0 (length u) (filled (rows * (kl + ku + 1)) 0, 0))
    as ((M & scale) & E & H).
  - split; [apply filled_length|]. split; [lra|]. split; [intros; lia|]. intros; apply banded_zero.
  - intros i (M & scale) Hi (L1 & S1 & V1 & Z1). rewrite (get_nth _ _ 0) by lia. cbn [bind].
    set (ui := nth i u 0). assert (Hin : inside ui) by (apply Hu, nth_In; lia).
    assert (Eg : get ext i = Ok (spn ui, (spn ui - p)%nat, p)).
    { unfold ext. apply get_some. rewrite nth_error_map, (nth_error_nth' u 0) by lia. reflexivity. }
    rewrite Eg. cbn [bind].
    destruct (ders_ok ui dd Hin Hst ltac:(lia)) as (ders & Ed & Vd). rewrite Ed. cbn [bind].
    destruct (Hw i ltac:(lia)) as (W1 & W2). fold ui in W1, W2. destruct (spn_ok ui Hin) as (_ & Hl & _).
    assert (nc * S i <= rows)%nat by (etransitivity; [|exact Hrows]; apply Nat.mul_le_mono_l; lia).
    destruct (for_inv (fun m st => let '(M', scale') := st in length M' = (rows * (kl + ku + 1))%nat /\ 0 <= scale' /\
        forall a b, banded kl ku M' a b =
          if ((nc * i <=? a) && (a <? nc * i + m))%nat then rv ui (a - nc * i) b else banded kl ku M a b)
      (fun d st =>
      for_ 0 (p + 1) (fun r st =>
        let '(M, scale) := st in
        let* v := geti ders (d * (p + 1) + r) in
        let* M := bset kl (kl + ku + 1) M (nc * i + d) (spn ui - p + r) v in
        Ok (M, max_abs scale v)) st) 0 (dd + 1) (M, scale)) as ((M2 & s2) & E2 & L2 & S2 & V2).
    + split; [exact L1|]. split; [exact S1|]. intros a b.
      destruct (Nat.leb_spec (nc * i) a), (Nat.ltb_spec a (nc * i + 0)); try lia; reflexivity.
    + intros d (M3 & s3) Hd (L3 & S3 & V3).
      destruct (write_band_row kl ku rows (nc * i + d) ui d M3 s3
         (fun r st =>
        let '(M, scale) := st in
        let* v := geti ders (d * (p + 1) + r) in
        let* M := bset kl (kl + ku + 1) M (nc * i + d) (spn ui - p + r) v in
        Ok (M, max_abs scale v))) as (M4 & s4 & E4 & L4 & S4 & V4); try assumption; try lia.
      * intros b. rewrite V3. destruct (Nat.ltb_spec (nc * i + d) (nc * i + d)); [lia|].
        rewrite andb_false_r. apply Z1. lia.
      * intros r (M5 & s5) Hr. rewrite Vd by lia. reflexivity.
      * exists (M4, s4). split; [exact E4|]. split; [exact L4|]. split; [exact S4|]. intros a b. rewrite V4, V3.
        destruct (Nat.eqb_spec a (nc * i + d)) as [->|].
        -- destruct (Nat.leb_spec (nc * i) (nc * i + d)), (Nat.ltb_spec (nc * i + d) (nc * i + S d)); try lia.
           cbn [andb]. f_equal. lia.
        -- destruct (Nat.leb_spec (nc * i) a), (Nat.ltb_spec a (nc * i + d)), (Nat.ltb_spec a (nc * i + S d)); try lia; reflexivity.
    + exists (M2, s2). split; [exact E2|]. split; [exact L2|]. split; [exact S2|]. split.
      * intros a d b Ha Hd. rewrite V2. destruct (Nat.eq_dec a i) as [->|Hne].
        -- destruct (Nat.leb_spec (nc * i) (nc * i + d)); [|lia].
           destruct (Nat.ltb_spec (nc * i + d) (nc * i + (0 + (dd + 1)))); cbn [andb].
           ++ fold ui. f_equal. lia.
           ++ rewrite Z1 by lia. fold ui. rewrite rv_big by lia. reflexivity.
        -- pose proof (div_rows nc i d a Hnc Hd ltac:(lia)).
           destruct (Nat.leb_spec (nc * i) (nc * a + d)); [lia|]. cbn [andb]. apply V1; lia.
      * intros a b Ha. rewrite V2. destruct (Nat.ltb_spec a (nc * i + (0 + (dd + 1)))); [lia|].
        rewrite andb_false_r. apply Z1. lia.
  - exists M, scale. fold ext. cbn [n0 NumR] in E |- *. cbn [Nat.add] in H. rewrite E. cbn [bind].
    split; [reflexivity|]. exact H.
Qed.

(** ** Poles *)
Lemma poles_cell m (X : list (list R)) c i x : nth_error X c = Some x -> (i < m)%nat -> length x = m ->
  pole (poles_of_columns m X) c i = nth i x 0.
Proof.
  intros Hx Hi Hl. unfold pole, poles_of_columns.
  match goal with |- context [map ?g (seq 0 m)] => set (f := g) end.
  rewrite (nth_indep _ _ (f 0%nat)) by (rewrite map_length, seq_length; lia).
  rewrite map_nth, seq_nth by lia. unfold f. cbn [Nat.add]. rewrite Hx.
  rewrite (nth_error_nth' x 0) by lia. reflexivity.
Qed.
Lemma poles_length m (X : list (list R)) : length (poles_of_columns m X) = m.
Proof. unfold poles_of_columns. rewrite map_length, seq_length. reflexivity. Qed.

Lemma mapM_nth {A B} (f : A -> result B) l r : mapM f l = Ok r ->
  length r = length l /\ forall i a, nth_error l i = Some a -> exists b, nth_error r i = Some b /\ f a = Ok b.
Proof.
  revert r; induction l as [|a t IH]; intros r E; cbn [mapM] in E.
  - injection E as <-. split; [reflexivity|]. intros [|i] a H; discriminate.
  - apply bind_inv in E as (b & Eb & E). apply bind_inv in E as (bs & Ebs & E). injection E as <-.
    destruct (IH bs Ebs) as (HL & HI). split; [simpl; congruence|].
    intros [|i] a' H; simpl in *; [injection H as <-; eauto|apply HI; exact H].
Qed.

Lemma collocation_ok sparse nc (u : list R) rows cols X : exact_solver sparse -> 0 <= eps ->
  (1 <= nc)%nat -> eval_dom eps k n p -> rows = n -> (nc * length u = n)%nat ->
  (forall x, In x u -> inside x) -> (forall b, In b cols -> length b = n) ->
  collocation_solve sparse k u p nc rows cols = Ok X ->
  length X = length cols /\ forall c b, nth_error cols c = Some b -> exists x, nth_error X c = Some x /\
    length x = n /\
    forall i d, (i < length u)%nat -> (d < nc)%nat ->
      sumn n (fun j => rv (nth i u 0) d j * nth j x 0) = nth (nc * i + d) b 0.
Proof.
  intros Hex He Hnc Hdom -> Hn Hu Hcols E. unfold collocation_solve in E.
  apply bind_inv in E as (f & Ef & E). unfold assemble_and_factorize in Ef.
  assert (Hidx : forall i d, (i < length u)%nat -> (d < nc)%nat -> (nc * i + d < n)%nat).
  { intros i d Hi Hd. pose proof (div_rows nc (length u) d i Hnc Hd Hi). lia. }
  assert (Hsp : f = None -> length X = length cols /\ forall c b, nth_error cols c = Some b -> exists x, nth_error X c = Some x /\
    length x = n /\
    forall i d, (i < length u)%nat -> (d < nc)%nat ->
      sumn n (fun j => rv (nth i u 0) d j * nth j x 0) = nth (nc * i + d) b 0).
  { intros ->. apply bind_inv in E as (N & EN & EX).
    destruct (matrix_ok nc u n Hnc Hdom Hu ltac:(lia)) as (N' & EN' & HR & HC & HV & _).
    unfold assemble_collocation_sparse in EN. rewrite EN' in EN. injection EN as <-.
    destruct (mapM_nth _ _ _ EX) as (HL & HI). split; [exact HL|].
    intros c b Hb. destruct (HI c b Hb) as (x & Hx & Es). exists x. split; [exact Hx|].
    assert (Hbl : length b = n) by (apply Hcols; eapply nth_error_In; eauto).
    destruct (Hex N' b x Es ltac:(congruence)) as (Lx & _ & Hs). split; [congruence|].
    intros i d Hi Hd. rewrite <- Hs by (rewrite HR; auto). rewrite HC. apply sumn_ext. intros j Hj.
    rewrite HV by auto. reflexivity. }
  destruct (Nat.ltb_spec stack_max p) as [Hp|Hp]; [injection Ef as <-; auto|].
  apply bind_inv in Ef as ((B & scale) & EB & Ef).
  destruct (assemble_ok nc u n Hnc Hp Hu ltac:(lia)) as (kl & ku & M & sc & EB' & LM & Hsc & HV & _).
  rewrite EB' in EB. injection EB as <- <-.
  destruct (factorize_spec eps kl ku n M sc He Hsc LM) as (o & Eo & Ho). rewrite Eo in Ef. injection Ef as <-.
  destruct o as [F|]; [|auto].
  destruct Ho as (_ & Hsol). destruct (mapM_nth _ _ _ E) as (HL & HI). split; [exact HL|].
  intros c b Hb. destruct (HI c b Hb) as (x & Hx & Es). exists x. split; [exact Hx|].
  assert (Hbl : length b = n) by (apply Hcols; eapply nth_error_In; eauto).
  destruct (Hsol b Hbl) as (x' & Ex' & Lx & _ & Hs). rewrite Es in Ex'. injection Ex' as <-.
  split; [exact Lx|]. intros i d Hi Hd. rewrite <- Hs by auto. apply sumn_ext. intros j Hj.
  rewrite HV by auto. reflexivity.
Qed.

Lemma concat_len {A} (Q : list (list A)) nc : (forall q, In q Q -> length q = nc) ->
  length (concat Q) = (nc * length Q)%nat.
Proof.
  induction Q as [|q t IH]; intros H; [simpl; lia|]. cbn [concat length]. rewrite app_length, IH by (intros; apply H; simpl; auto).
  rewrite (H q) by (simpl; auto). lia.
Qed.
Lemma concat_nth {A} (Q : list (list A)) nc i d z : (forall q, In q Q -> length q = nc) -> (i < length Q)%nat -> (d < nc)%nat ->
  nth (nc * i + d) (concat Q) z = nth d (nth i Q []) z.
Proof.
  revert i; induction Q as [|q t IH]; intros i H Hi Hd; [simpl in Hi; lia|]. cbn [concat].
  assert (Hq : length q = nc) by (apply H; simpl; auto).
  destruct i as [|i].
  - rewrite app_nth1 by lia. cbn [nth]. f_equal. lia.
  - rewrite app_nth2 by lia. rewrite Hq. replace (nc * S i + d - nc)%nat with (nc * i + d)%nat by lia.
    cbn [nth]. apply IH; [intros; apply H; simpl; auto|simpl in Hi; lia|exact Hd].
Qed.

Lemma rhs_nth Q nc c i d : (forall q, In q Q -> length q = nc) -> (i < length Q)%nat -> (d < nc)%nat ->
  nth (nc * i + d) (rhs_column Q c) 0 = nth d (nth i Q []) (fun _ => 0) c.
Proof.
  intros H Hi Hd. unfold rhs_column. rewrite <- (concat_nth Q nc i d (fun _ => 0) H Hi Hd).
  change 0 with ((fun q : pt R => q c) (fun _ => 0)) at 1. rewrite map_nth. reflexivity.
Qed.

Lemma build_poles_ok sparse dim nc (Q : list (list (pt R))) (u : list R) P :
  exact_solver sparse -> 0 <= eps -> (1 <= nc)%nat -> eval_dom eps k n p ->
  length u = length Q -> (length Q * nc = n)%nat -> (forall q, In q Q -> length q = nc) ->
  (forall x, In x u -> inside x) ->
  build_poles sparse dim nc Q k u p = Ok P ->
  length P = n /\ forall i d, (i < length Q)%nat -> (d < nc)%nat ->
    exists q, eval_value (nth i u 0) k P p d = Ok q /\
      forall c, (c < dim)%nat -> q c = nth d (nth i Q []) (fun _ => 0) c.
Proof.
  intros Hex He Hnc Hdom Hul Hn HQ Hu E. unfold build_poles in E. apply bind_inv in E as (X & EX & E).
  injection E as <-. rewrite Hn. split; [apply poles_length|].
  destruct (collocation_ok sparse nc u (length Q * nc) (map (rhs_column Q) (seq 0 dim)) X Hex He Hnc Hdom Hn ltac:(lia) Hu) as (HL & HX).
  2: exact EX.
  { intros b Hb. apply in_map_iff in Hb as (c & <- & _). unfold rhs_column. rewrite map_length.
    etransitivity; [apply (concat_len Q nc HQ)|lia]. }
  intros i d Hi Hd.
  destruct (rv_eval (nth i u 0) d (poles_of_columns n X)) as (q & Eq & Vq);
    [apply Hu, nth_In; lia|apply poles_length|exact Hdom|].
  exists q. split; [exact Eq|]. intros c Hc. rewrite Vq.
  destruct (HX c (rhs_column Q c)) as (x & Hx & Lx & Hs).
  { rewrite nth_error_map. rewrite (nth_error_nth' _ 0%nat) by (rewrite seq_length; lia).
    rewrite seq_nth by lia. reflexivity. }
  rewrite <- (rhs_nth Q nc c i d HQ Hi Hd). rewrite <- Hs by lia. apply sumn_ext. intros j Hj.
  rewrite (poles_cell n X c j x) by auto. reflexivity.
Qed.
End Rows.
End AtR.
