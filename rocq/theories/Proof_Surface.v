(** Evaluation of surfaces. *)
From Coq Require Import List Arith ZArith Reals Lia Lra Bool.
From Verif Require Import Model_Base Model_Basis Model_Surface Spec_Base Spec_Basis Spec_Eval Spec_Surface
  Proof_Base Proof_Blossom Proof_Basis Proof_Ders Proof_Eval Proof_PropBasis Proof_Quotient.
Import ListNotations.
Local Open Scope R_scope.

Lemma upd_upd {A} (l : list A) i a b : upd (upd l i a) i b = upd l i b.
Proof. revert i; induction l as [|h t IH]; intros [|i]; simpl; auto. f_equal; auto. Qed.
Lemma upd_same {A} (l : list A) i a : get l i = Ok a -> upd l i a = l.
Proof.
  unfold get. revert i; induction l as [|h t IH]; intros [|i]; simpl; try discriminate.
  - congruence.
  - intros H. f_equal. apply IH; exact H.
Qed.

(** Accumulation into one cell. *)
Lemma cell_acc (idx : nat) (bd : nat -> list (pt R) -> result (list (pt R))) (g : nat -> nat -> R) lo :
  forall n (S0 : list (pt R)) c0, get S0 idx = Ok c0 ->
  (forall r S1 c1, (r < n)%nat -> get S1 idx = Ok c1 ->
     exists c2, bd (lo + r)%nat S1 = Ok (upd S1 idx c2) /\ forall c, c2 c = c1 c + g c r) ->
  exists c2, for_ lo n bd S0 = Ok (upd S0 idx c2) /\ forall c, c2 c = c0 c + sumn n (g c).
Proof.
  intros n S0 c0 Hc Hb. pose proof (get_lt _ _ _ Hc) as Hlt.
  destruct (for_inv (fun i S1 => exists c2, S1 = upd S0 idx c2 /\ forall c, c2 c = c0 c + sumn (i - lo) (g c))
    bd lo n S0) as (S1 & E & c2 & -> & V).
  - exists c0. split; [symmetry; apply upd_same; exact Hc|]. intros c. rewrite Nat.sub_diag. cbn [sumn]. ring.
  - intros i S1 Hi (c1 & -> & V). destruct (Hb (i - lo)%nat (upd S0 idx c1) c1) as (c2 & E & V2); [lia|apply get_upd_same; exact Hlt|].
    replace (lo + (i - lo))%nat with i in E by lia. rewrite E. eexists; split; [reflexivity|].
    exists c2. split; [apply upd_upd|]. intros c. rewrite V2, V.
    replace (S i - lo)%nat with (S (i - lo)) by lia. cbn [sumn]. ring.
  - exists c2. split; [exact E|]. intros c. rewrite V. do 2 f_equal. lia.
Qed.

Section AtR.
Variable eps : R.
Notation NR := (NumR eps).
Local Hint Extern 0 (Num R) => exact (NumR eps) : typeclass_instances.

(** The weight of pole i in PS. *)
Definition BW (k : list R) (p l d : nat) (u : R) (i : nat) : R :=
  ffall p d * NH (kn k) l (repeat (1, 0) d ++ repeat (u, 1) (p - d)) i.

Lemma PS_win k p l d P u : (p <= l)%nat -> (d <= p)%nat ->
  PS k p l d P u = sumn (p + 1) (fun r => BW k p l d u (l - p + r) * P (l - p + r)%nat).
Proof.
  intros Hl Hd. unfold PS. apply (window_sum l p (fun i => BW k p l d u i * P i)); [lia|].
  intros i Hi. unfold BW. rewrite NH_out; [ring|]. rewrite app_length, !repeat_length. lia.
Qed.
Lemma PS_ext k p l d P Q u : (forall i, (i <= l)%nat -> P i = Q i) -> PS k p l d P u = PS k p l d Q u.
Proof. intros H. unfold PS. apply sumn_ext; intros i Hi. rewrite H by lia. reflexivity. Qed.

Lemma ev2_1 ku n p kv m q : evaluable2 eps ku n p kv m q -> evaluable eps ku n p.
Proof. intros [H|H]; [left; tauto|right; tauto]. Qed.
Lemma ev2_2 ku n p kv m q : evaluable2 eps ku n p kv m q -> evaluable eps kv m q.
Proof. intros [H|H]; [left; tauto|right; tauto]. Qed.

Lemma npoles_ok (k : list R) n p : length k = (n + p + 1)%nat -> npoles k p = Ok n.
Proof. intros H. unfold npoles. rewrite subi_ok by lia. f_equal. lia. Qed.

Section Data.
Variables (ku kv : list R) (n m p q : nat) (P : list (pt R)).
Hypothesis Hok : grid_ok ku n p kv m q P.
Hypothesis Hev : evaluable2 eps ku n p kv m q.

(** PS of the rows. *)
Definition PS2 (l1 l2 du dv : nat) (c : nat) (u v : R) : R :=
  PS kv q l2 dv (fun j => PS ku p l1 du (fun i => pole P c (i + n * j)) u) v.

Lemma idx_in i j : (i < n)%nat -> (j < m)%nat -> (i + n * j < length P)%nat.
Proof. intros Hi Hj. destruct Hok as (_ & _ & HP). rewrite HP. nia. Qed.

Lemma PS2_win l1 l2 du dv c u v : (p <= l1)%nat -> (q <= l2)%nat -> (du <= p)%nat -> (dv <= q)%nat ->
  PS2 l1 l2 du dv c u v = sumn (q + 1) (fun rj => sumn (p + 1) (fun ri =>
     BW ku p l1 du u (l1 - p + ri) * BW kv q l2 dv v (l2 - q + rj) *
     pole P c (l1 - p + ri + n * (l2 - q + rj)))).
Proof.
  intros. unfold PS2. rewrite PS_win by auto. apply sumn_ext; intros rj Hrj.
  rewrite PS_win by auto. rewrite <- sumn_scal. apply sumn_ext; intros ri Hri. ring.
Qed.

Lemma surf_eval_span u v du dv l1 l2 :
  (p <= l1 < n)%nat -> span_at ku n u l1 -> (q <= l2 < m)%nat -> span_at kv m v l2 ->
  (du <= p)%nat -> (dv <= q)%nat ->
  exists z, surf_eval u v ku kv P p q du dv = Ok z /\ forall c, z c = PS2 l1 l2 du dv c u v.
Proof.
  intros Hl1 Hs1 Hl2 Hs2 Hdu Hdv. pose proof Hok as (Hku & Hkv & HP).
  pose proof Hku as (HlenU & Hpn & HndU & HlastU). pose proof Hkv as (HlenV & Hqm & HndV & HlastV).
  pose proof (span_strict n p u ku l1 Hku Hl1 Hs1) as HstU.
  pose proof (span_strict m q v kv l2 Hkv Hl2 Hs2) as HstV.
  unfold surf_eval. destruct (Nat.ltb_spec p du); [lia|]. destruct (Nat.ltb_spec q dv); [lia|]. cbn [orb].
  rewrite (npoles_ok ku n p HlenU), (npoles_ok kv m q HlenV). cbn [bind].
  rewrite (span_at_find eps n p u ku l1 HndU HlenU Hpn Hl1 Hs1),
    (span_at_find eps m q v kv l2 HndV HlenV Hqm Hl2 Hs2). cbn [bind].
  destruct (Nat.leb_spec p l1); [|lia]. destruct (Nat.leb_spec q l2); [|lia].
  assert (Hin : forall ri rj, (ri <= p)%nat -> (rj <= q)%nat -> (l1 - p + ri + n * (l2 - q + rj) < length P)%nat).
  { intros. apply idx_in; lia. }
  destruct ((p <=? stack_max) && (q <=? stack_max)) eqn:Est.
  - apply andb_true_iff in Est. rewrite !Nat.leb_le in Est. destruct Est as [Hst1 Hst2].
    rewrite (basis_ders_ok eps ku l1 p u HndU ltac:(lia) ltac:(lia) HstU Hst1 du Hdu). cbn [bind].
    rewrite (basis_ders_ok eps kv l2 q v HndV ltac:(lia) ltac:(lia) HstV Hst2 dv Hdv). cbn [bind].
    destruct (for_inv (fun rj (acc : pt R) => forall c, acc c = sumn rj (fun rj => sumn (p + 1) (fun ri =>
       BW ku p l1 du u (l1 - p + ri) * BW kv q l2 dv v (l2 - q + rj) *
       pole P c (l1 - p + ri + n * (l2 - q + rj)))))
     (fun rj acc => let* nv := get (map (NSd kv l2 q v dv) (seq 0 (q + 1))) rj in
      for_ 0 (p + 1) (fun ri acc =>
        let* nu := get (map (NSd ku l1 p u du) (seq 0 (p + 1))) ri in
        let* po := get P (l1 - p + ri + n * (l2 - q + rj)) in
        Ok (padd acc (pscal (nmul nu nv) po))) acc) 0 (q + 1) pzero) as (z & E & V).
    + intros c; reflexivity.
    + intros rj acc Hrj HA. rewrite get_map_seq by lia. cbn [bind].
      destruct (for_inv (fun ri (acc' : pt R) => forall c, acc' c = acc c + sumn ri (fun ri =>
         BW ku p l1 du u (l1 - p + ri) * BW kv q l2 dv v (l2 - q + rj) *
         pole P c (l1 - p + ri + n * (l2 - q + rj))))
       (fun ri acc =>
        let* nu := get (map (NSd ku l1 p u du) (seq 0 (p + 1))) ri in
        let* po := get P (l1 - p + ri + n * (l2 - q + rj)) in
        Ok (padd acc (pscal (nmul nu (NSd kv l2 q v dv rj)) po))) 0 (p + 1) acc) as (acc' & E & V).
      * intros c. cbn [sumn]. ring.
      * intros ri a Hri Ha. rewrite get_map_seq by lia. cbn [bind]. rewrite get_pole by (apply Hin; lia). cbn [bind].
        eexists; split; [reflexivity|]. intros c. unfold padd, pscal. nsimp. rewrite Ha. cbn [sumn].
        unfold pole, BW, NSd. ring.
      * exists acc'. split; [exact E|]. intros c. rewrite V, HA. cbn [sumn]. reflexivity.
    + exists z. split; [exact E|]. intros c. rewrite V, PS2_win by lia. reflexivity.
  - destruct Hev as [[G1 G2]|(HclU & HsepU & HclV & HsepV & Heps)].
    { apply Nat.leb_le in G1, G2. unfold stack_max in Est. rewrite G1, G2 in Est. discriminate. }
    replace (l1 + 1 - (l1 - p))%nat with (p + 1)%nat by lia.
    replace (l2 + 1 - (l2 - q))%nat with (q + 1)%nat by lia.
    destruct (for_inv (fun jj (acc : pt R) => forall c, acc c = sumn (jj - (l2 - q)) (fun rj => sumn (p + 1) (fun ri =>
       BW ku p l1 du u (l1 - p + ri) * BW kv q l2 dv v (l2 - q + rj) *
       pole P c (l1 - p + ri + n * (l2 - q + rj)))))
     (fun jj acc => let* nv := basis_function v jj q dv kv in
      for_ (l1 - p) (p + 1) (fun ii acc =>
        let* nu := basis_function u ii p du ku in
        let* po := get P (ii + n * jj) in
        Ok (padd acc (pscal (nmul nu nv) po))) acc) (l2 - q) (q + 1) pzero) as (z & E & V).
    + intros c. rewrite Nat.sub_diag. reflexivity.
    + intros jj acc Hrj HA. unfold basis_function at 1.
      rewrite (basis_der_ok eps kv m q l2 v Hkv HclV HsepV Heps Hl2 Hs2 q dv jj) by lia. cbn [bind].
      destruct (for_inv (fun ii (acc' : pt R) => forall c, acc' c = acc c + sumn (ii - (l1 - p)) (fun ri =>
         BW ku p l1 du u (l1 - p + ri) * BW kv q l2 dv v jj *
         pole P c (l1 - p + ri + n * jj)))
       (fun ii acc =>
        let* nu := basis_function u ii p du ku in
        let* po := get P (ii + n * jj) in
        Ok (padd acc (pscal (nmul nu (BW kv q l2 dv v jj)) po))) (l1 - p) (p + 1) acc) as (acc' & E & V).
      * intros c. rewrite Nat.sub_diag. cbn [sumn]. ring.
      * intros ii a Hri Ha. unfold basis_function.
        rewrite (basis_der_ok eps ku n p l1 u Hku HclU HsepU Heps Hl1 Hs1 p du ii) by lia. cbn [bind].
        rewrite get_pole by (apply idx_in; lia). cbn [bind].
        eexists; split; [reflexivity|]. intros c. unfold padd, pscal. nsimp. rewrite Ha.
        replace (S ii - (l1 - p))%nat with (S (ii - (l1 - p))) by lia. cbn [sumn].
        replace (l1 - p + (ii - (l1 - p)))%nat with ii by lia. unfold pole, BW. ring.
      * exists acc'. split; [exact E|]. intros c. rewrite V, HA.
        replace (S jj - (l2 - q))%nat with (S (jj - (l2 - q))) by lia. cbn [sumn].
        replace (l2 - q + (jj - (l2 - q)))%nat with jj by lia. f_equal. f_equal. lia.
    + exists z. split; [exact E|]. intros c. rewrite V, PS2_win by lia. f_equal. lia.
Qed.

Definition SVal (u v : R) (du dv c : nat) : R := val (surf_eval u v ku kv P p q du dv) c.

Lemma surf_val_span u v du dv l1 l2 c :
  (p <= l1 < n)%nat -> span_at ku n u l1 -> (q <= l2 < m)%nat -> span_at kv m v l2 ->
  SVal u v du dv c = if ((du <=? p) && (dv <=? q))%nat then PS2 l1 l2 du dv c u v else 0.
Proof.
  intros Hl1 Hs1 Hl2 Hs2. unfold SVal.
  destruct (Nat.leb_spec du p), (Nat.leb_spec dv q); cbn [andb].
  - destruct (surf_eval_span u v du dv l1 l2) as (z & E & V); auto. rewrite E. apply V.
  - unfold surf_eval. destruct (Nat.ltb_spec p du), (Nat.ltb_spec q dv); try lia; reflexivity.
  - unfold surf_eval. destruct (Nat.ltb_spec p du), (Nat.ltb_spec q dv); try lia; reflexivity.
  - unfold surf_eval. destruct (Nat.ltb_spec p du), (Nat.ltb_spec q dv); try lia; reflexivity.
Qed.

Lemma surf_total u v du dv : in_rect ku n p kv m q u v -> exists z, surf_eval u v ku kv P p q du dv = Ok z.
Proof.
  intros [Hu Hv]. pose proof Hok as (Hku & Hkv & HP).
  destruct (span_pack eps ku n p u Hku Hu) as (l1 & _ & Hl1 & Hs1 & _).
  destruct (span_pack eps kv m q v Hkv Hv) as (l2 & _ & Hl2 & Hs2 & _).
  destruct (Nat.leb_spec du p), (Nat.leb_spec dv q).
  - destruct (surf_eval_span u v du dv l1 l2) as (z & E & V); eauto.
  - exists pzero. unfold surf_eval. destruct (Nat.ltb_spec p du), (Nat.ltb_spec q dv); try lia; reflexivity.
  - exists pzero. unfold surf_eval. destruct (Nat.ltb_spec p du), (Nat.ltb_spec q dv); try lia; reflexivity.
  - exists pzero. unfold surf_eval. destruct (Nat.ltb_spec p du), (Nat.ltb_spec q dv); try lia; reflexivity.
Qed.

Lemma row_length j : length (row P n j) = n.
Proof. unfold row. rewrite map_length, seq_length. reflexivity. Qed.
Lemma col_length i : length (col P n m i) = m.
Proof. unfold col. rewrite map_length, seq_length. reflexivity. Qed.
Lemma nth_map_seq {A} (f : nat -> A) len i d : (i < len)%nat -> nth i (map f (seq 0 len)) d = f i.
Proof.
  intros H. rewrite (nth_indep _ d (f 0%nat)) by (rewrite map_length, seq_length; exact H).
  rewrite (map_nth f), seq_nth by exact H. reflexivity.
Qed.
Lemma pole_row c j i : (i < n)%nat -> pole (row P n j) c i = pole P c (i + n * j).
Proof. intros H. unfold pole, row. rewrite nth_map_seq by exact H. reflexivity. Qed.
Lemma pole_col c j i : (j < m)%nat -> pole (col P n m i) c j = pole P c (i + n * j).
Proof. intros H. unfold pole, col. rewrite nth_map_seq by exact H. reflexivity. Qed.

(** Value from the rows, and from the columns. *)
Lemma surf_rows u v du dv c l2 : kn ku p <= u <= kn ku n ->
  (q <= l2 < m)%nat -> span_at kv m v l2 ->
  SVal u v du dv c = if (dv <=? q)%nat then
    PS kv q l2 dv (fun j => val (eval_value u ku (row P n j) p du) c) v else 0.
Proof.
  intros Hu Hl2 Hs2. pose proof Hok as (Hku & Hkv & HP).
  destruct (span_pack eps ku n p u Hku Hu) as (l1 & _ & Hl1 & Hs1 & _).
  rewrite (surf_val_span u v du dv l1 l2) by auto.
  destruct (Nat.leb_spec dv q); [|rewrite andb_false_r; reflexivity]. rewrite andb_true_r.
  destruct (Nat.leb_spec du p) as [Hdu|Hdu].
  - unfold PS2. apply PS_ext. intros j Hj.
    rewrite (eval_val_span eps ku n p (row P n j) u du l1 c Hku (row_length j) (ev2_1 _ _ _ _ _ _ Hev) Hl1 Hs1).
    apply Nat.leb_le in Hdu. rewrite Hdu. apply PS_ext. intros i Hi. rewrite pole_row by lia. reflexivity.
  - symmetry. unfold PS. apply sumn_zero. intros i Hi. rewrite eval_value_high by lia. cbn [val]. unfold pzero. nsimp. ring.
Qed.

Lemma PS2_swap l1 l2 du dv c u v : PS2 l1 l2 du dv c u v =
  PS ku p l1 du (fun i => PS kv q l2 dv (fun j => pole P c (i + n * j)) v) u.
Proof.
  unfold PS2, PS.
  transitivity (sumn (S l2) (fun j => sumn (S l1) (fun i =>
    ffall q dv * NH (kn kv) l2 (repeat (1, 0) dv ++ repeat (v, 1) (q - dv)) j *
    (ffall p du * NH (kn ku) l1 (repeat (1, 0) du ++ repeat (u, 1) (p - du)) i * pole P c (i + n * j))))).
  { apply sumn_ext; intros j Hj. rewrite <- sumn_scal. reflexivity. }
  rewrite sumn_swap. apply sumn_ext; intros i Hi. rewrite <- sumn_scal. apply sumn_ext; intros j Hj. ring.
Qed.

Lemma surf_cols u v du dv c l1 : kn kv q <= v <= kn kv m ->
  (p <= l1 < n)%nat -> span_at ku n u l1 ->
  SVal u v du dv c = if (du <=? p)%nat then
    PS ku p l1 du (fun i => val (eval_value v kv (col P n m i) q dv) c) u else 0.
Proof.
  intros Hv Hl1 Hs1. pose proof Hok as (Hku & Hkv & HP).
  destruct (span_pack eps kv m q v Hkv Hv) as (l2 & _ & Hl2 & Hs2 & _).
  rewrite (surf_val_span u v du dv l1 l2) by auto.
  destruct (Nat.leb_spec du p); [|reflexivity]. cbn [andb].
  destruct (Nat.leb_spec dv q) as [Hdv|Hdv].
  - rewrite PS2_swap. apply PS_ext. intros i Hi.
    rewrite (eval_val_span eps kv m q (col P n m i) v dv l2 c Hkv (col_length i) (ev2_2 _ _ _ _ _ _ Hev) Hl2 Hs2).
    apply Nat.leb_le in Hdv. rewrite Hdv. apply PS_ext. intros j Hj. rewrite pole_col by lia. reflexivity.
  - symmetry. unfold PS. apply sumn_zero. intros i Hi. rewrite eval_value_high by lia. cbn [val]. unfold pzero. nsimp. ring.
Qed.

(** The same through eval_value on the curve of row (column) values. *)
Lemma surf_rows_eval u v du dv : in_rect ku n p kv m q u v ->
  exists z R z', surf_eval u v ku kv P p q du dv = Ok z /\
    mapM (fun j => eval_value u ku (row P n j) p du) (seq 0 m) = Ok R /\
    eval_value v kv R q dv = Ok z' /\ forall c, z' c = z c.
Proof.
  intros [Hu Hv]. pose proof Hok as (Hku & Hkv & HP).
  destruct (surf_total u v du dv (conj Hu Hv)) as (z & E).
  destruct (span_pack eps kv m q v Hkv Hv) as (l2 & _ & Hl2 & Hs2 & _).
  set (f := fun j => match eval_value u ku (row P n j) p du with Ok z => z | _ => pzero end).
  assert (Hf : forall j, eval_value u ku (row P n j) p du = Ok (f j)).
  { intros j. destruct (eval_value_total eps ku n p (row P n j) u du Hku (row_length j) (ev2_1 _ _ _ _ _ _ Hev) Hu) as (z0 & E0).
    unfold f. rewrite E0. reflexivity. }
  exists z, (map f (seq 0 m)).
  assert (L : length (map f (seq 0 m)) = m) by (rewrite map_length, seq_length; reflexivity).
  destruct (eval_value_total eps kv m q (map f (seq 0 m)) v dv Hkv L (ev2_2 _ _ _ _ _ _ Hev) Hv) as (z' & E').
  exists z'. split; [exact E|]. split; [apply mapM_ok; intros; apply Hf|]. split; [exact E'|].
  intros c. pose proof (surf_rows u v du dv c l2 Hu Hl2 Hs2) as X. unfold SVal in X. rewrite E in X. cbn [val] in X.
  rewrite X. pose proof (eval_val_span eps kv m q (map f (seq 0 m)) v dv l2 c Hkv L (ev2_2 _ _ _ _ _ _ Hev) Hl2 Hs2) as Y.
  rewrite E' in Y. cbn [val] in Y. rewrite Y. destruct (dv <=? q)%nat; [|reflexivity].
  apply PS_ext. intros j Hj. unfold pole. rewrite nth_map_seq by lia. rewrite Hf. reflexivity.
Qed.

Lemma surf_cols_eval u v du dv : in_rect ku n p kv m q u v ->
  exists z R z', surf_eval u v ku kv P p q du dv = Ok z /\
    mapM (fun i => eval_value v kv (col P n m i) q dv) (seq 0 n) = Ok R /\
    eval_value u ku R p du = Ok z' /\ forall c, z' c = z c.
Proof.
  intros [Hu Hv]. pose proof Hok as (Hku & Hkv & HP).
  destruct (surf_total u v du dv (conj Hu Hv)) as (z & E).
  destruct (span_pack eps ku n p u Hku Hu) as (l1 & _ & Hl1 & Hs1 & _).
  set (f := fun i => match eval_value v kv (col P n m i) q dv with Ok z => z | _ => pzero end).
  assert (Hf : forall i, eval_value v kv (col P n m i) q dv = Ok (f i)).
  { intros j. destruct (eval_value_total eps kv m q (col P n m j) v dv Hkv (col_length j) (ev2_2 _ _ _ _ _ _ Hev) Hv) as (z0 & E0).
    unfold f. rewrite E0. reflexivity. }
  exists z, (map f (seq 0 n)).
  assert (L : length (map f (seq 0 n)) = n) by (rewrite map_length, seq_length; reflexivity).
  destruct (eval_value_total eps ku n p (map f (seq 0 n)) u du Hku L (ev2_1 _ _ _ _ _ _ Hev) Hu) as (z' & E').
  exists z'. split; [exact E|]. split; [apply mapM_ok; intros; apply Hf|]. split; [exact E'|].
  intros c. pose proof (surf_cols u v du dv c l1 Hv Hl1 Hs1) as X. unfold SVal in X. rewrite E in X. cbn [val] in X.
  rewrite X. pose proof (eval_val_span eps ku n p (map f (seq 0 n)) u du l1 c Hku L (ev2_1 _ _ _ _ _ _ Hev) Hl1 Hs1) as Y.
  rewrite E' in Y. cbn [val] in Y. rewrite Y. destruct (du <=? p)%nat; [|reflexivity].
  apply PS_ext. intros j Hj. unfold pole. rewrite nth_map_seq by lia. rewrite Hf. reflexivity.
Qed.

Lemma surf_tensor u v : in_rect ku n p kv m q u v ->
  exists z, surf_eval u v ku kv P p q 0 0 = Ok z /\ forall c, z c = tensor ku n p kv m q P c u v.
Proof.
  intros [Hu Hv]. pose proof Hok as (Hku & Hkv & HP).
  destruct (surf_total u v 0 0 (conj Hu Hv)) as (z & E). exists z. split; [exact E|]. intros c.
  destruct (span_pack eps ku n p u Hku Hu) as (l1 & _ & Hl1 & Hs1 & _).
  destruct (span_pack eps kv m q v Hkv Hv) as (l2 & _ & Hl2 & Hs2 & _).
  pose proof (surf_val_span u v 0 0 l1 l2 c Hl1 Hs1 Hl2 Hs2) as X. unfold SVal in X. rewrite E in X.
  cbn [val Nat.leb andb] in X. rewrite X. unfold PS2. rewrite (PS_spline kv m q _ v l2 Hkv Hl2 Hs2).
  unfold spline, tensor. apply sumn_ext; intros j Hj.
  rewrite (PS_spline ku n p _ u l1 Hku Hl1 Hs1). unfold spline. rewrite <- sumn_scal.
  apply sumn_ext; intros i Hi. unfold pole, polec. ring.
Qed.

End Data.
End AtR.
