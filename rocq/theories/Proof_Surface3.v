(** Partial derivatives of surfaces, rational surfaces. *)
From Coq Require Import List Arith ZArith Reals Lia Lra Bool.
From Verif Require Import Model_Base Model_Basis Model_Rational Model_Surface Spec_Base Spec_Basis Spec_Eval Spec_Rational
  Spec_Surface Proof_Base Proof_Blossom Proof_Basis Proof_Ders Proof_Eval Proof_PropBasis Proof_Rational Proof_Quotient
  Proof_Surface Proof_Surface2.
Import ListNotations.
Local Open Scope R_scope.

Section AtR.
Variable eps : R.
Local Hint Extern 0 (Num R) => exact (NumR eps) : typeclass_instances.

Section Data.
Variables (ku kv : list R) (n m p q : nat) (P : list (pt R)).
Hypothesis Hok : grid_ok ku n p kv m q P.
Hypothesis Hev : evaluable2 eps ku n p kv m q.
Notation SV := (SVal eps ku kv p q P).

(** Derivation in u of a surface is derivation of the curve of column values. *)
Lemma surf_as_u v dv : kn kv q <= v <= kn kv m -> exists R, length R = n /\
  forall x du c, kn ku p <= x <= kn ku n -> SV x v du dv c = val (eval_value x ku R p du) c.
Proof.
  intros Hv. pose proof Hok as (Hku & Hkv & HP).
  set (f := fun i => match eval_value v kv (col P n m i) q dv with Ok z => z | _ => pzero end).
  exists (map f (seq 0 n)). split; [rewrite map_length, seq_length; reflexivity|].
  intros x du c Hx. destruct (surf_cols_eval eps ku kv n m p q P Hok Hev x v du dv (conj Hx Hv)) as (z & R & z' & E & ER & E' & V).
  unfold SVal. rewrite E. cbn [val]. rewrite <- V.
  replace R with (map f (seq 0 n)) in E'; [rewrite E'; reflexivity|].
  assert (X : mapM (fun i => eval_value v kv (col P n m i) q dv) (seq 0 n) = Ok (map f (seq 0 n))).
  { apply mapM_ok. intros i Hi.
    destruct (eval_value_total eps kv m q (col P n m i) v dv Hkv (col_length n m P i) (ev2_2 _ _ _ _ _ _ _ Hev) Hv) as (z0 & E0).
    unfold f. rewrite E0. reflexivity. }
  rewrite ER in X. injection X as <-. reflexivity.
Qed.
Lemma surf_as_v u du : kn ku p <= u <= kn ku n -> exists R, length R = m /\
  forall y dv c, kn kv q <= y <= kn kv m -> SV u y du dv c = val (eval_value y kv R q dv) c.
Proof.
  intros Hu. pose proof Hok as (Hku & Hkv & HP).
  set (f := fun j => match eval_value u ku (row P n j) p du with Ok z => z | _ => pzero end).
  exists (map f (seq 0 m)). split; [rewrite map_length, seq_length; reflexivity|].
  intros y dv c Hy. destruct (surf_rows_eval eps ku kv n m p q P Hok Hev u y du dv (conj Hu Hy)) as (z & R & z' & E & ER & E' & V).
  unfold SVal. rewrite E. cbn [val]. rewrite <- V.
  replace R with (map f (seq 0 m)) in E'; [rewrite E'; reflexivity|].
  assert (X : mapM (fun j => eval_value u ku (row P n j) p du) (seq 0 m) = Ok (map f (seq 0 m))).
  { apply mapM_ok. intros j Hj.
    destruct (eval_value_total eps ku n p (row P n j) u du Hku (row_length n P j) (ev2_1 _ _ _ _ _ _ _ Hev) Hu) as (z0 & E0).
    unfold f. rewrite E0. reflexivity. }
  rewrite ER in X. injection X as <-. reflexivity.
Qed.


Lemma side_dom k n0 p0 D x : knots_ok k n0 p0 -> side k n0 p0 D x ->
  kn k p0 <= x <= kn k n0 /\ forall y, D y -> kn k p0 <= y <= kn k n0.
Proof.
  intros (Hlen & Hpn & Hnd & Hlast) [(l & Hl & Hx & ->)|[(Hx & ->)|(-> & ->)]].
  - pose proof (Hnd p0 l ltac:(lia) ltac:(lia)). pose proof (Hnd (S l) n0 ltac:(lia) ltac:(lia)). split; intros; lra.
  - split; intros; lra.
  - pose proof (Hnd p0 (n0 - 1)%nat ltac:(lia) ltac:(lia)). split; intros; lra.
Qed.

Lemma curve_side k n0 p0 (R0 : list (pt R)) D x d c : knots_ok k n0 p0 -> length R0 = n0 -> evaluable eps k n0 p0 ->
  side k n0 p0 D x ->
  D_in (fun y => val (eval_value y k R0 p0 d) c) (fun y => val (eval_value y k R0 p0 (S d)) c) D x.
Proof.
  intros Hk HR He Hs. pose proof Hk as (Hlen & Hpn & Hnd & Hlast).
  destruct Hs as [(l & Hl & Hx & ->)|[(Hx & ->)|(-> & ->)]].
  - apply D_in_both; [exact Hx|]. apply (eval_deriv_inside eps k n0 p0 R0 d c l x); auto.
  - apply D_in_right; [lra|]. apply (eval_deriv_right eps k n0 p0 R0 d c x); auto.
  - pose proof (Hnd p0 (n0 - 1)%nat ltac:(lia) ltac:(lia)).
    apply D_in_left; [lra|]. apply (eval_deriv_left_end eps k n0 p0 R0 d c); auto.
Qed.

Lemma surf_D_u D u v du dv c : side ku n p D u -> kn kv q <= v <= kn kv m ->
  D_in (fun x => SV x v du dv c) (fun x => SV x v (S du) dv c) D u.
Proof.
  intros Hs Hv. pose proof Hok as (Hku & Hkv & HP). destruct (side_dom _ _ _ _ _ Hku Hs) as (Hu & HD).
  destruct (surf_as_u v dv Hv) as (R0 & L & V).
  eapply D_in_ext; [| | |apply (curve_side ku n p R0 D u du c Hku L (ev2_1 _ _ _ _ _ _ _ Hev) Hs)].
  - intros y Hy. cbv beta. symmetry. apply V, HD, Hy.
  - cbv beta. symmetry. apply V, Hu.
  - cbv beta. symmetry. apply V, Hu.
Qed.
Lemma surf_D_v D u v du dv c : side kv m q D v -> kn ku p <= u <= kn ku n ->
  D_in (fun y => SV u y du dv c) (fun y => SV u y du (S dv) c) D v.
Proof.
  intros Hs Hu. pose proof Hok as (Hku & Hkv & HP). destruct (side_dom _ _ _ _ _ Hkv Hs) as (Hv & HD).
  destruct (surf_as_v u du Hu) as (R0 & L & V).
  eapply D_in_ext; [| | |apply (curve_side kv m q R0 D v dv c Hkv L (ev2_2 _ _ _ _ _ _ _ Hev) Hs)].
  - intros y Hy. cbv beta. symmetry. apply V, HD, Hy.
  - cbv beta. symmetry. apply V, Hv.
  - cbv beta. symmetry. apply V, Hv.
Qed.

(** ** The table of derivatives *)
Lemma surf_ders_spec u v nu nv : in_rect ku n p kv m q u v ->
  exists SKL, surf_ders u v ku kv P p q nu nv = Ok SKL /\ length SKL = ((nu + 1) * (nv + 1))%nat /\
    forall a b c, (a <= nu)%nat -> (b <= nv)%nat -> cell nv SKL a b c = SV u v a b c.
Proof.
  intros [Hu Hv]. pose proof Hok as (Hku & Hkv & HP).
  destruct (span_pack eps ku n p u Hku Hu) as (l1 & Ef1 & Hl1 & Hs1 & HstU).
  destruct (span_pack eps kv m q v Hkv Hv) as (l2 & Ef2 & Hl2 & Hs2 & HstV).
  pose proof Hku as (HlenU & Hpn & HndU & HlastU). pose proof Hkv as (HlenV & Hqm & HndV & HlastV).
  unfold surf_ders. rewrite (npoles_ok ku n p HlenU), (npoles_ok kv m q HlenV). cbn [bind].
  rewrite Ef1, Ef2. cbn [bind].
  destruct (Nat.leb_spec p l1); [|lia]. destruct (Nat.leb_spec q l2); [|lia].
  set (S0 := filled ((nu + 1) * (nv + 1)) (pzero : pt R)).
  assert (L0 : length S0 = ((nu + 1) * (nv + 1))%nat) by apply filled_length.
  assert (C0 : forall a b, cell nv S0 a b = (fun _ => 0)).
  { intros a b. unfold cell, S0, filled. destruct (Nat.lt_ge_cases (a * (nv + 1) + b) ((nu + 1) * (nv + 1))).
    - rewrite (nth_indep _ _ (pzero : pt R)) by (rewrite repeat_length; assumption). apply nth_repeat.
    - apply nth_overflow. rewrite repeat_length. assumption. }
  assert (Main : forall body,
    (forall a b S, (a <= Nat.min nu p)%nat -> (b <= Nat.min nv q)%nat -> length S = ((nu + 1) * (nv + 1))%nat ->
       cell nv S a b = (fun _ => 0) ->
       exists z, body a b S = Ok (upd S (a * (nv + 1) + b) z) /\ forall c, z c = PS2 ku kv n p q P l1 l2 a b c u v) ->
    exists SKL, for_ 0 (Nat.min nu p + 1) (fun a S => for_ 0 (Nat.min nv q + 1) (body a) S) S0 = Ok SKL /\
      length SKL = ((nu + 1) * (nv + 1))%nat /\
      forall a b c, (a <= nu)%nat -> (b <= nv)%nat -> cell nv SKL a b c = SV u v a b c).
  { intros body Hb.
    destruct (table_loop (fun a b z => forall c, z c = PS2 ku kv n p q P l1 l2 a b c u v) nu nv (Nat.min nu p + 1) (Nat.min nv q + 1)
      body S0 ltac:(lia) ltac:(lia) L0) as (SKL & E & L & V1 & V2).
    - intros a b S Ha Hbb LS _ HC. apply Hb; auto; try lia. rewrite HC. apply C0.
    - exists SKL. split; [exact E|]. split; [exact L|]. intros a b c Ha Hbb.
      rewrite (surf_val_span eps ku kv n m p q P Hok Hev u v a b l1 l2 c) by auto.
      destruct (Nat.leb_spec a p), (Nat.leb_spec b q); cbn [andb].
      + apply V1; lia.
      + rewrite V2 by lia. rewrite C0. reflexivity.
      + rewrite V2 by lia. rewrite C0. reflexivity.
      + rewrite V2 by lia. rewrite C0. reflexivity. }
  assert (Hget : forall a b S, (a <= nu)%nat -> (b <= nv)%nat -> length S = ((nu + 1) * (nv + 1))%nat ->
     get S (a * (nv + 1) + b) = Ok (cell nv S a b)).
  { intros a b S Ha Hb LS. apply get_nth. rewrite LS. nia. }
  destruct ((p <=? stack_max) && (q <=? stack_max)) eqn:Est.
  - apply andb_true_iff in Est. rewrite !Nat.leb_le in Est. destruct Est as [Hst1 Hst2].
    destruct (ders_basis_funs_st_ok eps ku l1 p u HndU ltac:(lia) ltac:(lia) HstU Hst1 (Nat.min nu p) ltac:(lia))
      as (dU & EU & _ & VU). rewrite EU. cbn [bind].
    destruct (ders_basis_funs_st_ok eps kv l2 q v HndV ltac:(lia) ltac:(lia) HstV Hst2 (Nat.min nv q) ltac:(lia))
      as (dV & EV & _ & VV). rewrite EV. cbn [bind].
    apply Main. intros a b S Ha Hb LS HC.
    set (idx := (a * (nv + 1) + b)%nat).
    destruct (cell_acc idx (fun rj SKL =>
          let* nvw := geti dV (b * (q + 1) + rj) in
          for_ 0 (p + 1) (fun ri SKL =>
            let* nuw := geti dU (a * (p + 1) + ri) in
            let* pole := get P (l1 - p + ri + n * (l2 - q + rj)) in
            let* c := get SKL idx in
            set SKL idx (padd c (pscal (nmul nuw nvw) pole))) SKL)
      (fun c rj => sumn (p + 1) (fun ri =>
         BW ku p l1 a u (l1 - p + ri) * BW kv q l2 b v (l2 - q + rj) * pole P c (l1 - p + ri + n * (l2 - q + rj))))
      0 (q + 1) S (cell nv S a b) (Hget a b S ltac:(lia) ltac:(lia) LS)) as (z & E & V).
    + intros rj S1 c1 Hrj Hc1. cbn [Nat.add]. rewrite VV by lia. cbn [bind].
      apply (cell_acc idx (fun ri SKL =>
            let* nuw := geti dU (a * (p + 1) + ri) in
            let* pole := get P (l1 - p + ri + n * (l2 - q + rj)) in
            let* c := get SKL idx in
            set SKL idx (padd c (pscal (nmul nuw (NSd kv l2 q v b rj)) pole)))
        (fun c ri => BW ku p l1 a u (l1 - p + ri) * BW kv q l2 b v (l2 - q + rj) * pole P c (l1 - p + ri + n * (l2 - q + rj)))
        0 (p + 1) S1 c1 Hc1).
      intros ri S2 c2 Hri Hc2. cbn [Nat.add]. rewrite VU by lia. cbn [bind].
      rewrite get_pole by (rewrite HP; nia). cbn [bind]. rewrite Hc2. cbn [bind].
      rewrite set_ok by (apply (get_lt _ _ _ Hc2)). eexists; split; [reflexivity|].
      intros c. unfold padd, pscal, pole, BW, NSd. nsimp. ring.
    + exists z. split; [exact E|]. intros c. rewrite V, HC, PS2_win by lia. ring.
  - destruct Hev as [[G1 G2]|(HclU & HsepU & HclV & HsepV & Heps)].
    { apply Nat.leb_le in G1, G2. unfold stack_max in Est. rewrite G1, G2 in Est. discriminate. }
    replace (l1 + 1 - (l1 - p))%nat with (p + 1)%nat by lia.
    replace (l2 + 1 - (l2 - q))%nat with (q + 1)%nat by lia.
    apply Main. intros a b S Ha Hb LS HC.
    set (idx := (a * (nv + 1) + b)%nat).
    destruct (cell_acc idx (fun jj SKL =>
          let* Nvv := basis_function v jj q b kv in
          for_ (l1 - p) (p + 1) (fun ii SKL =>
            let* Nuu := basis_function u ii p a ku in
            let* pole := get P (ii + n * jj) in
            let* c := get SKL idx in
            set SKL idx (padd c (pscal (nmul Nuu Nvv) pole))) SKL)
      (fun c rj => sumn (p + 1) (fun ri =>
         BW ku p l1 a u (l1 - p + ri) * BW kv q l2 b v (l2 - q + rj) * pole P c (l1 - p + ri + n * (l2 - q + rj))))
      (l2 - q)%nat (q + 1) S (cell nv S a b) (Hget a b S ltac:(lia) ltac:(lia) LS)) as (z & E & V).
    + intros rj S1 c1 Hrj Hc1. unfold basis_function at 1.
      rewrite (basis_der_ok eps kv m q l2 v Hkv HclV HsepV Heps Hl2 Hs2 q b (l2 - q + rj)) by lia. cbn [bind].
      apply (cell_acc idx (fun ii SKL =>
            let* Nuu := basis_function u ii p a ku in
            let* pole := get P (ii + n * (l2 - q + rj)) in
            let* c := get SKL idx in
            set SKL idx (padd c (pscal (nmul Nuu (BW kv q l2 b v (l2 - q + rj))) pole)))
        (fun c ri => BW ku p l1 a u (l1 - p + ri) * BW kv q l2 b v (l2 - q + rj) * pole P c (l1 - p + ri + n * (l2 - q + rj)))
        (l1 - p)%nat (p + 1) S1 c1 Hc1).
      intros ri S2 c2 Hri Hc2. unfold basis_function.
      rewrite (basis_der_ok eps ku n p l1 u Hku HclU HsepU Heps Hl1 Hs1 p a (l1 - p + ri)) by lia. cbn [bind].
      rewrite get_pole by (rewrite HP; nia). cbn [bind]. rewrite Hc2. cbn [bind].
      rewrite set_ok by (apply (get_lt _ _ _ Hc2)). eexists; split; [reflexivity|].
      intros c. unfold padd, pscal, pole, BW. nsimp. ring.
    + exists z. split; [exact E|]. intros c. rewrite V, HC, PS2_win by lia. ring.
Qed.

(** ** Rational surfaces: [dim] is the index of the weight *)
Variable dim : nat.

Lemma surf_rational_spec u v nu nv : in_rect ku n p kv m q u v -> SV u v 0 0 dim <> 0 -> (nu <= 20)%nat -> (nv <= 20)%nat ->
  exists SKL, surf_rational_ders dim u v ku kv P p q nu nv = Ok SKL /\ length SKL = ((nu + 1) * (nv + 1))%nat /\
    forall a b c, (a <= nu)%nat -> (b <= nv)%nat -> (c < dim)%nat ->
      cell nv SKL a b c = rq2 (fun i j => SV u v i j c) (fun i j => SV u v i j dim) a b.
Proof.
  intros Hin Hw Hnu Hnv. unfold surf_rational_ders.
  destruct (surf_ders_spec u v nu nv Hin) as (A & EA & LA & VA). rewrite EA. cbn [bind].
  assert (Hget : forall a b S, (a <= nu)%nat -> (b <= nv)%nat -> length S = ((nu + 1) * (nv + 1))%nat ->
     get S (a * (nv + 1) + b) = Ok (cell nv S a b)).
  { intros a b S Ha Hb LS. apply get_nth. rewrite LS. nia. }
  pose proof (Hget 0%nat 0%nat A ltac:(lia) ltac:(lia) LA) as G0. cbn [Nat.mul Nat.add] in G0. rewrite G0. cbn [bind].
  destruct (table_loop (fun a b z => forall c, (c < dim)%nat -> z c = rq2 (fun i j => SV u v i j c) (fun i j => SV u v i j dim) a b)
    nu nv (nu + 1) (nv + 1) (fun k l SKL =>
      let* val := get A (k * (nv + 1) + l) in
      let* val := for_ 1 l (fun j val =>
        let* b := binomial_law mul_size l j in
        let* Aj := get A j in
        let* C := get SKL (k * (nv + 1) + (l - j)) in
        Ok (rat_sub val b (weight dim Aj) C)) val in
      let* val := for_ 1 k (fun i val =>
        let* bi := binomial_law mul_size k i in
        let* Ai := get A (i * (nv + 1)) in
        let* C := get SKL ((k - i) * (nv + 1) + l) in
        let val := rat_sub val bi (weight dim Ai) C in
        let* v2 := for_ 1 l (fun j v2 =>
          let* b := binomial_law mul_size l j in
          let* Aij := get A (i * (nv + 1) + j) in
          let* C := get SKL ((k - i) * (nv + 1) + (l - j)) in
          Ok (padd v2 (pscal (nmul b (weight dim Aij)) C))) pzero in
        Ok (psub val (pscal bi v2))) val in
      if neqb (weight dim (cell nv A 0 0)) n0 then Undef DivByZero else
      set SKL (k * (nv + 1) + l) (fun c => ndiv (val c) (weight dim (cell nv A 0 0))))
    (filled ((nu + 1) * (nv + 1)) pzero)) as (SKL & E & L & V & _); try lia.
  { apply filled_length. }
  2:{ exists SKL. split; [exact E|]. split; [exact L|]. intros a b c Ha Hb Hc. apply V; auto; lia. }
  intros k l S Hk Hl LS HS _. rewrite Hget by (auto; lia). cbn [bind].
  set (rr := fun a b c => rq2 (fun i j => SV u v i j c) (fun i j => SV u v i j dim) a b).
  assert (HS' : forall k' l' c, (k' < k \/ k' = k /\ l' < l)%nat -> (l' <= nv)%nat -> (c < dim)%nat -> cell nv S k' l' c = rr k' l' c)
    by (intros; apply HS; lia). clear HS.
  (* first loop *)
  destruct (rat_loop eps (fun j => INR (binom l j)) (fun j => SV u v 0 j dim) (fun _ _ => 0)
     (fun j val => let* b := binomial_law mul_size l j in
        let* Aj := get A j in
        let* C := get S (k * (nv + 1) + (l - j)) in
        Ok (rat_sub val b (weight dim Aj) C)) dim l (cell nv A k l) (fun d c => rr k d c)) as (s1 & E1 & V1).
  { intros j s Hj. rewrite (binomial_size eps) by lia. cbn [bind].
    pose proof (Hget 0%nat j A ltac:(lia) ltac:(lia) LA) as Gj. cbn [Nat.mul Nat.add] in Gj. rewrite Gj. cbn [bind].
    rewrite Hget by (auto; lia). cbn [bind]. exists (cell nv S k (l - j)). split.
    - unfold weight. rewrite VA by lia. reflexivity.
    - intros c Hc. apply HS'; lia. }
  rewrite E1. cbn [bind].
  (* inner v2 *)
  assert (Inner : forall i, (1 <= i <= k)%nat -> exists v2, for_ 1 l (fun j v2 =>
          let* b := binomial_law mul_size l j in
          let* Aij := get A (i * (nv + 1) + j) in
          let* C := get S ((k - i) * (nv + 1) + (l - j)) in
          Ok (padd v2 (pscal (nmul b (weight dim Aij)) C))) pzero = Ok v2 /\
     forall c, (c < dim)%nat -> v2 c = sumn l (fun j => INR (binom l (Datatypes.S j)) * SV u v i (Datatypes.S j) dim * rr (k - i)%nat (l - 1 - j)%nat c)).
  { intros i Hi.
    destruct (for_inv (fun t (v2 : pt R) => forall c, (c < dim)%nat -> v2 c = sumn (t - 1) (fun j =>
         INR (binom l (Datatypes.S j)) * SV u v i (Datatypes.S j) dim * rr (k - i)%nat (l - 1 - j)%nat c))
      (fun j v2 =>
          let* b := binomial_law mul_size l j in
          let* Aij := get A (i * (nv + 1) + j) in
          let* C := get S ((k - i) * (nv + 1) + (l - j)) in
          Ok (padd v2 (pscal (nmul b (weight dim Aij)) C))) 1 l pzero) as (v2 & E2 & V2).
    - intros c Hc. reflexivity.
    - intros j v2 Hj HV. rewrite (binomial_size eps) by lia. cbn [bind].
      rewrite !Hget by (auto; lia). cbn [bind]. eexists; split; [reflexivity|].
      intros c Hc. unfold padd, pscal, weight. nsimp. rewrite HV, HS', VA by lia.
      destruct j as [|j]; [lia|]. replace (Datatypes.S (Datatypes.S j) - 1)%nat with (Datatypes.S j) by lia.
      cbn [sumn]. replace (Datatypes.S j - 1)%nat with j by lia. replace (l - Datatypes.S j)%nat with (l - 1 - j)%nat by lia. ring.
    - exists v2. split; [exact E2|]. intros c Hc. rewrite V2 by exact Hc. replace (1 + l - 1)%nat with l by lia. reflexivity. }
  match goal with |- context [for_ 1 k ?b s1] => set (body := b) end.
  destruct (for_inv (fun t (s : pt R) => forall c, (c < dim)%nat -> s c = s1 c - sumn (t - 1) (fun i =>
      INR (binom k (Datatypes.S i)) * SV u v (Datatypes.S i) 0 dim * rr (k - 1 - i)%nat l c +
      INR (binom k (Datatypes.S i)) * sumn l (fun j => INR (binom l (Datatypes.S j)) * SV u v (Datatypes.S i) (Datatypes.S j) dim * rr (k - 1 - i)%nat (l - 1 - j)%nat c)))
    body 1 k s1) as (s2 & E2 & V2).
  { intros c Hc. cbn [Nat.sub sumn]. ring. }
  { intros i s Hi HV. unfold body. rewrite (binomial_size eps) by lia. cbn [bind].
    pose proof (Hget i 0%nat A ltac:(lia) ltac:(lia) LA) as Gi. rewrite Nat.add_0_r in Gi. rewrite Gi. cbn [bind].
    rewrite Hget by (auto; lia). cbn [bind].
    destruct (Inner i ltac:(lia)) as (v2 & Ei & Vi). rewrite Ei. cbn [bind].
    eexists; split; [reflexivity|]. intros c Hc. unfold psub, pscal, rat_sub, weight. nsimp.
    rewrite HV, Vi, HS', VA by lia. destruct i as [|i]; [lia|].
    replace (Datatypes.S (Datatypes.S i) - 1)%nat with (Datatypes.S i) by lia. cbn [sumn].
    replace (Datatypes.S i - 1)%nat with i by lia. replace (k - Datatypes.S i)%nat with (k - 1 - i)%nat by lia. ring. }
  rewrite E2. cbn [bind].
  assert (Hw0 : weight dim (cell nv A 0 0) = SV u v 0 0 dim) by (unfold weight; rewrite VA by lia; reflexivity).
  rewrite Hw0. rewrite (proj2 (neqb_R_false eps _ _)) by exact Hw.
  rewrite set_ok by (rewrite LS; nia). eexists; split; [reflexivity|].
  intros c Hc. cbv beta. rewrite rq2_eq. nsimp. rewrite V2, V1, VA by lia. replace (1 + k - 1)%nat with k by lia.
  reflexivity.
Qed.

End Data.
End AtR.
