(** Interpolation and least squares: the public entry points. *)
From Coq Require Import List Arith ZArith Reals Lia Lra Bool Permutation.
From Verif Require Import Model_Base Model_Knots Model_Basis Model_Curve Model_Interp
  Spec_Base Spec_Basis Spec_Eval Spec_Knots Spec_Interp Proof_Base Proof_Blossom Proof_Basis Proof_Ders Proof_Eval
  Proof_PropBasis Proof_Ctor Proof_Curve Proof_Builders Proof_Band Proof_Interp.
Import ListNotations.
Local Open Scope R_scope.

Section AtR.
Variable eps : R.
Local Hint Extern 0 (Num R) => exact (NumR eps) : typeclass_instances.

Section Rows.
Variables (k : list R) (n p : nat).
Hypothesis Hk : knots_ok k n p.
Notation spn := (spn eps k n p).
Notation rv := (rv eps k n p).
Notation inside := (inside k n p).

Lemma cpass1_ok (us : list R) (ds : list nat) : length ds = length us -> (forall x, In x us -> inside x) ->
  exists o, cband_pass1 n p k us ds = Ok o /\
  match o with
  | None => True
  | Some (ext, kl, ku) => ext = map (fun x => (spn x, (spn x - p)%nat, p)) us /\ (0 <= kl)%Z /\ (0 <= ku)%Z /\
    forall i, (i < length us)%nat -> (nth i ds 0 <= p)%nat /\
      (Z.of_nat i - Z.of_nat (spn (nth i us 0%R) - p) <= kl)%Z /\
      (Z.of_nat (spn (nth i us 0%R)) - Z.of_nat i <= ku)%Z
  end.
Proof.
  intros Hl Hu. unfold cband_pass1.
  match goal with |- context [for_ 0 _ ?b _] => set (body := b) end.
  destruct (for_inv (fun m st => match st with None => True | Some (ext, kl, ku) =>
      ext = map (fun x => (spn x, (spn x - p)%nat, p)) (firstn m us) /\ (0 <= kl)%Z /\ (0 <= ku)%Z /\
      forall i, (i < m)%nat -> (nth i ds 0 <= p)%nat /\
      (Z.of_nat i - Z.of_nat (spn (nth i us 0%R) - p) <= kl)%Z /\
      (Z.of_nat (spn (nth i us 0%R)) - Z.of_nat i <= ku)%Z end) body 0 (length us) (Some ([], 0%Z, 0%Z)))
    as (o & E & Ho).
  - split; [reflexivity|]. split; [lia|]. split; [lia|]. intros; lia.
  - intros i [((ext & kl) & ku)|] Hi Hst; unfold body.
    2:{ exists None. auto. }
    destruct Hst as (He & H1 & H2 & H3).
    rewrite (get_nth ds _ 0%nat) by lia. cbn [bind].
    destruct (Nat.ltb_spec p (nth i ds 0%nat)) as [Hd|Hd]; [exists None; auto|].
    rewrite (get_nth us _ 0) by lia. cbn [bind].
    assert (Hin : inside (nth i us 0)) by (apply Hu, nth_In; lia).
    rewrite (extent_ok eps k n p Hk) by exact Hin. cbn [bind]. eexists; split; [reflexivity|].
    destruct (spn_ok eps k n p Hk _ Hin) as (_ & Hsp & _).
    split; [|split; [lia|split; [lia|]]].
    + rewrite He.
      assert (Ef : firstn (S i) us = firstn i us ++ [nth i us 0]).
      { clear -Hi. revert i Hi. induction us as [|x t IH]; intros [|i] Hi; simpl in *; try lia; [reflexivity|].
        f_equal. apply IH; lia. }
      rewrite Ef, map_app. reflexivity.
    + intros j Hj. destruct (Nat.eq_dec j i) as [->|]; [split; lia|]. destruct (H3 j ltac:(lia)). lia.
  - exists o. split; [exact E|]. destruct o as [((ext & kl) & ku)|]; [|exact I].
    cbn [Nat.add] in Ho. rewrite firstn_all in Ho. exact Ho.
Qed.

Lemma cassemble_ok (us : list R) (ds : list nat) : 0 <= eps -> length ds = length us -> length us = n ->
  (forall x, In x us -> inside x) ->
  exists o, assemble_and_factorize_constraints us ds k p = Ok o /\
  match o with
  | None => True
  | Some F => forall b, length b = n -> exists x, band_solve F b = Ok x /\ length x = n /\
     forall i, (i < n)%nat -> sumn n (fun j => rv (nth i us 0) (nth i ds 0%nat) j * nth j x 0) = nth i b 0
  end.
Proof.
  intros He Hl Hn Hu. unfold assemble_and_factorize_constraints.
  destruct (Nat.ltb_spec stack_max p) as [Hs|Hs]; [exists None; auto|].
  rewrite (count_ok k n p Hk). cbn [bind].
  destruct (cpass1_ok us ds Hl Hu) as (o & E1 & Ho). rewrite E1. cbn [bind].
  destruct o as [((ext & kl_) & ku_)|]; [|exists None; auto].
  destruct Ho as (Hext & Hkl & Hku & Hw). rewrite !width_nonneg by assumption.
  set (kl := Z.to_nat kl_) in *. set (ku := Z.to_nat ku_) in *.
  destruct (Nat.ltb_spec (length us) ((kl + ku + 1) * 2)); [exists None; auto|].
  unfold cband_pass2. rewrite Hn.
  match goal with |- context [for_ 0 n ?b _] => set (body := b) end.
  destruct (for_inv (fun m st => let '(M, scale) := st in length M = (n * (kl + ku + 1))%nat /\ 0 <= scale /\
      forall a b, banded kl ku M a b = if (a <? m)%nat then rv (nth a us 0) (nth a ds 0%nat) b else 0)
    body 0 n (filled (n * (kl + ku + 1)) n0, n0)) as ((M & scale) & E2 & LM & Hsc & HV).
  - split; [apply filled_length|]. split; [apply Rle_refl|]. intros a b. apply banded_zero.
  - intros i (M & scale) Hi (L1 & S1 & V1). unfold body. rewrite (get_nth us _ 0) by lia. cbn [bind].
    rewrite (get_nth ds _ 0%nat) by lia. cbn [bind].
    set (ui := nth i us 0). set (di := nth i ds 0%nat).
    assert (Hin : inside ui) by (apply Hu, nth_In; lia).
    assert (Eg : get ext i = Ok (spn ui, (spn ui - p)%nat, p)).
    { rewrite Hext. apply get_some. rewrite nth_error_map, (nth_error_nth' us 0) by lia. reflexivity. }
    rewrite Eg. cbn [bind]. destruct (Hw i ltac:(lia)) as (W0 & W1 & W2). fold ui di in W0, W1, W2.
    destruct (spn_ok eps k n p Hk ui Hin) as (_ & Hsp & _).
    rewrite (bders_ok eps k n p Hk) by auto. cbn [bind].
    destruct (write_band_row eps k n p Hk kl ku n i ui di M scale
      (fun r st => let '(M, scale) := st in
        let* v := get (map (fun r => rv ui di (spn ui - p + r)) (seq 0 (p + 1))) r in
        let* M := bset kl (kl + ku + 1) M i (spn ui - p + r) v in
        Ok (M, max_abs scale v))) as (M4 & s4 & E4 & L4 & S4 & V4); try assumption; try lia.
    + intros b. rewrite V1. destruct (Nat.ltb_spec i i); [lia|reflexivity].
    + intros r (M5 & s5) Hr. rewrite get_map_seq by lia. reflexivity.
    + exists (M4, s4). split; [exact E4|]. split; [exact L4|]. split; [exact S4|]. intros a b. rewrite V4, V1.
      destruct (Nat.eqb_spec a i) as [->|].
      * destruct (Nat.ltb_spec i (S i)); [reflexivity|lia].
      * destruct (Nat.ltb_spec a i), (Nat.ltb_spec a (S i)); try lia; reflexivity.
  - rewrite E2. cbn [bind].
    destruct (factorize_spec eps kl ku n M scale He Hsc LM) as (o & Eo & Ho). rewrite Eo.
    exists o. split; [reflexivity|]. destruct o as [F|]; [|exact I].
    destruct Ho as (_ & Hsol). intros b Hb. destruct (Hsol b Hb) as (x & Ex & Lx & _ & Hx).
    exists x. split; [exact Ex|]. split; [exact Lx|]. intros i Hi. rewrite <- Hx by exact Hi.
    apply sumn_ext. intros j Hj. rewrite HV. destruct (Nat.ltb_spec i (0 + n)); [reflexivity|lia].
Qed.

(** One right-hand side per coordinate, rows given by (u, d). *)
Lemma columns_eval (us : list R) (ds : list nat) (X : list (list R)) (dim : nat) (vals : nat -> list R) :
  eval_dom eps k n p -> length us = n -> (forall x, In x us -> inside x) -> length X = dim ->
  (forall c x, nth_error X c = Some x -> length x = n /\
     forall i, (i < n)%nat -> sumn n (fun j => rv (nth i us 0) (nth i ds 0%nat) j * nth j x 0) = nth i (vals c) 0) ->
  forall i, (i < n)%nat -> exists q, eval_value (nth i us 0) k (poles_of_columns n X) p (nth i ds 0%nat) = Ok q /\
    forall c, (c < dim)%nat -> q c = nth i (vals c) 0.
Proof.
  intros Hdom Hn Hu HL HX i Hi.
  destruct (rv_eval eps k n p Hk (nth i us 0) (nth i ds 0%nat) (poles_of_columns n X)) as (q & Eq & Vq);
    [apply Hu, nth_In; lia|apply poles_length|exact Hdom|].
  exists q. split; [exact Eq|]. intros c Hc. rewrite Vq.
  destruct (nth_error X c) as [x|] eqn:Ex; [|apply nth_error_None in Ex; lia].
  destruct (HX c x Ex) as (Lx & Hs). rewrite <- Hs by exact Hi. apply sumn_ext. intros j Hj.
  rewrite (poles_cell eps n X c j x) by auto. reflexivity.
Qed.

Lemma fill_rows_ok (us : list R) (ds : list nat) (body : nat -> @mat R -> result (@mat R)) :
  eval_dom eps k n p -> length us = n ->
  (forall x, In x us -> inside x) ->
  (forall i N, (i < n)%nat -> body i N = fill_basis_row N i (nth i us 0) k p (nth i ds 0%nat)) ->
  exists N, for_ 0 n body (mzero n n) = Ok N /\ m_rows N = n /\ m_cols N = n /\
    forall i b, (i < n)%nat -> m_cell N i b = rv (nth i us 0) (nth i ds 0%nat) b.
Proof.
  intros Hdom Hn Hu Hb.
  destruct (for_inv (fun m N => m_rows N = n /\ m_cols N = n /\
      forall a b, m_cell N a b = if (a <? m)%nat then rv (nth a us 0) (nth a ds 0%nat) b else 0)
    body 0 n (mzero n n)) as (N & E & R1 & C1 & V1).
  - split; [reflexivity|]. split; [reflexivity|]. intros a b. reflexivity.
  - intros i N Hi (R1 & C1 & V1). rewrite Hb by lia.
    destruct (fill_row_ok eps k n p Hk N i (nth i us 0) (nth i ds 0%nat)) as (N' & E' & R' & C' & V');
      [apply Hu, nth_In; lia|exact Hdom|lia|exact C1| |].
    { intros b. rewrite V1. destruct (Nat.ltb_spec i i); [lia|reflexivity]. }
    exists N'. split; [exact E'|]. split; [congruence|]. split; [exact C'|]. intros a b. rewrite V', V1.
    destruct (Nat.eqb_spec a i) as [->|].
    + destruct (Nat.ltb_spec i (S i)); [reflexivity|lia].
    + destruct (Nat.ltb_spec a i), (Nat.ltb_spec a (S i)); try lia; reflexivity.
  - exists N. split; [exact E|]. split; [exact R1|]. split; [exact C1|]. intros i b Hi. rewrite V1.
    destruct (Nat.ltb_spec i (0 + n)); [reflexivity|lia].
Qed.

Lemma exact_columns lu N (us : list R) (ds : list nat) dim (vals : nat -> list R) X : exact_solver lu ->
  m_rows N = n -> m_cols N = n -> (forall c, length (vals c) = n) ->
  (forall i b, (i < n)%nat -> m_cell N i b = rv (nth i us 0) (nth i ds 0%nat) b) ->
  mapM (fun d => lu N (vals d)) (seq 0 dim) = Ok X ->
  length X = dim /\ forall c x, nth_error X c = Some x -> length x = n /\
     forall i, (i < n)%nat -> sumn n (fun j => rv (nth i us 0) (nth i ds 0%nat) j * nth j x 0) = nth i (vals c) 0.
Proof.
  intros Hex HR HC Hl HV E. destruct (mapM_nth _ _ _ E) as (HL & HI). rewrite seq_length in HL.
  split; [exact HL|]. intros c x Hx.
  assert (Hc : (c < dim)%nat) by (rewrite <- HL; apply nth_error_Some; congruence).
  destruct (HI c c) as (x' & Hx' & Es).
  { rewrite (nth_error_nth' _ 0%nat) by (rewrite seq_length; lia). rewrite seq_nth by lia. reflexivity. }
  rewrite Hx in Hx'. injection Hx' as <-.
  destruct (Hex N (vals c) x Es ltac:(rewrite Hl; congruence)) as (Lx & _ & Hs). split; [congruence|].
  intros i Hi. rewrite <- Hs by lia. rewrite HC. apply sumn_ext. intros j Hj. rewrite HV by exact Hi. reflexivity.
Qed.

Lemma constraints_ok lu sort dim (Q : list (@cpoint R)) P :
  exact_solver lu -> 0 <= eps -> eval_dom eps k n p -> (forall l, Permutation (sort l) l) ->
  length Q = n -> (forall q, In q Q -> inside (cp_u q)) ->
  build_poles_constraints lu sort dim Q k p = Ok P ->
  length P = n /\ forall q, In q Q -> exists v, eval_value (cp_u q) k P p (cp_d q) = Ok v /\
    forall c, (c < dim)%nat -> v c = cp_v q c.
Proof.
  intros Hex He Hdom Hsort HQ Hu E. unfold build_poles_constraints in E. rewrite HQ in E.
  set (Qs := sort Q) in *.
  assert (HQs : length Qs = n) by (unfold Qs; rewrite (Permutation_length (Hsort Q)); exact HQ).
  assert (Hin : forall q, In q Q <-> In q Qs).
  { intros q. split; intros H; [eapply Permutation_in; [symmetry; apply Hsort|exact H]|eapply Permutation_in; [apply Hsort|exact H]]. }
  assert (G : forall (L : list (@cpoint R)) X, length L = n -> (forall q, In q L -> inside (cp_u q)) -> length X = dim ->
     (forall c x, nth_error X c = Some x -> length x = n /\
       forall i, (i < n)%nat -> sumn n (fun j => rv (nth i (map cp_u L) 0) (nth i (map cp_d L) 0%nat) j * nth j x 0) = nth i (map (fun q => cp_v q c) L) 0) ->
     forall q, In q L -> exists v, eval_value (cp_u q) k (poles_of_columns n X) p (cp_d q) = Ok v /\
        forall c, (c < dim)%nat -> v c = cp_v q c).
  { intros L X HL HuL HX Hs q Hq. destruct (In_nth L q q Hq) as (i & Hi & Ei).
    destruct (columns_eval (map cp_u L) (map cp_d L) X dim (fun c => map (fun q => cp_v q c) L) Hdom) with (i := i)
      as (v & Ev & Vv).
    - rewrite map_length; exact HL.
    - intros x Hx. apply in_map_iff in Hx as (q' & <- & Hq'). auto.
    - exact HX.
    - exact Hs.
    - lia.
    - assert (E1 : nth i (map cp_u L) 0 = cp_u q).
      { rewrite (nth_indep _ 0 (cp_u q)) by (rewrite map_length; lia). rewrite map_nth, Ei. reflexivity. }
      assert (E2 : nth i (map cp_d L) 0%nat = cp_d q).
      { rewrite (nth_indep _ 0%nat (cp_d q)) by (rewrite map_length; lia). rewrite map_nth, Ei. reflexivity. }
      rewrite E1, E2 in Ev. exists v. split; [exact Ev|]. intros c Hc. rewrite Vv by exact Hc.
      rewrite (nth_indep _ 0 ((fun q => cp_v q c) q)) by (rewrite map_length; lia). rewrite (map_nth (fun q => cp_v q c)), Ei. reflexivity. }
  apply bind_inv in E as (f & Ef & E).
  destruct (cassemble_ok (map cp_u Qs) (map cp_d Qs) He) as (o & Eo & Ho).
  { rewrite !map_length; reflexivity. } { rewrite map_length; exact HQs. }
  { intros x Hx. apply in_map_iff in Hx as (q & <- & Hq). apply Hu, Hin, Hq. }
  rewrite Ef in Eo. injection Eo as <-. destruct f as [B|].
  - apply bind_inv in E as (X & EX & E). injection E as <-. split; [apply poles_length|].
    intros q Hq. apply (G Qs); [exact HQs|intros q' Hq'; apply Hu, Hin, Hq'| | |apply Hin, Hq].
    + destruct (mapM_nth _ _ _ EX) as (HL & _). rewrite HL, seq_length. reflexivity.
    + intros c x Hx. destruct (mapM_nth _ _ _ EX) as (HL & HI). rewrite seq_length in HL.
      assert (Hc : (c < dim)%nat) by (rewrite <- HL; apply nth_error_Some; congruence).
      destruct (HI c c) as (x' & Hx' & Es).
      { rewrite (nth_error_nth' _ 0%nat) by (rewrite seq_length; lia). rewrite seq_nth by lia. reflexivity. }
      rewrite Hx in Hx'. injection Hx' as <-.
      destruct (Ho (map (fun q => cp_v q c) Qs)) as (x2 & E2 & L2 & H2); [rewrite map_length; exact HQs|].
      rewrite Es in E2. injection E2 as <-. auto.
  - apply bind_inv in E as (N & EN & E). apply bind_inv in E as (X & EX & E). injection E as <-.
    split; [apply poles_length|].
    destruct (fill_rows_ok (map cp_u Q) (map cp_d Q)
        (fun i N => let* q := get Q i in fill_basis_row N i (cp_u q) k p (cp_d q)) Hdom) as (N' & EN' & HR & HC & HV).
    { rewrite map_length; exact HQ. }
    { intros x Hx. apply in_map_iff in Hx as (q' & <- & Hq'). auto. }
    { intros i N1 Hi. destruct (nth_error Q i) as [q|] eqn:Eq; [|apply nth_error_None in Eq; lia].
      assert (Eg : get Q i = Ok q) by (apply get_some; exact Eq). rewrite Eg. cbn [bind].
      rewrite (nth_indep _ 0 (cp_u q)), (nth_indep _ 0%nat (cp_d q)) by (rewrite map_length; lia).
      rewrite !map_nth. rewrite (nth_error_nth Q i q Eq). reflexivity. }
    rewrite EN' in EN. injection EN as <-.
    destruct (exact_columns lu N' (map cp_u Q) (map cp_d Q) dim (fun c => map (fun q => cp_v q c) Q) X Hex HR HC) as (HL & HX).
    { intros c. rewrite map_length; exact HQ. } { exact HV. } { exact EX. }
    intros q Hq. apply (G Q); auto.
Qed.
End Rows.

(** ** Entry points *)
Lemma passes_of (c : curve R) dim u d q v : 0 <= eps -> c_lo c <= u <= c_hi c ->
  eval_value u (c_knots c) (c_poles c) (c_deg c) d = Ok v -> (forall i, (i < dim)%nat -> v i = q i) ->
  passes eps dim c u d q.
Proof.
  intros He Hu Ev Hv. exists v. split; [|exact Hv]. unfold value.
  destruct (oob_spec eps c u) as [H|H]; [lra|exact Ev].
Qed.

Lemma strict_mono (u : list R) : strictly_increasing u ->
  forall i j, (i <= j)%nat -> (j < length u)%nat -> kn u i <= kn u j.
Proof.
  intros H i j Hij Hj. destruct (Nat.eq_dec i j) as [->|]; [lra|]. left. apply H; lia.
Qed.

Lemma nth_wrap (Q : list (pt R)) i : (i < length Q)%nat ->
  nth i (map (fun q => [q]) Q) [] = [nth i Q (fun _ => 0)].
Proof.
  revert i; induction Q as [|q Q IH]; intros [|i] Hi; simpl in *; try lia; [reflexivity|]. apply IH; lia.
Qed.

Lemma interpolate_ok sparse dim (Q : list (pt R)) (u : list R) p c :
  exact_solver sparse -> 0 <= eps -> (1 <= p)%nat -> (p < length Q)%nat -> length u = length Q ->
  strictly_increasing u ->
  interpolate sparse dim Q u p = Ok c -> evaluable eps (c_knots c) (length Q) p ->
  c_deg c = p /\ length (c_poles c) = length Q /\ bounds c = (kn u 0, kn u (length Q - 1)) /\
  forall i, (i < length Q)%nat -> passes eps dim c (nth i u 0) 0 (nth i Q (fun _ => 0)).
Proof.
  intros Hex He Hp HpQ Hu Hs E Hev. unfold interpolate in E. apply bind_inv in E as (k & Ek & E).
  destruct (build_simple_spec eps u p Hp ltac:(lia) Hs) as (k' & Ek' & (Lk & Hnd & Ka & Kb & _) & _ & Kst).
  rewrite Ek in Ek'. injection Ek' as <-. rewrite Hu in *.
  apply bind_inv in E as (P & EP & E).
  assert (Hk : knots_ok k (length Q) p).
  { split; [exact Lk|]. split; [lia|]. split; [exact Hnd|].
    replace (length Q) with (S (length Q - 1)) at 2 by lia. apply Kst; lia. }
  assert (Hin : forall x, In x u -> kn k p <= x <= kn k (length Q)).
  { intros x Hx. destruct (In_nth u x 0 Hx) as (i & Hi & <-). change (nth i u 0) with (kn u i).
    rewrite (Ka p), (Kb (length Q)) by lia. split; apply (strict_mono u Hs); lia. }
  assert (Hd : eval_dom eps k (length Q) p).
  { pose proof E as E0. unfold mk_curve in E0. apply bind_inv in E0 as (f & _ & E0). apply bind_inv in E0 as (b & _ & E0).
    apply bind_inv in E0 as (ok & _ & E0). destruct ok; [|discriminate]. injection E0 as <-. exact Hev. }
  destruct (build_poles_ok eps k (length Q) p Hk sparse dim 1 (map (fun q => [q]) Q) u P Hex He (le_n 1) Hd) as (LP & HV).
  { rewrite map_length; exact Hu. } { rewrite map_length; lia. }
  { intros q Hq. apply in_map_iff in Hq as (x & <- & _). reflexivity. } { exact Hin. } { exact EP. }
  rewrite (mk_curve_accepts eps) in E by (rewrite ?LP; auto; lia). injection E as <-. cbn [c_deg c_poles].
  split; [reflexivity|]. split; [exact LP|]. split.
  { unfold bounds. cbn [c_lo c_hi]. rewrite (Ka 0%nat), (Kb (length k - 1)%nat) by lia. reflexivity. }
  intros i Hi. destruct (HV i 0%nat) as (q & Eq & Vq); [rewrite map_length; exact Hi|lia|].
  apply (passes_of _ dim _ _ _ q He); cbn [c_lo c_hi c_knots c_poles c_deg].
  - rewrite (Ka 0%nat), (Kb (length k - 1)%nat) by lia. split; apply (strict_mono u Hs); lia.
  - exact Eq.
  - intros j Hj. rewrite Vq by exact Hj.
    rewrite (nth_wrap Q i Hi). reflexivity.
Qed.

Lemma hermite_ok sparse dim nc (Q : list (list (pt R))) (u : list R) c :
  exact_solver sparse -> 0 <= eps -> (1 <= nc)%nat -> (2 <= length Q)%nat -> length u = length Q ->
  (forall q, In q Q -> length q = nc) -> strictly_increasing u ->
  interpolate_hermite sparse dim nc Q u = Ok c ->
  evaluable eps (c_knots c) (nc * length Q) (2 * nc - 1) ->
  c_deg c = (2 * nc - 1)%nat /\ bounds c = (kn u 0, kn u (length Q - 1)) /\
  forall i d, (i < length Q)%nat -> (d < nc)%nat ->
    passes eps dim c (nth i u 0) d (nth d (nth i Q []) (fun _ => 0)).
Proof.
  intros Hex He Hnc HQ2 Hu HQ Hs E Hev. unfold interpolate_hermite in E.
  set (p := (2 * nc - 1)%nat) in *.
  destruct (build_mult_spec u p nc ltac:(lia) Hs) as (k & Ek & (Lk & Hnd & Ka & Kb & Kin) & _).
  unfold build_mult_flat_knots in Ek. rewrite Hu in Ek.
  destruct (length Q) as [|[|m]] eqn:Em; [lia|lia|]. rewrite Ek in E. cbn [bind] in E.
  apply bind_inv in E as (P & EP & E). rewrite Hu in *.
  set (n := (nc * S (S m))%nat) in *.
  replace (p + 1 + nc * (S (S m) - 2))%nat with n in * by (unfold n, p; lia).
  assert (H01 : kn u 0 < kn u (S (S m) - 1)) by (apply Hs; lia).
  assert (Hpn : (p < n)%nat) by (unfold p, n; nia).
  assert (Hk : knots_ok k n p).
  { split; [exact Lk|]. split; [exact Hpn|]. split; [exact Hnd|].
    rewrite (Kb n) by lia. destruct (Nat.eq_dec (n - 1) p) as [->|]; [rewrite Ka by lia; exact H01|]. apply Kin; lia. }
  assert (Hin : forall x, In x u -> kn k p <= x <= kn k n).
  { intros x Hx. destruct (In_nth u x 0 Hx) as (i & Hi & <-). change (nth i u 0) with (kn u i).
    rewrite (Ka p), (Kb n) by lia. split; apply (strict_mono u Hs); lia. }
  assert (Hd : eval_dom eps k n p).
  { pose proof E as E0. unfold mk_curve in E0. apply bind_inv in E0 as (f & _ & E0). apply bind_inv in E0 as (b & _ & E0).
    apply bind_inv in E0 as (ok & _ & E0). destruct ok; [|discriminate]. injection E0 as <-. exact Hev. }
  destruct (build_poles_ok eps k n p Hk sparse dim nc Q u P Hex He Hnc Hd) as (LP & HV);
    [lia|rewrite Em; unfold n; lia|exact HQ|exact Hin|exact EP|].
  rewrite (mk_curve_accepts eps) in E by (rewrite ?LP; auto; lia). injection E as <-. cbn [c_deg].
  split; [reflexivity|]. split.
  { unfold bounds. cbn [c_lo c_hi]. rewrite (Ka 0%nat), (Kb (length k - 1)%nat) by lia. reflexivity. }
  intros i d Hi Hdn. destruct (HV i d) as (q & Eq & Vq); [lia|exact Hdn|].
  apply (passes_of _ dim _ _ _ q He); cbn [c_lo c_hi c_knots c_poles c_deg]; [|exact Eq|exact Vq].
  rewrite (Ka 0%nat), (Kb (length k - 1)%nat) by lia. split; apply (strict_mono u Hs); lia.
Qed.

(** ** The interpolation with constraints *)
Lemma insert_all (l : list (@cpoint R)) (v : list R) : nondecreasing v ->
  let w := fold_left (fun u c => insert_ordered u (cp_u c)) l v in
  nondecreasing w /\ Permutation w (map cp_u l ++ v).
Proof.
  revert v; induction l as [|q l IH]; intros v Hv; cbn [fold_left map app]; [auto|].
  destruct (insert_ordered_spec eps v (cp_u q) Hv) as (H1 & H2).
  destruct (IH _ H1) as (H3 & H4). split; [exact H3|]. etransitivity; [exact H4|].
  etransitivity; [apply Permutation_app_head; exact H2|]. symmetry. apply Permutation_middle.
Qed.

Lemma icons_ok lu dim (ub : R) qb ue qe (cstr : list (@cpoint R)) p c :
  exact_solver lu -> 0 <= eps -> (1 <= p)%nat -> ub <= ue ->
  interpolate_constraints lu dim ub qb ue qe cstr p = Ok c ->
  knots_ok (c_knots c) (length cstr + 2) p -> evaluable eps (c_knots c) (length cstr + 2) p ->
  c_deg c = p /\
  passes eps dim c ub 0 qb /\ passes eps dim c ue 0 qe /\
  forall q, In q cstr -> passes eps dim c (cp_u q) (cp_d q) (cp_v q).
Proof.
  intros Hex He Hp Hue E Hk Hev. unfold interpolate_constraints in E. set (n := (length cstr + 2)%nat) in *.
  destruct (Nat.ltb_spec n (p + 1)) as [|Hnp]; [discriminate|].
  set (u := fold_left (fun u c => insert_ordered u (cp_u c)) cstr [ub; ue]) in *.
  destruct (insert_all cstr [ub; ue]) as (Hnd & Hperm).
  { intros i j Hij Hj. simpl in Hj. destruct i as [|[|i]], j as [|[|j]]; try lia; unfold kn; simpl; lra. }
  fold u in Hnd, Hperm.
  assert (Lu : length u = n). { rewrite (Permutation_length Hperm), app_length, map_length. simpl. reflexivity. }
  apply bind_inv in E as (k & Ek & E).
  destruct (build_simple_vals eps u p Hp ltac:(lia)) as (k' & Ek' & Lk & K0 & K1 & _).
  rewrite Ek in Ek'. injection Ek' as <-. rewrite Lu in *.
  apply bind_inv in E as (N1 & E1 & E). apply bind_inv in E as (N2 & E2 & E). apply bind_inv in E as (N3 & E3 & E).
  apply bind_inv in E as (X & EX & E).
  assert (Hc : c = mk p (poles_of_columns n X) k (kn k 0) (kn k (length k - 1))).
  { unfold mk_curve in E. apply bind_inv in E as (f & Hf & E). apply bind_inv in E as (b & Hb & E).
    apply bind_inv in E as (ok & _ & E). destruct ok; [|discriminate]. injection E as <-.
    f_equal.
    - destruct k; [discriminate|]. injection Hf as <-. reflexivity.
    - rewrite back_kn in Hb by lia. injection Hb as <-. reflexivity. }
  subst c. cbn [c_knots c_deg] in *.
  assert (Hin : forall x, In x u -> kn k p <= x <= kn k n).
  { intros x Hx. destruct (In_nth u x 0 Hx) as (i & Hi & <-). change (nth i u 0) with (kn u i).
    rewrite (K0 p), (K1 n) by lia. split; apply Hnd; lia. }
  assert (Hinu : forall x, In x (ub :: map cp_u cstr ++ [ue]) -> In x u).
  { intros x Hx. eapply Permutation_in; [symmetry; exact Hperm|]. destruct Hx as [<-|Hx].
    - apply in_or_app. right. simpl; auto.
    - apply in_app_or in Hx. apply in_or_app. destruct Hx as [Hx|Hx]; [auto|]. right. simpl in *. tauto. }
  set (us := ub :: map cp_u cstr ++ [ue]) in *. set (ds := 0%nat :: map cp_d cstr ++ [0%nat]).
  assert (Lus : length us = n) by (unfold us, n; simpl; rewrite app_length, map_length; simpl; lia).
  assert (Hrow0 : forall j, (j < length cstr)%nat -> nth (j + 1) us 0 = cp_u (nth j cstr (mkcp qb 0 0))).
  { intros j Hj. unfold us. rewrite Nat.add_1_r. cbn [nth]. rewrite app_nth1 by (rewrite map_length; lia).
    rewrite (nth_indep _ 0 (cp_u (mkcp qb 0 0))) by (rewrite map_length; lia). apply map_nth. }
  assert (Hrow1 : forall j, (j < length cstr)%nat -> nth (j + 1) ds 0%nat = cp_d (nth j cstr (mkcp qb 0 0))).
  { intros j Hj. unfold ds. rewrite Nat.add_1_r. cbn [nth]. rewrite app_nth1 by (rewrite map_length; lia).
    rewrite (nth_indep _ 0%nat (cp_d (mkcp qb 0 0))) by (rewrite map_length; lia). apply map_nth. }
  assert (HlastU : nth (n - 1) us 0 = ue).
  { unfold us, n. replace (length cstr + 2 - 1)%nat with (S (length cstr)) by lia. cbn [nth].
    rewrite app_nth2 by (rewrite map_length; lia). rewrite map_length, Nat.sub_diag. reflexivity. }
  assert (HlastD : nth (n - 1) ds 0%nat = 0%nat).
  { unfold ds, n. replace (length cstr + 2 - 1)%nat with (S (length cstr)) by lia. cbn [nth].
    rewrite app_nth2 by (rewrite map_length; lia). rewrite map_length, Nat.sub_diag. reflexivity. }
  (* the matrix *)
  destruct (fill_row_ok eps k n p Hk (mzero n n) 0 ub 0) as (N1' & E1' & R1 & C1 & V1);
    [apply Hin, Hinu; unfold us; simpl; auto|exact Hev|simpl; lia|reflexivity|reflexivity|].
  rewrite E1 in E1'. injection E1' as <-. cbn [m_rows mzero] in R1.
  destruct (for_inv (fun m N => m_rows N = n /\ m_cols N = n /\
      forall a b, m_cell N a b = if (a <? m + 1)%nat then rv eps k n p (nth a us 0) (nth a ds 0%nat) b else 0)
     (fun i N => let* c := get cstr i in fill_basis_row N (i + 1) (cp_u c) k p (cp_d c)) 0 (length cstr) N1)
    as (N2' & E2' & R2 & C2 & V2).
  - split; [exact R1|]. split; [exact C1|]. intros a b. rewrite V1. destruct (Nat.eqb_spec a 0) as [->|].
    + reflexivity.
    + destruct (Nat.ltb_spec a (0 + 1)); [lia|]. reflexivity.
  - intros i N Hi (R' & C' & V'). rewrite (get_nth _ _ (mkcp qb 0 0)) by lia. cbn [bind].
    set (q := nth i cstr (mkcp qb 0 0)).
    destruct (fill_row_ok eps k n p Hk N (i + 1) (cp_u q) (cp_d q)) as (N' & E' & R'' & C'' & V'');
      [apply Hin, Hinu; unfold us; right; apply in_or_app; left; apply in_map, nth_In; lia
      |exact Hev|unfold n in *; lia|exact C'| |].
    { intros b. rewrite V'. destruct (Nat.ltb_spec (i + 1) (i + 1)); [lia|reflexivity]. }
    exists N'. split; [exact E'|]. split; [congruence|]. split; [exact C''|]. intros a b. rewrite V'', V'.
    destruct (Nat.eqb_spec a (i + 1)) as [->|].
    + destruct (Nat.ltb_spec (i + 1) (S i + 1)); [|lia]. rewrite Hrow0, Hrow1 by lia. reflexivity.
    + destruct (Nat.ltb_spec a (i + 1)), (Nat.ltb_spec a (S i + 1)); try lia; reflexivity.
  - rewrite E2 in E2'. injection E2' as <-.
    destruct (fill_row_ok eps k n p Hk N2 (n - 1) ue 0) as (N3' & E3' & R3 & C3 & V3);
      [apply Hin, Hinu; unfold us; right; apply in_or_app; right; simpl; auto|exact Hev|unfold n in *; lia|exact C2| |].
    { intros b. rewrite V2. destruct (Nat.ltb_spec (n - 1) (0 + length cstr + 1)); [unfold n in *; lia|reflexivity]. }
    rewrite E3 in E3'. injection E3' as <-.
    set (vals := fun d => qb d :: map (fun c => cp_v c d) cstr ++ [qe d]).
    destruct (exact_columns k n p lu N3 us ds dim vals X Hex) as (HL & HX).
    { lia. } { exact C3. } { intros d. unfold vals, n. simpl. rewrite app_length, map_length. simpl. lia. }
    { intros i b Hi. rewrite V3. destruct (Nat.eqb_spec i (n - 1)) as [->|].
      - rewrite HlastU, HlastD. reflexivity.
      - rewrite V2. destruct (Nat.ltb_spec i (0 + length cstr + 1)); [reflexivity|unfold n in *; lia]. }
    { exact EX. }
    assert (HV : forall i, (i < n)%nat -> forall q, (forall c, (c < dim)%nat -> nth i (vals c) 0 = q c) ->
       passes eps dim (mk p (poles_of_columns n X) k (kn k 0) (kn k (length k - 1))) (nth i us 0) (nth i ds 0%nat) q).
    { intros i Hi q Hq.
      destruct (columns_eval k n p Hk us ds X dim vals Hev Lus (fun x Hx => Hin x (Hinu x Hx)) HL HX i Hi) as (v & Ev & Vv).
      apply (passes_of _ dim _ _ _ v He); cbn [c_lo c_hi c_knots c_poles c_deg]; [|exact Ev|].
      - assert (Hi' : In (nth i us 0) u) by (apply Hinu, nth_In; lia). pose proof (Hin _ Hi') as X1.
        rewrite (K0 p), (K1 n) in X1 by lia. rewrite (K0 0%nat), (K1 (length k - 1)%nat) by lia. exact X1.
      - intros j Hj. rewrite Vv by exact Hj. apply Hq; exact Hj. }
    split; [reflexivity|]. split; [|split].
    + apply (HV 0%nat); [lia|]. intros c Hc. reflexivity.
    + assert (Z := HV (n - 1)%nat ltac:(lia) qe). rewrite HlastU, HlastD in Z. apply Z. intros c Hc. unfold vals, n.
      replace (length cstr + 2 - 1)%nat with (S (length cstr)) by lia. cbn [nth].
      rewrite app_nth2 by (rewrite map_length; lia). rewrite map_length, Nat.sub_diag. reflexivity.
    + intros q Hq. destruct (In_nth cstr q (mkcp qb 0 0) Hq) as (i & Hi & <-).
      rewrite <- Hrow0, <- Hrow1 by exact Hi. apply (HV (i + 1)%nat); [unfold n; lia|]. intros c Hc. unfold vals.
      rewrite Nat.add_1_r. cbn [nth]. rewrite app_nth1 by (rewrite map_length; lia).
      rewrite (nth_indep _ 0 ((fun q => cp_v q c) (mkcp qb 0 0))) by (rewrite map_length; lia).
      rewrite (map_nth (fun q => cp_v q c)). reflexivity.
Qed.
End AtR.
