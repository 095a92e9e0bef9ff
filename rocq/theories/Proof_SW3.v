(** With a complete solver, grids of points are interpolated and sections lofted. *)
From Coq Require Import List Arith ZArith Reals Lia Lra Bool.
From Verif Require Import Model_Base Model_Math Model_Knots Model_Basis Model_Curve Model_Interp Model_Surface Model_Unify Model_Skin
  Spec_Base Spec_Basis Spec_Eval Spec_Knots Spec_Interp Spec_Surface Spec_Unify Spec_Skin Spec_Solve
  Proof_Base Proof_Blossom Proof_Basis Proof_Ders Proof_Eval Proof_PropBasis Proof_Ctor Proof_Curve Proof_Builders
  Proof_Trim Proof_Band Proof_Interp Proof_Interp2 Proof_Interp3 Proof_Interp4 Proof_Builders2 Proof_Json Proof_Tfi
  Proof_Skin1 Proof_Skin2 Proof_Skin3 Proof_Skin4 Proof_Skin5 Proof_Skin6 Proof_Skin7 Proof_Skin8 Proof_Skin9 Proof_SW2.
Import ListNotations.
Local Open Scope R_scope.

Section AtR.
Variable eps : R.
Local Hint Extern 0 (Num R) => exact (NumR eps) : typeclass_instances.

Lemma two_solves_returns lu (Cu Cv : @mat R) cols : complete_solver lu ->
  m_rows Cu = m_cols Cu -> m_rows Cv = m_cols Cv -> nonsingular (m_rows Cu) (m_cell Cu) -> nonsingular (m_rows Cv) (m_cell Cv) ->
  length cols = m_rows Cv -> (forall c, In c cols -> length c = m_rows Cu) ->
  exists X, two_solves lu Cu Cv cols (m_rows Cu) = Ok X.
Proof.
  intros (Hex & Hco) Ru Rv Nu Nv Lc Hc. unfold two_solves.
  destruct (mapM_all_ok (lu Cu) cols) as (A & EA). { intros c Hin. apply Hco; auto. }
  rewrite EA. cbn [bind]. destruct (mapM_nth _ _ _ EA) as (LA & HA).
  assert (LAj : forall a, In a A -> length a = m_rows Cu).
  { intros a Ha. apply In_nth_error in Ha as (j & Hj). assert (HjA : (j < length A)%nat) by (apply nth_error_Some; rewrite Hj; discriminate).
    destruct (HA j (nth j cols [])) as (b & Hb & Eb); [apply nth_error_nth'; lia|]. rewrite Hj in Hb. injection Hb as <-.
    assert (HI : In (nth j cols []) cols) by (apply nth_In; lia). destruct (Hex _ _ _ Eb (Hc _ HI)) as (L & _). lia. }
  apply mapM_all_ok. intros i Hi. apply in_seq in Hi.
  rewrite (mapM_ok (fun c => get c i) (fun c => nth i c 0)) by (intros a Ha; apply get_nth; rewrite LAj by exact Ha; lia). cbn [bind].
  apply Hco; [exact Rv|rewrite map_length; lia|exact Nv].
Qed.

Lemma row_matrix_nonsingular (k u : list R) p : (1 <= p)%nat -> (p < length u)%nat -> interlaced k p u ->
  evaluable eps k (length u) p -> exists N, row_matrix k u p (length u) = Ok N /\ m_rows N = length u /\ m_cols N = length u /\
  nonsingular (length u) (m_cell N).
Proof.
  intros Hp Hl Hi Hd. destruct (interlaced_knots k p u Hp Hl Hi) as (Hk & Hin).
  destruct (row_matrix_ok eps k u (length u) p Hk Hd Hin) as (N & EN & RN & CN & VN). exists N. repeat (split; [assumption|]).
  apply nonsingular_ext with (2 := interlaced_nonsingular eps k p u Hp Hl Hi Hd). intros i j Hii _. symmetry. apply VN, Hii.
Qed.

Lemma grid_poles_returns lu dim (Q : list (pt R)) (ku kv u v : list R) p q : complete_solver lu ->
  (1 <= p < length u)%nat -> (1 <= q < length v)%nat -> interlaced ku p u -> interlaced kv q v ->
  evaluable2 eps ku (length u) p kv (length v) q -> length Q = (length u * length v)%nat ->
  exists P, grid_poles lu dim Q ku kv u v p q = Ok P /\ length P = (length u * length v)%nat.
Proof.
  intros Hco Hp Hq Iu Iv Hev LQ. unfold grid_poles. rewrite LQ, Nat.eqb_refl. cbn [negb].
  destruct (row_matrix_nonsingular ku u p ltac:(lia) ltac:(lia) Iu (Proof_Surface.ev2_1 eps _ _ _ _ _ _ Hev)) as (Mu & -> & RMu & CMu & NMu).
  destruct (row_matrix_nonsingular kv v q ltac:(lia) ltac:(lia) Iv (Proof_Surface.ev2_2 eps _ _ _ _ _ _ Hev)) as (Mv & -> & RMv & CMv & NMv).
  cbn [bind].
  match goal with |- context [mapM ?f (seq 0 dim)] => destruct (mapM_all_ok f (seq 0 dim)) as (X & EX) end.
  - intros d _.
    rewrite (mapM_ok _ (fun iv => map (fun iu => nth (iu + length u * iv) Q (fun _ => 0) d) (seq 0 (length u)))).
    2:{ intros iv Hiv. apply in_seq in Hiv. cbv beta. apply mapM_ok. intros iu Hiu. apply in_seq in Hiu. rewrite (get_nth Q _ (fun _ => 0)) by nia. reflexivity. }
    cbn [bind]. match goal with |- context [two_solves _ _ _ ?c _] => replace (two_solves lu Mu Mv c (length u)) with (two_solves lu Mu Mv c (m_rows Mu)) by (rewrite RMu; reflexivity) end.
    apply two_solves_returns; try congruence; try (rewrite ?RMu, ?RMv; assumption).
    + rewrite map_length, seq_length. congruence.
    + intros c Hc. apply in_map_iff in Hc as (iv & <- & _). rewrite map_length, seq_length. congruence.
  - rewrite EX. cbn [bind]. eexists. split; [reflexivity|]. apply grids_length.
Qed.

(** The averaged parameters exist. *)
Lemma mean_params_returns dist mode (rows : list (list (pt R))) n (ext : nat -> result (list (pt R))) :
  0 <= eps -> (2 <= n)%nat -> (0 < length rows)%nat -> spread dist mode rows n -> (forall r, In r rows -> length r = n) ->
  (forall i, (i < length rows)%nat -> ext i = Ok (nth i rows [])) ->
  exists u u', avg_params (fun l => curve_parametrization dist sqrt l mode true) ext (length rows) n = Ok u /\ adimension u = Ok u'.
Proof.
  intros He Hn Hr (Hc & Hs) Hl Hext.
  assert (Hin : forall j, (j < length rows)%nat -> In (nth j rows []) rows) by (intros; apply nth_In; assumption).
  set (g := fun j => match curve_parametrization dist sqrt (nth j rows []) mode true with Ok k => k | _ => [] end).
  assert (HG : forall j, (j < length rows)%nat -> curve_parametrization dist sqrt (nth j rows []) mode true = Ok (g j) /\ length (g j) = n /\
    (forall i, (i < n)%nat -> 0 <= kn (g j) i) /\ kn (g j) 0 = 0).
  { intros j Hj. destruct (param_adim eps dist mode (nth j rows []) n He Hn (Hl _ (Hin j Hj))) as (k & d & E1 & E2 & E3 & E4 & E5).
    { intros i Hi. apply Hc; [apply Hin; lia|exact Hi]. }
    unfold g. rewrite E1. split; [reflexivity|]. split; [exact E2|]. split.
    - intros i Hi. rewrite E5 by exact Hi. apply Rle_mult_inv_pos; [|exact E3]. apply sumn_nonneg. intros; apply Hc; [apply Hin; lia|lia].
    - rewrite E5 by lia. unfold travelled. cbn [sumn]. field. lra. }
  destruct (avg_ok eps (fun l => curve_parametrization dist sqrt l mode true) ext (length rows) n g Hr) as (u & Eu & Lu & Vu).
  { intros i Hi. exists (nth i rows []). destruct (HG i Hi) as (A & B & _). auto. }
  exists u. assert (Hi0 : 0 < INR (length rows)) by (apply lt_0_INR; lia).
  destruct (adim_div eps u) as (d & _ & _ & k & Ek & _); try lia; try exact He.
  - rewrite Vu by lia. apply sumn_zero. intros j Hj. destruct (HG j Hj) as (_ & _ & _ & ->). field. lra.
  - rewrite Vu by lia. apply sumn_nonneg. intros j Hj. destruct (HG j Hj) as (_ & _ & H & _). apply Rle_mult_inv_pos; [apply H; lia|lra].
  - exists k. auto.
Qed.

Lemma grid_returns lu dist mode dim (Q : list (pt R)) nu nv p q : complete_solver lu -> 0 <= eps ->
  (1 <= p < nu)%nat -> (1 <= q < nv)%nat -> (p <= 24)%nat -> (q <= 24)%nat -> length Q = (nu * nv)%nat ->
  (Z.of_nat (nu + p + 1) < 2 ^ 64)%Z -> (Z.of_nat (nv + q + 1) < 2 ^ 64)%Z -> (Z.of_nat (nu * nv) < 2 ^ 64)%Z ->
  spread dist mode (rows_of Q nu nv) nu -> spread dist mode (cols_of Q nu nv) nv ->
  exists s, interpolate_grid lu (fun l => curve_parametrization dist sqrt l mode true) dim Q nv p q = Ok s /\ evaluable_surface eps s.
Proof.
  intros Hco He Hp Hq Hp24 Hq24 LQ B1 B2 B3 Su Sv. unfold interpolate_grid.
  destruct (Nat.eqb_spec nv 0); [lia|]. rewrite LQ, Nat.mod_mul, Nat.div_mul by lia. cbn [Nat.eqb negb].
  assert (LR : length (rows_of Q nu nv) = nv) by (unfold rows_of; rewrite map_length, seq_length; reflexivity).
  assert (LC : length (cols_of Q nu nv) = nu) by (unfold cols_of; rewrite map_length, seq_length; reflexivity).
  assert (HR1 : forall r, In r (rows_of Q nu nv) -> length r = nu) by (intros r Hr; apply in_map_iff in Hr as (j & <- & _); unfold row; rewrite map_length, seq_length; reflexivity).
  assert (HR2 : forall i, (i < length (rows_of Q nu nv))%nat -> extract_U i Q nu = Ok (nth i (rows_of Q nu nv) [])).
  { intros i Hi. rewrite LR in Hi. unfold rows_of. rewrite nth_map_seq by exact Hi. apply extract_U_ok with nv; try assumption; lia. }
  assert (HC1 : forall r, In r (cols_of Q nu nv) -> length r = nv) by (intros r Hr; apply in_map_iff in Hr as (j & <- & _); unfold col; rewrite map_length, seq_length; reflexivity).
  assert (HC2 : forall i, (i < length (cols_of Q nu nv))%nat -> extract_V i Q nu = Ok (nth i (cols_of Q nu nv) [])).
  { intros i Hi. rewrite LC in Hi. unfold cols_of. rewrite nth_map_seq by exact Hi. apply extract_V_ok; try assumption; lia. }
  destruct (mean_params_returns dist mode (rows_of Q nu nv) nu (fun i => extract_U i Q nu) He ltac:(lia) ltac:(lia) Su HR1 HR2) as (u0 & u & E1 & E2).
  destruct (mean_params_returns dist mode (cols_of Q nu nv) nv (fun i => extract_V i Q nu) He ltac:(lia) ltac:(lia) Sv HC1 HC2) as (v0 & v & E4 & E5).
  pose proof (mean_params_ok eps dist mode (rows_of Q nu nv) nu _ u0 u He ltac:(lia) ltac:(lia) Su HR1 HR2 E1 E2) as (Lu & Iu & U0 & _).
  pose proof (mean_params_ok eps dist mode (cols_of Q nu nv) nv _ v0 v He ltac:(lia) ltac:(lia) Sv HC1 HC2 E4 E5) as (Lv & Iv & V0 & _).
  rewrite LR in E1. rewrite LC in E4. rewrite E1. cbn [bind]. rewrite E2. cbn [bind].
  destruct (build_simple_spec eps u p ltac:(lia) ltac:(lia) Iu) as (ku & Eku & (Lku & Nku & _) & _). rewrite Eku. cbn [bind].
  rewrite E4. cbn [bind]. rewrite E5. cbn [bind].
  destruct (build_simple_spec eps v q ltac:(lia) ltac:(lia) Iv) as (kv & Ekv & (Lkv & Nkv & _) & _). rewrite Ekv. cbn [bind].
  destruct (grid_poles_returns lu dim Q ku kv u v p q Hco) as (P & EP & LP); try lia; try (apply (averages_interlaced eps); auto; lia).
  { left. lia. }
  rewrite EP. cbn [bind]. rewrite (mk_surf_accepts eps); [eexists; split; [reflexivity|left; cbn [s_degU s_degV]; lia]|lia|lia|exact Nku|exact Nkv| | | |];
    rewrite ?LP, ?Lku, ?Lkv, ?Lu, ?Lv; try assumption.
  f_equal; lia.
Qed.

(** ** Lofts *)
Lemma loft_poles_returns lu dim (cs : list (list (pt R))) (kv v : list R) nu q : complete_solver lu -> (0 < dim)%nat ->
  (1 <= q < length v)%nat -> interlaced kv q v -> evaluable eps kv (length v) q -> length cs = length v ->
  (forall c, In c cs -> length c = nu) -> exists P, loft_poles lu dim cs kv v q = Ok P /\ length P = (nu * length v)%nat.
Proof.
  intros (Hex & Hco) Hdim Hq Iv Hd Lcs Hc. unfold loft_poles.
  destruct cs as [|c0 cs'] eqn:Ecs; [cbn [length] in Lcs; lia|]. rewrite <- Ecs in *.
  assert (E0 : get cs 0 = Ok c0) by (rewrite Ecs; reflexivity). rewrite E0. cbn [bind].
  rewrite (Hc c0) by (rewrite Ecs; left; reflexivity).
  match goal with |- context [mapM ?f (seq 0 (nu * dim))] =>
    rewrite (mapM_ok f (fun ix => map (fun c : list (pt R) => nth (ix / dim) c (fun _ => 0) (ix mod dim)) cs) (seq 0 (nu * dim))) end.
  2:{ intros ix Hix. apply in_seq in Hix. cbv beta. apply mapM_ok. intros c Hin. rewrite (get_nth c _ (fun _ => 0)); [reflexivity|].
      pose proof (Hc c Hin) as Hcc. unfold pt in Hcc. rewrite Hcc. apply Nat.div_lt_upper_bound; lia. }
  cbn [bind]. unfold loft_core. rewrite !Nat.mul_1_l.
  destruct (interlaced_knots kv q v ltac:(lia) ltac:(lia) Iv) as (Hkv & Hv).
  destruct (matrix_ok eps kv (length v) q Hkv 1 v (length v) (le_n 1) Hd Hv ltac:(lia)) as (N & EN & RN & CN & VN & _).
  rewrite EN. cbn [bind].
  match goal with |- context [mapM ?f ?l] => destruct (mapM_all_ok f l) as (X & EX) end.
  - intros b Hb. apply in_map_iff in Hb as (ix & <- & _). rewrite map_length, Lcs, Nat.eqb_refl.
    apply Hco; [congruence|rewrite map_length; congruence|]. rewrite RN.
    apply nonsingular_ext with (2 := interlaced_nonsingular eps kv q v ltac:(lia) ltac:(lia) Iv Hd). intros i j Hi _.
    specialize (VN i 0%nat j Hi ltac:(lia)). rewrite Nat.mul_1_l, Nat.add_0_r in VN. symmetry. exact VN.
  - rewrite EX. cbn [bind]. eexists. split; [reflexivity|]. rewrite map_length, seq_length. apply Nat.mul_comm.
Qed.

Lemma loft_info_returns lu dim c0 rest (cs := c0 :: rest) (v kv : list R) q : 0 < eps -> complete_solver lu -> (0 < dim)%nat ->
  (forall c, In c cs -> clamped_info eps (snd c) c /\ (snd c <= 12)%nat) -> knots_apart eps (knots_of c0) cs ->
  (1 <= q < length v)%nat -> interlaced kv q v -> evaluable eps kv (length v) q -> length v = length cs ->
  exists P ku p nu, loft_info lu dim cs v kv q = Ok (P, ku, p) /\ (p <= 12)%nat /\ (length ku <= 13 * list_sum (map (fun c => length (knots_of c)) cs))%nat /\ knots_ok ku nu p /\ length P = (nu * length v)%nat.
Proof.
  intros He Hco Hdim Hc Ha Hq Iv Hd Lv. unfold loft_info.
  destruct (unify_all eps c0 rest He Hc Ha) as (k & us & EU & LU & Fk & Lk & Hm & Hlen & _ & V). fold cs in V, EU, LU, Hm, Hlen.
  apply bind_inv in EU as (us1 & E1 & E2). rewrite E1. cbn [bind]. rewrite E2. cbn [bind].
  destruct (V 0%nat c0 eq_refl) as (P0 & N0 & C0 & Len0 & _).
  unfold get. rewrite N0. cbn [bind].
  destruct (clamped_ok eps _ P0 k He C0) as (Kk & _).
  destruct (loft_poles_returns lu dim (map (fun c : info => fst (fst c)) us) kv v (length P0) q) as (P & EP & LP); auto.
  - rewrite map_length, LU. symmetry. exact Lv.
  - intros c Hin. apply in_map_iff in Hin as (c' & <- & Hin). apply In_nth_error in Hin as (i & Hi).
    destruct (nth_error cs i) as [c1|] eqn:Ei.
    2:{ exfalso. apply nth_error_None in Ei. apply (Nat.lt_irrefl i). refine (Nat.lt_le_trans _ _ _ _ Ei). rewrite <- LU. exact (nth_error_lt _ _ _ Hi). }
    destruct (V i c1 Ei) as (P' & Hi' & _ & Len & _). pose proof (eq_trans (eq_sym Hi) Hi') as Heq. injection Heq as ->. cbn [fst]. lia.
  - rewrite EP. cbn [bind]. exists P, k, (list_max (map snd cs)), (length P0). split; [reflexivity|]. split; [exact Hm|]. split; [exact Hlen|]. split; [exact Kk|exact LP].
Qed.

(** The surface: sizes within 64 bits. *)
Lemma loft_surface (P : list (pt R)) (ku kv : list R) nu nv p q : (p <= 12)%nat -> (q <= 24)%nat -> knots_ok ku nu p -> knots_ok kv nv q -> length P = (nu * nv)%nat ->
  (Z.of_nat (length ku) < 2 ^ 64)%Z -> (Z.of_nat (length kv) < 2 ^ 64)%Z -> (Z.of_nat (length P) < 2 ^ 64)%Z ->
  exists s, mk_surf P ku kv p q = Ok s /\ evaluable_surface eps s.
Proof.
  intros Hp Hq (Lu & Hu & Nu & _) (Lv & Hv & Nv & _) LP B1 B2 B3. rewrite (mk_surf_accepts eps); [eexists; split; [reflexivity|left; cbn [s_degU s_degV]; lia]|lia|lia|exact Nu|exact Nv| |auto|auto|auto].
  rewrite LP. f_equal; lia.
Qed.

Lemma loft_returns lu dim c0 rest (cs := c0 :: rest) (v : list R) q : 0 < eps -> complete_solver lu -> (0 < dim)%nat ->
  loftable eps c0 cs -> length v = length cs -> (1 <= q <= 24)%nat -> (2 <= length cs)%nat -> strictly_increasing v ->
  (Z.of_nat (13 * list_sum (map (fun c => length (c_knots c)) cs) * (length cs + 25)) < 2 ^ 64)%Z ->
  exists s, loft lu dim cs v q = Ok s /\ evaluable_surface eps s.
Proof.
  intros He Hco Hdim Hl Lv Hq Hn Hs Hsz. set (q' := Nat.min q (length cs - 1)).
  destruct (build_simple_spec eps v q' ltac:(lia) ltac:(lia) Hs) as (kv & Ekv & (Lkv & _) & _).
  pose proof (averages_interlaced eps v q' kv ltac:(lia) ltac:(lia) Hs Ekv) as Iv.
  destruct (loft_info_returns lu dim (info_of c0) (map info_of rest) v kv q' He Hco Hdim (sections_info eps c0 rest Hl) (proj2 Hl)) as (P & ku & p & nu & EI & Hp12 & Hlen & Kk & LP);
    try lia; try exact Iv; try (left; lia). { cbn [length]. rewrite map_length. exact Lv. }
  change (info_of c0 :: map info_of rest) with (map info_of cs) in Hlen. rewrite map_map in Hlen.
  change (fun x : curve R => length (knots_of (info_of x))) with (fun c : curve R => length (c_knots c)) in Hlen.
  set (T := list_sum (map (fun c => length (c_knots c)) cs)) in *.
  assert (Lku : length ku = (nu + p + 1)%nat) by apply Kk.
  destruct (interlaced_knots kv q' v ltac:(lia) ltac:(lia) Iv) as (Kv & _).
  destruct (loft_surface P ku kv nu (length v) p q' Hp12 ltac:(lia) Kk Kv LP) as (s & Es & Hes); [nia|nia|nia|]. exists s. split; [|exact Hes].
  unfold loft. rewrite clamp_degree_eq by (cbn [cs length]; lia). cbv zeta. fold q'. rewrite Ekv. cbn [bind].
  exact (eq_trans (f_equal (fun r => let* (P, ku, p) := r in mk_surf P ku kv p q') EI) Es).
Qed.

Lemma loft_auto_returns lu dist dim c0 rest q : let cs := c0 :: rest in 0 < eps -> complete_solver lu -> (0 < dim)%nat -> separates dim dist ->
  loftable eps c0 cs -> (1 <= q <= 24)%nat -> (2 <= length cs)%nat ->
  (forall j c c', nth_error cs j = Some c -> nth_error cs (S j) = Some c' -> sections_differ eps dim c c') ->
  (Z.of_nat (169 * list_sum (map (fun c => length (c_knots c)) cs) * length cs * (length cs + 25)) < 2 ^ 64)%Z ->
  exists s, loft_auto lu (fun l => curve_parametrization dist sqrt l ChordLength false) dim cs q = Ok s /\ evaluable_surface eps s.
Proof.
  intros cs He Hco Hdim Hd Hl Hq Hn Hdiff Hsz.
  destruct (auto_params eps dist dim c0 rest He Hd Hl Hn Hdiff) as (k & us & P0 & us' & v & EU & Eus & LU & Hm & Hlen & Fk & Lk & C0 & Hus & Hin & EV & Lv & Sv & V0 & V1).
  fold cs in EU, Eus, LU, Hm, C0, Hus, Hin, Lv, V1. set (m := list_max (map snd (map info_of cs))) in *.
  set (q' := Nat.min q (length cs - 1)).
  pose proof (clamped_span eps m P0 k He C0) as Hspan.
  destruct (build_simple_spec eps v q' ltac:(lia) ltac:(lia) Sv) as (kv & Ekv & (Lkv & _) & _).
  pose proof (averages_interlaced eps v q' kv ltac:(lia) ltac:(lia) Sv Ekv) as Iv.
  assert (HA : forall c, In c ((P0, k, m) :: us') -> clamped_info eps (snd c) c /\ (snd c <= 12)%nat).
  { intros c Hc0. assert (Hc : In c us) by (rewrite Eus; exact Hc0). destruct (Hin c Hc) as (P' & -> & A & _). split; [exact A|exact Hm]. }
  assert (HB : knots_apart eps (knots_of (P0, k, m)) ((P0, k, m) :: us')).
  { intros c c' x y Hc0 Hc0' Hx Hy. assert (Hc : In c us) by (rewrite Eus; exact Hc0). assert (Hc' : In c' us) by (rewrite Eus; exact Hc0').
    destruct (Hin c Hc) as (P' & -> & (_ & U & M & CK & EK1 & _) & _). destruct (Hin c' Hc') as (P'' & -> & _ & _).
    unfold knots_of in *. cbn [fst snd] in *. rewrite !rescale_id by lra. rewrite EK1 in Hx, Hy. apply repeat_each_In in Hx, Hy. apply (spaced_apart eps U); auto. apply CK. }
  destruct (loft_info_returns lu dim (P0, k, m) us' v kv q' He Hco Hdim HA HB) as (P & ku & p & nu & EI & Hp12 & Hlen2 & Kk & LP);
    try lia; try exact Iv; try (left; lia). { change (length v = length ((P0, k, m) :: us')). transitivity (length us); [lia|]. exact (f_equal (@length _) Eus). }
  assert (EI' : loft_info lu dim us v kv q' = Ok (P, ku, p)) by exact (eq_trans (f_equal (fun l => loft_info lu dim l v kv q') Eus) EI).
  fold cs in Hlen. set (T := list_sum (map (fun c => length (c_knots c)) cs)) in *.
  assert (Hsum : (list_sum (map (fun c => length (knots_of c)) ((P0, k, m) :: us')) = length cs * length k)%nat).
  { transitivity (list_sum (map (fun c => length (knots_of c)) us)); [exact (f_equal (fun l => list_sum (map (fun c => length (knots_of c)) l)) (eq_sym Eus))|].
    rewrite <- LU. clear - Hin. induction us as [|c us IH]; [reflexivity|]. cbn [map list_sum fold_right length].
    destruct (Hin c (or_introl eq_refl)) as (P' & -> & _). fold (list_sum (map (fun c => length (knots_of c)) us)).
    rewrite IH by (intros c Hc; apply Hin; right; exact Hc). reflexivity. }
  rewrite Hsum in Hlen2. assert (Lku : length ku = (nu + p + 1)%nat) by apply Kk.
  destruct (interlaced_knots kv q' v ltac:(lia) ltac:(lia) Iv) as (Kv & _).
  destruct (loft_surface P ku kv nu (length v) p q' Hp12 ltac:(lia) Kk Kv LP) as (s & Es & Hes); [nia|nia|nia|]. exists s. split; [|exact Hes].
  unfold loft_auto. apply bind_inv in EU as (us1 & E1 & E2).
  refine (eq_trans (f_equal (fun r => let* us := r in _) E1) _). cbn [bind].
  refine (eq_trans (f_equal (fun r => let* us := r in _) E2) _). cbn [bind].
  refine (eq_trans (f_equal (fun r => let* v := r in _) EV) _). cbn [bind].
  rewrite clamp_degree_eq, LU by (rewrite LU; lia). fold q'. cbv zeta. rewrite Ekv. cbn [bind].
  exact (eq_trans (f_equal (fun r => let* (P, ku, p) := r in mk_surf P ku kv p q') EI') Es).
Qed.

(** ** Surfaces from constraints *)
Lemma constraint_poles_returns lu dim (Q : list (@scons R)) (ku kv : list R) n m p q : complete_solver lu -> knots_ok ku n p -> knots_ok kv m q ->
  evaluable2 eps ku n p kv m q -> length Q = (n * m)%nat -> (forall c, In c Q -> in_rect ku n p kv m q (sc_u c) (sc_v c)) ->
  determine eps Q ku kv p q ->
  exists P, surf_constraint_poles lu dim Q ku kv p q = Ok P /\ length P = length Q.
Proof.
  intros (_ & Hco) Hku Hkv Hev LQ HQ Hdet. unfold surf_constraint_poles.
  destruct (surf_matrix_ok eps ku kv n m p q Hku Hkv Hev Q HQ) as (N & EN & RN & CN & VN).
  rewrite LQ, EN. cbn [bind]. assert (Hn : (0 < n)%nat) by (destruct Hku as (_ & H & _); lia).
  match goal with |- context [mapM ?f (seq 0 dim)] => destruct (mapM_all_ok f (seq 0 dim)) as (X & EX) end.
  - intros d _. apply Hco; [lia|rewrite map_length; lia|]. rewrite RN. intros x Hx j Hj.
    set (P := map (fun i (_ : nat) => x i) (seq 0 (length Q)) : list (pt R)).
    assert (LP : length P = length Q) by (unfold P; rewrite map_length, seq_length; reflexivity).
    assert (HP : forall i, (i < length Q)%nat -> nth i P (fun _ => 0) 0%nat = x i) by (intros i Hi; unfold P; rewrite nth_map_seq by exact Hi; reflexivity).
    rewrite <- HP by exact Hj. apply Hdet; [exact LP| |exact Hj].
    intros c Hc. destruct (surf_rv eps ku kv n m p q Hku Hkv Hev P (sc_u c) (sc_v c) (sc_du c) (sc_dv c) ltac:(lia) (HQ c Hc)) as (z & Ez & Vz).
    exists z. split; [exact Ez|]. rewrite Vz. apply In_nth_error in Hc as (k & Hk).
    rewrite <- (Hx k) by (apply nth_error_Some; rewrite Hk; discriminate). rewrite LQ, sumn_grid by exact Hn.
    apply sumn_ext. intros j' Hj'. rewrite <- sumn_scal. apply sumn_ext. intros i Hi. rewrite (VN k c i j' Hk Hi Hj').
    unfold pole. rewrite HP by nia. ring.
  - rewrite EX. cbn [bind]. eexists. split; [reflexivity|]. unfold poles_of_columns. rewrite map_length, seq_length. reflexivity.
Qed.

Lemma surf_constraints_returns lu dim (Q : list (@scons R)) nu nv p q u1 u2 v1 v2 mu mv :
  complete_solver lu -> 0 <= eps -> (p < nu)%nat -> (q < nv)%nat -> (p <= 24)%nat -> (q <= 24)%nat -> length Q = (nu * nv)%nat -> u1 < u2 -> v1 < v2 ->
  (Z.of_nat (nu + p + 1) < 2 ^ 64)%Z -> (Z.of_nat (nv + q + 1) < 2 ^ 64)%Z -> (Z.of_nat (nu * nv) < 2 ^ 64)%Z ->
  (0 < mu)%nat -> (0 < mv)%nat -> ((nu - (p + 1)) mod mu = 0)%nat -> ((nv - (q + 1)) mod mv = 0)%nat ->
  (forall c, In c Q -> u1 <= sc_u c <= u2 /\ v1 <= sc_v c <= v2) ->
  (forall ku kv, build_mult_flat_knots_range u1 u2 (2 + (nu - (p + 1)) / mu) p mu = Ok ku ->
     build_mult_flat_knots_range v1 v2 (2 + (nv - (q + 1)) / mv) q mv = Ok kv -> determine eps Q ku kv p q) ->
  exists s, interpolate_surf_constraints lu dim Q nv p q u1 u2 v1 v2 mu mv = Ok s /\ evaluable_surface eps s.
Proof.
  intros Hco He Hp Hq Hp24 Hq24 LQ Hu Hv B1 B2 B3 Hmu Hmv Dmu Dmv Hin Hdet. unfold interpolate_surf_constraints.
  assert (Hne : forall f : @scons R -> R, map f Q <> []) by (intros f; destruct Q; [cbn [length] in LQ; nia|discriminate]).
  destruct (first_some nltb _ (Hne sc_u)) as (a1 & A1). destruct (first_some (fun a b => nltb b a) _ (Hne sc_u)) as (a2 & A2).
  destruct (first_some nltb _ (Hne sc_v)) as (b1 & C1). destruct (first_some (fun a b => nltb b a) _ (Hne sc_v)) as (b2 & C2).
  rewrite A1, A2, C1, C2. cbn [bind].
  apply (first_min eps) in A1 as (I1 & _). apply (first_max eps) in A2 as (I2 & _). apply (first_min eps) in C1 as (I3 & _). apply (first_max eps) in C2 as (I4 & _).
  assert (Hb : (nltb a1 u1 || nltb u2 a2 || nltb b1 v1 || nltb v2 b2) = false).
  { apply in_map_iff in I1 as (c1 & <- & I1). apply in_map_iff in I2 as (c2 & <- & I2).
    apply in_map_iff in I3 as (c3 & <- & I3). apply in_map_iff in I4 as (c4 & <- & I4).
    pose proof (Hin _ I1). pose proof (Hin _ I2). pose proof (Hin _ I3). pose proof (Hin _ I4). nsimp.
    destruct (Rltb_spec (sc_u c1) u1); [lra|]. destruct (Rltb_spec u2 (sc_u c2)); [lra|].
    destruct (Rltb_spec (sc_v c3) v1); [lra|]. destruct (Rltb_spec v2 (sc_v c4)); [lra|]. reflexivity. }
  rewrite Hb. destruct (Nat.eqb_spec nv 0); [lia|]. rewrite LQ, Nat.mod_mul, Nat.div_mul by lia. cbn [Nat.eqb negb].
  rewrite !subi_ok by lia. cbn [bind]. destruct (Nat.eqb_spec mu 0); [lia|]. destruct (Nat.eqb_spec mv 0); [lia|]. cbn [orb].
  destruct (build_mult_range_spec eps u1 u2 (2 + (nu - (p + 1)) / mu) p mu ltac:(lia) Hu) as (ku & Eku & _).
  destruct (build_mult_range_spec eps v1 v2 (2 + (nv - (q + 1)) / mv) q mv ltac:(lia) Hv) as (kv & Ekv & _).
  destruct (mult_knots eps u1 u2 nu p mu ku Hu Hp Hmu Eku) as (_ & Kku). destruct (mult_knots eps v1 v2 nv q mv kv Hv Hq Hmv Ekv) as (_ & Kkv).
  destruct (Kku Dmu) as (Ku & Ku1 & Ku2 & _). destruct (Kkv Dmv) as (Kv & Kv1 & Kv2 & _).
  assert (Lku : length ku = (nu + p + 1)%nat) by apply Ku. assert (Lkv : length kv = (nv + q + 1)%nat) by apply Kv.
  rewrite Eku, Ekv. cbn [bind]. unfold npoles. rewrite !subi_ok by lia. cbn [bind].
  replace (length ku - (p + 1))%nat with nu by lia. replace (length kv - (q + 1))%nat with nv by lia. rewrite !Nat.eqb_refl. cbn [negb].
  destruct (constraint_poles_returns lu dim Q ku kv nu nv p q Hco Ku Kv) as (P & EP & LP); [left; lia|exact LQ| |apply Hdet; assumption|].
  { intros c Hc. unfold in_rect. rewrite Ku1, Ku2, Kv1, Kv2. apply Hin, Hc. }
  rewrite EP. cbn [bind]. rewrite (mk_surf_accepts eps).
  - eexists. split; [reflexivity|]. left. cbn [s_degU s_degV]. lia.
  - lia. - lia. - apply Ku. - apply Kv.
  - rewrite LP, LQ. f_equal; lia.
  - rewrite Lku. assumption. - rewrite Lkv. assumption. - rewrite LP, LQ. assumption.
Qed.
End AtR.
