(** Transfinite interpolation: the whole mesh. *)
From Coq Require Import List Arith Reals Lia Lra Bool.
From Verif Require Import Model_Base Model_Curve Model_Interp Model_Wrap Model_Tfi
  Spec_Base Spec_Basis Spec_Knots Spec_Interp Spec_Tfi Proof_Base Proof_Interp Proof_Interp2 Proof_Interp4 Proof_Eval Proof_Ctor Proof_Tfi.
Import ListNotations.
Local Open Scope R_scope.

Section AtR.
Variable eps : R.
Local Hint Extern 0 (Num R) => exact (NumR eps) : typeclass_instances.

Lemma node_numbers_inv n_iso arr : (forall n, In n n_iso -> (1 <= n)%nat) -> node_numbers n_iso = Ok arr ->
  length arr = S (length n_iso) /\ forall i, (i <= length n_iso)%nat -> kn arr i = INR (hard n_iso i).
Proof.
  intros Hn E. unfold node_numbers in E.
  assert (H : length arr = S (0 + length n_iso) /\ forall i, (i <= 0 + length n_iso)%nat -> kn arr i = INR (hard n_iso i)); [|exact H].
  refine (for_postR (fun i arr => length arr = S i /\ forall a, (a <= i)%nat -> kn arr a = INR (hard n_iso a)) _ _ _ _ _ _ E _).
  - intros i a a' Hi Eb (L & V). apply bind_inv in Eb as (b & E1 & Eb). apply bind_inv in Eb as (n & E2 & Eb). 
    rewrite nofnat_R in Eb. injection Eb as <-.
    apply get_ok_nth in E2. rewrite (back_kn a) in E1 by lia. injection E1 as <-.
    split; [rewrite app_length; cbn [length]; lia|]. intros c Hc. unfold kn.
    destruct (Nat.eq_dec c (S i)) as [->|N].
    + rewrite app_nth2, L, Nat.sub_diag by lia. cbn [nth]. nsimp. rewrite (hard_S _ _ _ E2).
      replace (S i - 1)%nat with i by lia. fold (kn a i); rewrite V by lia.
      rewrite plus_INR, minus_INR by (apply Hn; apply (nth_error_In _ _ E2)). simpl INR. ring.
    + rewrite app_nth1 by lia. apply V. lia.
  - split; [reflexivity|]. intros a Ha. assert (a = 0%nat) as -> by lia. rewrite hard_0. reflexivity.
Qed.

Lemma grid_loop_inv (node : nat -> nat -> result (pt R)) ni nj pts pts' : length pts = (ni * nj)%nat ->
  for_ 0 ni (fun i_ pts => for_ 0 nj (fun j_ pts => let* v := node i_ j_ in set pts (j_ + nj * i_) v) pts) pts = Ok pts' ->
  length pts' = (ni * nj)%nat /\ forall i j, (i < ni)%nat -> (j < nj)%nat ->
    exists v, node i j = Ok v /\ nth_error pts' (j + nj * i) = Some v.
Proof.
  intros HL E.
  set (I := fun i (p : list (pt R)) => length p = (ni * nj)%nat /\ forall a b, (a < i)%nat -> (b < nj)%nat ->
    exists v, node a b = Ok v /\ nth_error p (b + nj * a) = Some v).
  assert (H : I (0 + ni)%nat pts'); [|exact H].
  refine (for_postR I _ _ _ _ _ _ E _); [|split; [exact HL|intros; lia]].
  intros i p p' Hi Eb (L & V).
  set (J := fun j (q : list (pt R)) => length q = (ni * nj)%nat /\ (forall a b, (a < i)%nat -> (b < nj)%nat ->
    exists v, node a b = Ok v /\ nth_error q (b + nj * a) = Some v) /\
    forall b, (b < j)%nat -> exists v, node i b = Ok v /\ nth_error q (b + nj * i) = Some v).
  assert (HJ : J (0 + nj)%nat p').
  { refine (for_postR J _ _ _ _ _ _ Eb _); [|split; [exact L|split; [exact V|intros; lia]]].
    intros j q q' Hj Ej (L1 & V1 & V2). apply bind_inv in Ej as (v & Ev & Ej).
    apply set_inv in Ej as (Hlt & ->).
    assert (Hne : forall a b, (b < nj)%nat -> (a <> i \/ b <> j) -> (b + nj * a <> j + nj * i)%nat).
    { intros a b Hb Hab Heq. destruct (Nat.eq_dec a i) as [->|Na]; [lia|].
      destruct (Nat.lt_ge_cases a i); [nia|assert (i < a)%nat by lia; nia]. }
    split; [rewrite upd_length; exact L1|]. split.
    - intros a b Ha Hb. destruct (V1 a b Ha Hb) as (w & Ew & Nw). exists w. split; [exact Ew|].
      rewrite nth_error_upd. destruct (Nat.eqb_spec (j + nj * i) (b + nj * a)) as [Eq|]; [|exact Nw].
      exfalso. apply (Hne a b Hb); [lia|congruence].
    - intros b Hb. destruct (Nat.eq_dec b j) as [->|Nb].
      + exists v. split; [exact Ev|]. rewrite nth_error_upd, Nat.eqb_refl. destruct (Nat.ltb_spec (j + nj * i) (length q)); [reflexivity|lia].
      + destruct (V2 b ltac:(lia)) as (w & Ew & Nw). exists w. split; [exact Ew|].
        rewrite nth_error_upd. destruct (Nat.eqb_spec (j + nj * i) (b + nj * i)) as [Eq|]; [lia|exact Nw]. }
  destruct HJ as (L1 & V1 & V2). split; [exact L1|]. intros a b Ha Hb.
  destruct (Nat.eq_dec a i) as [->|Na]; [apply V2; lia|apply V1; [lia|exact Hb]].
Qed.

Lemma crossings_inv P Q isoK isoE ksi eth p_srf X : crossings P Q isoK isoE ksi eth p_srf = Ok X ->
  forall i j n m, (i < length ksi)%nat -> (j < length eth)%nat -> (n < P)%nat -> (m < Q)%nat ->
    exists v, at4 X i j n m = Ok v /\
      match p_srf with
      | Some s => s (kn ksi i) (kn eth j) m n = Ok v
      | None => (m = 0%nat -> exists ck, nth_error isoK i = Some ck /\ g_value ck (kn eth j) n = Ok v) /\
                (m <> 0%nat -> n = 0%nat -> exists ce, nth_error isoE j = Some ce /\ g_value ce (kn ksi i) m = Ok v)
      end.
Proof.
  intros E i j n m Hi Hj Hn Hm. unfold crossings in E.
  destruct (mapM_seq _ _ _ E) as (_ & H1). destruct (H1 i Hi) as (a & Ea & E1).
  destruct (mapM_seq _ _ _ E1) as (_ & H2). destruct (H2 j Hj) as (b & Eb & E2).
  destruct (mapM_seq _ _ _ E2) as (_ & H3). destruct (H3 n Hn) as (d & Ed & E3).
  destruct (mapM_seq _ _ _ E3) as (_ & H4). destruct (H4 m Hm) as (v & Ev & E4).
  exists v. split.
  { unfold at4. rewrite (get_of_nth _ _ _ Ea). cbn [bind]. rewrite (get_of_nth _ _ _ Eb). cbn [bind].
    rewrite (get_of_nth _ _ _ Ed). cbn [bind]. apply get_of_nth, Ev. }
  apply bind_inv in E4 as (x & Ex & E4). apply bind_inv in E4 as (y & Ey & E4).
  apply get_kn_inv in Ex as (_ & ->). apply get_kn_inv in Ey as (_ & ->).
  destruct p_srf as [s|]; [exact E4|]. split.
  - intros ->. rewrite Nat.eqb_refl in E4. apply bind_inv in E4 as (ck & Ec & E4). exists ck. split; [apply get_ok_nth, Ec|exact E4].
  - intros Nm ->. destruct (Nat.eqb_spec m 0); [contradiction|]. rewrite Nat.eqb_refl in E4.
    apply bind_inv in E4 as (ce & Ec & E4). exists ce. split; [apply get_ok_nth, Ec|exact E4].
Qed.

(** The node numbering function at a hard index *)
Lemma numbering_ok sparse u n_iso arr f : exact_solver sparse -> 0 <= eps -> (2 <= length u)%nat ->
  (length n_iso + 1 = length u)%nat -> (forall n, In n n_iso -> (2 <= n)%nat) ->
  node_numbers n_iso = Ok arr -> interpolate_fn sparse u arr 1 = Ok f ->
  forall i, (i < length u)%nat -> fvalue f (INR (hard n_iso i)) = Ok (kn u i).
Proof.
  intros Hex He HL HN H2 Ea Ef i Hi.
  destruct (node_numbers_inv n_iso arr) as (LA & VA); [intros n Hn; specialize (H2 n Hn); lia|exact Ea|].
  unfold interpolate_fn in Ef.
  destruct (interpolate_ok eps sparse 1 (map (fun x => fun _ : nat => x) u) arr 1 f Hex He (le_n 1)) as (_ & _ & _ & HV).
  - rewrite map_length. lia.
  - rewrite map_length. lia.
  - intros a b Hab Hb. rewrite !VA by lia. apply lt_INR, hard_lt; [exact H2|exact Hab|lia].
  - exact Ef.
  - left. lia.
  - rewrite map_length in HV. specialize (HV i Hi). change (nth i arr 0) with (kn arr i) in HV. rewrite VA in HV by lia.
    refine (fvalue_passes eps f _ _ _ HV _).
    rewrite (nth_indep _ _ ((fun x => fun _ : nat => x) 0)) by (rewrite map_length; exact Hi).
    rewrite (map_nth (fun x => fun _ : nat => x)). reflexivity.
Qed.

Lemma tv_ok {A} (d : A) r v : r = Ok v -> tv d r = v.
Proof. intros ->. reflexivity. Qed.

Lemma blendv_hard sparse P sc ksi fs : exact_solver sparse -> 0 <= eps -> (1 <= P)%nat -> (P + sc <= 12)%nat ->
  (2 <= length ksi)%nat -> strictly_increasing ksi -> build_tfi_blend sparse P sc ksi = Ok fs ->
  forall i i' n, (i < length ksi)%nat -> (i' < length ksi)%nat -> (n < P)%nat ->
  tv 0 (blendv eps fs i' n (kn ksi i)) = dl i i' n.
Proof.
  intros Hex He HP Hnc HL Hs E i i' n Hi Hi' Hn.
  destruct (blend_kronecker eps sparse P sc ksi fs Hex He HP Hnc HL Hs E i' n Hi' Hn) as (l & f & El & Ef & HV).
  unfold blendv. rewrite (get_of_nth _ _ _ El). cbn [bind]. rewrite (get_of_nth _ _ _ Ef). cbn [bind].
  rewrite (HV i Hi). cbn [tv]. unfold dl. rewrite (Nat.eqb_sym i i'). reflexivity.
Qed.

Variable abs_curv : gcurve R -> R -> R -> result (R * (R -> result R)).

Theorem tfi_ok sparse dim P Q sc isoK isoE ksi eth nK nE p_srf pts nj ni :
  exact_solver sparse -> 0 <= eps -> (1 <= P)%nat -> (1 <= Q)%nat -> (P + sc <= 12)%nat -> (Q + sc <= 12)%nat ->
  (2 <= length ksi)%nat -> (2 <= length eth)%nat -> length isoK = length ksi -> length isoE = length eth ->
  strictly_increasing ksi -> strictly_increasing eth -> lattice dim P Q isoK isoE ksi eth p_srf ->
  tfi_mesh abs_curv sparse P Q sc isoK isoE ksi eth nK nE p_srf = Ok (pts, nj, ni) ->
  exists tK tE, length tK = length isoK /\ length tE = length isoE /\
    (forall i t, nth_error tK i = Some t -> length t = nj /\ distribution nK eth t) /\
    (forall j t, nth_error tE j = Some t -> length t = ni /\ distribution nE ksi t) /\
    length pts = (ni * nj)%nat /\
    (forall i j_ ck t, nth_error isoK i = Some ck -> nth_error tK i = Some t -> (j_ < nj)%nat ->
       agree dim (get pts (j_ + nj * hard nE i)) (g_value ck (kn t j_) 0)) /\
    (forall j i_ ce t, nth_error isoE j = Some ce -> nth_error tE j = Some t -> (i_ < ni)%nat ->
       agree dim (get pts (hard nK j + nj * i_)) (g_value ce (kn t i_) 0)).
Proof.
  intros Hex He HP HQ HcP HcQ HLk HLe HK HE HsK HsE HLat E. unfold tfi_mesh in E.
  apply bind_inv in E as (XK & EXK & E). apply bind_inv in E as (XE & EXE & E). apply bind_inv in E as (X4 & EX4 & E).
  apply bind_inv in E as (arri & Eai & E). apply bind_inv in E as (arrj & Eaj & E).
  apply bind_inv in E as (fk & Efk & E). apply bind_inv in E as (fe & Efe & E).
  apply bind_inv in E as (pts' & Epts & E). injection E as -> <- <-.
  destruct (msh_set_inv eps abs_curv P isoK nK eth XK HLe EXK) as (tK & LtK & _ & LXK & LnK & N2K & DK & VK).
  destruct (msh_set_inv eps abs_curv Q isoE nE ksi XE HLk EXE) as (tE & LtE & _ & LXE & LnE & N2E & DE & VE).
  exists tK, tE. split; [exact LtK|]. split; [exact LtE|].
  split. { intros i t Ht. pose proof (DK i t Ht) as D. split; [|exact D]. rewrite LXK. exact (proj1 D). }
  split. { intros i t Ht. pose proof (DE i t Ht) as D. split; [|exact D]. rewrite LXE. exact (proj1 D). }
  unfold tfi_mesh_2d in Epts. apply bind_inv in Epts as (alpha & Eal & Epts). apply bind_inv in Epts as (beta & Ebe & Epts).
  destruct (length XE <? 2)%nat; [discriminate|].
  destruct (grid_loop_inv (fun i_ j_ => tfi_node P Q alpha beta XK XE X4 (length ksi) (length eth) fk fe i_ j_)
    (length XE) (length XK) _ _ (filled_length _ _) Epts) as (LP & VP).
  split; [exact LP|]. split.
  - intros i j_ ck t Hck Ht Hj.
    assert (Hi : (i < length ksi)%nat) by (rewrite <- HK; apply nth_error_Some; congruence).
    assert (Hh : (hard nE i < length XE)%nat).
    { rewrite LXE. pose proof (hard_mono nE i (length nE) ltac:(lia)). lia. }
    destruct (VP (hard nE i) j_ Hh Hj) as (v & Ev & Nv). cbn beta in Ev.
    destruct (node_value eps _ _ _ _ _ _ _ _ _ _ _ _ _ _ Ev) as (x & y & Ex & Ey & Hv).
    rewrite (numbering_ok sparse ksi nE arri fk Hex He HLk LnE N2E Eai Efk i Hi) in Ex. injection Ex as <-.
    destruct (VK i ck t j_ 0%nat Hck Ht Hj HP) as (w & Ew & Gw).
    exists v, w. split; [apply get_of_nth, Nv|]. split; [exact Gw|]. intros c Hc. rewrite (Hv c).
    rewrite <- (tv_ok (fun _ => 0) _ _ Ew).
    rewrite (sumn_ext (length ksi) _ (fun i' => sumn P (fun n => dl i i' n * tv (fun _ => 0) (at3 XK j_ i' n) c))).
    2:{ intros i' Hi'. apply sumn_ext. intros n Hn. rewrite (blendv_hard sparse P sc ksi alpha) by assumption. reflexivity. }
    rewrite (sumn_ext (length ksi) (fun i0 => sumn (length eth) _) (fun i' => sumn (length eth) (fun j => sumn P (fun n => sumn Q (fun m =>
      dl i i' n * tv 0 (blendv eps beta j m y) * tv (fun _ => 0) (at4 X4 i' j n m) c))))).
    2:{ intros i' Hi'. apply sumn_ext. intros j Hj'. apply sumn_ext. intros n Hn. apply sumn_ext. intros m Hm.
        rewrite (blendv_hard sparse P sc ksi alpha) by assumption. reflexivity. }
    apply (hard_ksi (length ksi) P (length eth) Q i (fun i' n => tv (fun _ => 0) (at3 XK j_ i' n) c)
      (fun j m => tv 0 (blendv eps beta j m y)) (fun j m => tv (fun _ => 0) (at3 XE (hard nE i) j m) c)
      (fun i' j n m => tv (fun _ => 0) (at4 X4 i' j n m) c) Hi HP).
    intros j m Hj' Hm. destruct (crossings_inv P Q _ _ _ _ _ _ EX4 i j 0%nat m Hi Hj' HP Hm) as (q & Eq & Sq).
    rewrite (tv_ok _ _ _ Eq).
    destruct (nth_error isoE j) as [ce|] eqn:Ece; [|apply nth_error_None in Ece; lia].
    destruct (nth_error tE j) as [te|] eqn:Ete; [|apply nth_error_None in Ete; lia].
    destruct (VE j ce te (hard nE i) m Ece Ete Hh Hm) as (r & Er & Gr). rewrite (tv_ok _ _ _ Er).
    destruct (DE j te Ete) as (_ & _ & De). rewrite (De i Hi) in Gr.
    specialize (HLat i j ck ce Hck Ece Hi Hj'). destruct p_srf as [s|].
    + destruct (proj2 HLat m Hm) as (a & b & Ea & Eb & Hab). rewrite Ea in Sq. injection Sq as <-.
      rewrite Eb in Gr. injection Gr as <-. apply Hab, Hc.
    + destruct HLat as (a & b & Ea & Eb & Hab). destruct (Nat.eq_dec m 0) as [->|Nm].
      * destruct (proj1 Sq eq_refl) as (ck' & Eck' & Gq). rewrite Hck in Eck'. injection Eck' as <-.
        rewrite Ea in Gq. injection Gq as <-. rewrite Eb in Gr. injection Gr as <-. apply Hab, Hc.
      * destruct (proj2 Sq Nm eq_refl) as (ce' & Ece' & Gq). congruence.
  - intros j i_ ce t Hce Ht Hi_.
    assert (Hj : (j < length eth)%nat) by (rewrite <- HE; apply nth_error_Some; congruence).
    assert (Hh : (hard nK j < length XK)%nat).
    { rewrite LXK. pose proof (hard_mono nK j (length nK) ltac:(lia)). lia. }
    destruct (VP i_ (hard nK j) Hi_ Hh) as (v & Ev & Nv). cbn beta in Ev.
    destruct (node_value eps _ _ _ _ _ _ _ _ _ _ _ _ _ _ Ev) as (x & y & Ex & Ey & Hv).
    rewrite (numbering_ok sparse eth nK arrj fe Hex He HLe LnK N2K Eaj Efe j Hj) in Ey. injection Ey as <-.
    destruct (VE j ce t i_ 0%nat Hce Ht Hi_ HQ) as (w & Ew & Gw).
    exists v, w. split; [apply get_of_nth, Nv|]. split; [exact Gw|]. intros c Hc. rewrite (Hv c).
    rewrite <- (tv_ok (fun _ => 0) _ _ Ew).
    rewrite (sumn_ext (length eth) _ (fun j' => sumn Q (fun m => dl j j' m * tv (fun _ => 0) (at3 XE i_ j' m) c))).
    2:{ intros i' Hi'. apply sumn_ext. intros n Hn. rewrite (blendv_hard sparse Q sc eth beta) by assumption. reflexivity. }
    rewrite (sumn_ext (length ksi) (fun i0 => sumn (length eth) _) (fun i => sumn (length eth) (fun j' => sumn P (fun n => sumn Q (fun m =>
      tv 0 (blendv eps alpha i n x) * dl j j' m * tv (fun _ => 0) (at4 X4 i j' n m) c))))).
    2:{ intros i' Hi'. apply sumn_ext. intros j' Hj'. apply sumn_ext. intros n Hn. apply sumn_ext. intros m Hm.
        rewrite (blendv_hard sparse Q sc eth beta) by assumption. reflexivity. }
    apply (hard_eth (length ksi) P (length eth) Q j (fun j' m => tv (fun _ => 0) (at3 XE i_ j' m) c)
      (fun i n => tv 0 (blendv eps alpha i n x)) (fun i n => tv (fun _ => 0) (at3 XK (hard nK j) i n) c)
      (fun i j' n m => tv (fun _ => 0) (at4 X4 i j' n m) c) Hj HQ).
    intros i n Hi Hn. destruct (crossings_inv P Q _ _ _ _ _ _ EX4 i j n 0%nat Hi Hj Hn HQ) as (q & Eq & Sq).
    rewrite (tv_ok _ _ _ Eq).
    destruct (nth_error isoK i) as [ck|] eqn:Eck; [|apply nth_error_None in Eck; lia].
    destruct (nth_error tK i) as [tk|] eqn:Etk; [|apply nth_error_None in Etk; lia].
    destruct (VK i ck tk (hard nK j) n Eck Etk Hh Hn) as (r & Er & Gr). rewrite (tv_ok _ _ _ Er).
    destruct (DK i tk Etk) as (_ & _ & Dk). rewrite (Dk j Hj) in Gr.
    specialize (HLat i j ck ce Eck Hce Hi Hj). destruct p_srf as [s|].
    + destruct (proj1 HLat n Hn) as (a & b & Ea & Eb & Hab). rewrite Ea in Sq. injection Sq as <-.
      rewrite Eb in Gr. injection Gr as <-. apply Hab, Hc.
    + destruct (proj1 Sq eq_refl) as (ck' & Eck' & Gq). congruence.
Qed.
End AtR.

(** ** A lattice of three by three curves on a curved patch *)
Definition law (c : gcurve R) (u1 u2 : R) : result (R * (R -> result R)) := Ok (u2 - u1, fun m => Ok (u1 + m)).
Definition patch (x y : R) : pt R := fun c => match c with 0%nat => x | 1%nat => y | _ => x * x * y end.
Definition along (f : R -> pt R) : gcurve R :=
  mkg 0 2 (fun t d => match d with 0%nat => Ok (f t) | _ => Throw OutOfRangeError end).
Definition three : list (R -> pt R) -> list (gcurve R) := map along.
Definition patch_ksi : list (gcurve R) := map (fun x => along (fun y => patch x y)) [0; 1; 2].
Definition patch_eth : list (gcurve R) := map (fun y => along (fun x => patch x y)) [0; 1; 2].

Section Ex.
Variable eps : R.
Hypothesis He : 0 < eps.
Local Hint Extern 0 (Num R) => exact (NumR eps) : typeclass_instances.

Lemma uniform2 crv u1 u2 : u1 <= u2 -> uniform_distrib_params law crv u1 u2 2 = Ok [u1; u2].
Proof.
  intros H. unfold uniform_distrib_params, law. cbn [bind].
  rewrite (divc_ok eps); [|rewrite nofnat_R; nsimp; simpl; lra]. cbn [bind for_ app].
  assert (E : is_sorted [u1; u2] = true); [|rewrite E; reflexivity].
  unfold is_sorted. nsimp. destruct (Rltb_spec u2 u1); [lra|reflexivity].
Qed.

Lemma params3 crv : curve_params law crv [2; 2]%nat [0; 1; 2] = Ok [0; 1; 2].
Proof.
  unfold curve_params. cbn [length Nat.sub for_ get nth_error bind Nat.add].
  rewrite !uniform2 by lra. reflexivity.
Qed.

Lemma msh3 (fs : list (R -> pt R)) : fs <> [] ->
  exists X, msh_curves_set law 1 (map along fs) [2; 2]%nat [0; 1; 2] = Ok X.
Proof.
  intros Hf. unfold msh_curves_set. cbn [length Nat.add Nat.eqb negb].
  assert (E : check_bounds (map along fs) = Ok true).
  { destruct fs as [|f fs]; [congruence|]. cbn [map check_bounds]. f_equal. apply forallb_forall. intros c Hc.
    apply in_map_iff in Hc as (g & <- & _). cbn [along g_lo g_hi]. rewrite !nabs_R. nsimp.
    unfold Rminus. rewrite !Rplus_opp_r, Rabs_R0. destruct (Rltb_spec 0 eps); [reflexivity|lra]. }
  rewrite E. cbn [bind negb]. rewrite (mapM_ok _ (fun _ => [0; 1; 2])) by (intros; apply params3). cbn [bind].
  assert (E0 : get (map (fun _ : gcurve R => [0; 1; 2]) (map along fs)) 0 = Ok [0; 1; 2]).
  { destruct fs; [congruence|reflexivity]. }
  rewrite E0. cbn [bind]. apply mapM_all_ok. intros i_ Hi. apply mapM_all_ok. intros i Hi'.
  apply in_seq in Hi, Hi'. cbn [length] in Hi. rewrite map_length in Hi'.
  destruct (nth_error fs i) as [f|] eqn:Ef; [|apply nth_error_None in Ef; lia].
  rewrite (get_of_nth (map along fs) i (along f)) by (rewrite nth_error_map, Ef; reflexivity). cbn [bind].
  rewrite (get_of_nth _ i [0; 1; 2]) by (rewrite !nth_error_map, Ef; reflexivity). cbn [bind seq mapM].
  destruct i_ as [|[|[|]]]; [| | |lia]; cbn; eexists; reflexivity.
Qed.

Lemma blend3 : exists fs, build_tfi_blend ident_solver 1 0 [0; 1; 2] = Ok fs.
Proof.
  unfold build_tfi_blend. apply mapM_all_ok. intros i _. apply mapM_all_ok. intros n _. cbn [Nat.add length].
  destruct (hermite_ex eps (if ((0 =? i) && (0 =? n))%nat then (fun _ => 1) else pzero)
    (if ((1 =? i) && (0 =? n))%nat then (fun _ => 1) else pzero) (if ((2 =? i) && (0 =? n))%nat then (fun _ => 1) else pzero) 1 ltac:(lra)) as (c & Ec & _).
  exists c. exact Ec.
Qed.

Lemma sq3 : lattice 3 1 1 patch_ksi patch_eth [0; 1; 2] [0; 1; 2] None.
Proof.
  intros i j ck ce Hi Hj Li Lj. cbn [length] in Li, Lj.
  destruct i as [|[|[|]]]; [| | |lia]; injection Hi as <-; (destruct j as [|[|[|]]]; [| | |lia]); injection Hj as <-;
    (do 2 eexists; split; [reflexivity|split; [reflexivity|intros c _; reflexivity]]).
Qed.

Lemma loop_ok {A} lo n (body : nat -> A -> result A) st :
  (forall i s, (lo <= i < lo + n)%nat -> exists s', body i s = Ok s') -> exists s, for_ lo n body st = Ok s.
Proof.
  intros Hb. destruct (for_inv (fun _ _ => True) body lo n st I) as (s & E & _); [|exists s; exact E].
  intros i s Hi _. destruct (Hb i s Hi) as (s' & E). exists s'. split; [exact E|exact I].
Qed.

Lemma tfi_ex : exists pts, tfi_mesh law ident_solver 1 1 0 patch_ksi patch_eth [0; 1; 2] [0; 1; 2] [2; 2]%nat [2; 2]%nat None
  = Ok (pts, 3%nat, 3%nat).
Proof.
  unfold tfi_mesh.
  destruct (msh3 (map (fun x y => patch x y) [0; 1; 2]) ltac:(discriminate)) as (XK & EK).
  destruct (msh3 (map (fun y x => patch x y) [0; 1; 2]) ltac:(discriminate)) as (XE & EE).
  rewrite map_map in EK, EE. change (map _ [0; 1; 2]) with patch_ksi in EK. change (map _ [0; 1; 2]) with patch_eth in EE.
  destruct (msh_set_inv eps law 1 patch_ksi [2; 2]%nat [0; 1; 2] XK (le_S _ _ (le_n 2)) EK) as (tK & LtK & _ & LXK & _ & _ & DK & VK).
  destruct (msh_set_inv eps law 1 patch_eth [2; 2]%nat [0; 1; 2] XE (le_S _ _ (le_n 2)) EE) as (tE & LtE & _ & LXE & _ & _ & DE & VE).
  rewrite EK, EE. cbn [bind]. cbn [length hard Nat.sub Nat.add] in LXK, LXE.
  destruct (crossings 1 1 patch_ksi patch_eth [0; 1; 2] [0; 1; 2] None) as [X4| | |] eqn:EX; try (cbn in EX; discriminate).
  cbn [bind].
  assert (EN : exists arr : list R, node_numbers [2; 2]%nat = Ok arr).
  { unfold node_numbers. eexists. cbn. reflexivity. }
  destruct EN as (arr & EN). rewrite EN. cbn [bind].
  destruct (node_numbers_inv eps [2; 2]%nat arr) as (LA & VA); [intros n [<-|[<-|[]]]; lia|exact EN|]. cbn [length] in LA, VA.
  destruct (polyline eps (map (fun x => fun _ : nat => x) [0; 1; 2]) arr 1 ltac:(lra) ltac:(cbn; lia) LA) as (f & Ef).
  { intros i j Hij Hj. rewrite LA in Hj. rewrite !VA by lia. apply lt_INR, hard_lt; [intros n [<-|[<-|[]]]; lia|exact Hij|cbn [length]; lia]. }
  unfold interpolate_fn. rewrite Ef. cbn [bind].
  pose proof (numbering_ok eps ident_solver [0; 1; 2] [2; 2]%nat arr f ident_exact ltac:(lra) (le_S _ _ (le_n 2)) eq_refl
    ltac:(intros n [<-|[<-|[]]]; lia) EN Ef) as HF.
  assert (HF' : forall i, (i < 3)%nat -> fvalue f (INR i) = Ok (kn [0; 1; 2] i)).
  { intros i Hi. rewrite <- (HF i Hi). destruct i as [|[|[|]]]; [reflexivity..|lia]. }
  unfold tfi_mesh_2d. destruct blend3 as (fs & Efs). rewrite Efs. cbn [bind]. rewrite LXE, LXK. cbn [Nat.ltb Nat.leb length].
  pose proof (blend_kronecker eps ident_solver 1 0 [0; 1; 2] fs ident_exact ltac:(lra) (le_n 1) ltac:(lia) (le_S _ _ (le_n 2)) inc3 Efs) as HB.
  assert (HB' : forall i n x, (i < 3)%nat -> (n < 1)%nat -> (x < 3)%nat -> exists l g v, get fs i = Ok l /\ get l n = Ok g /\ fvalue g (kn [0; 1; 2] x) = Ok v).
  { intros i n x Hi Hn Hx. destruct (HB i n Hi Hn) as (l & g & El & Eg & Hv). exists l, g. eexists.
    split; [apply get_of_nth, El|]. split; [apply get_of_nth, Eg|apply Hv, Hx]. }
  assert (HN : forall i j, (i < 3)%nat -> (j < 3)%nat -> exists v, tfi_node 1 1 fs fs XK XE X4 3 3 f f i j = Ok v).
  { intros i_ j_ Hi Hj. unfold tfi_node. rewrite !nofnat_R, !HF' by assumption. cbn [bind].
    assert (HU : forall g : pt R, exists U, for_ 0 3 (fun i U => for_ 0 1 (fun n U =>
      let* a := (let* l := get fs i in let* h := get l n in fvalue h (kn [0; 1; 2] i_)) in
      let* X := at3 XK j_ i n in Ok (padd U (pscal a X))) U) g = Ok U).
    { intros g. apply loop_ok. intros i s Hi'. apply loop_ok. intros n s' Hn.
      destruct (HB' i n i_ ltac:(lia) ltac:(lia) Hi) as (l & h & v & -> & E2 & E3). cbn [bind]. rewrite E2. cbn [bind]. rewrite E3. cbn [bind].
      destruct (nth_error patch_ksi i) as [ck|] eqn:Eck; [|apply nth_error_None in Eck; cbn in Eck; lia].
      destruct (nth_error tK i) as [tk|] eqn:Etk; [|apply nth_error_None in Etk; rewrite LtK in Etk; cbn in Etk; lia].
      destruct (VK i ck tk j_ n Eck Etk ltac:(lia) ltac:(lia)) as (w & -> & _). cbn [bind]. eexists; reflexivity. }
    assert (HV : forall g : pt R, exists U, for_ 0 3 (fun j V => for_ 0 1 (fun m V =>
      let* b := (let* l := get fs j in let* h := get l m in fvalue h (kn [0; 1; 2] j_)) in
      let* X := at3 XE i_ j m in Ok (padd V (pscal b X))) V) g = Ok U).
    { intros g. apply loop_ok. intros i s Hi'. apply loop_ok. intros n s' Hn.
      destruct (HB' i n j_ ltac:(lia) ltac:(lia) Hj) as (l & h & v & -> & E2 & E3). cbn [bind]. rewrite E2. cbn [bind]. rewrite E3. cbn [bind].
      destruct (nth_error patch_eth i) as [ck|] eqn:Eck; [|apply nth_error_None in Eck; cbn in Eck; lia].
      destruct (nth_error tE i) as [tk|] eqn:Etk; [|apply nth_error_None in Etk; rewrite LtE in Etk; cbn in Etk; lia].
      destruct (VE i ck tk i_ n Eck Etk ltac:(lia) ltac:(lia)) as (w & -> & _). cbn [bind]. eexists; reflexivity. }
    destruct (HU pzero) as (U & ->). cbn [bind]. destruct (HV pzero) as (V & ->). cbn [bind].
    match goal with |- exists v, bind ?l _ = _ => assert (HW : exists W, l = Ok W) end.
    { apply loop_ok. intros i s Hi'. apply loop_ok. intros j s1 Hj'. apply loop_ok. intros n s2 Hn. apply loop_ok. intros m s3 Hm.
      destruct (HB' i n i_ ltac:(lia) ltac:(lia) Hi) as (l & h & v & -> & E2 & E3). cbn [bind]. rewrite E2. cbn [bind]. rewrite E3. cbn [bind].
      destruct (HB' j m j_ ltac:(lia) ltac:(lia) Hj) as (l' & h' & v' & -> & E2' & E3'). cbn [bind]. rewrite E2'. cbn [bind]. rewrite E3'. cbn [bind].
      destruct (crossings_inv eps 1 1 _ _ _ _ _ _ EX i j n m ltac:(cbn; lia) ltac:(cbn; lia) ltac:(lia) ltac:(lia)) as (w & -> & _).
      cbn [bind]. eexists; reflexivity. }
    destruct HW as (W & ->). cbn [bind]. eexists; reflexivity. }
  match goal with |- exists pts, bind ?l _ = _ => assert (HW : exists W, l = Ok W) end.
  { match goal with |- exists W, for_ ?a ?b ?f ?s = _ => 
      destruct (for_inv (fun _ (p : list (pt R)) => length p = 9%nat) f a b s (filled_length _ _)) as (W & EW & _) end;
      [|exists W; exact EW].
    intros i s Hi Hs. 
    match goal with |- exists s', for_ ?a ?b ?f s = _ /\ _ => 
      destruct (for_inv (fun _ (p : list (pt R)) => length p = 9%nat) f a b s Hs) as (W & EW & LW) end;
      [|exists W; split; [exact EW|exact LW]].
    intros j s' Hj Hs'. destruct (HN i j ltac:(lia) ltac:(lia)) as (v & ->). cbn [bind]. rewrite set_ok by (rewrite Hs'; lia).
    eexists; split; [reflexivity|]. rewrite upd_length. exact Hs'. }
  destruct HW as (W & ->). cbn [bind]. eexists. reflexivity.
Qed.

(** A section of one point: std::generate runs backwards *)
Lemma section_of_one : tfi_mesh law ident_solver 1 1 0 patch_ksi patch_eth [0; 1; 2] [0; 1; 2] [1; 2]%nat [2; 2]%nat None
  = Undef BadIterator.
Proof.
  unfold tfi_mesh, msh_curves_set. cbn [length Nat.add Nat.eqb negb].
  assert (E : check_bounds patch_ksi = Ok true).
  { cbn [patch_ksi map check_bounds]. f_equal. cbn [along g_lo g_hi forallb]. rewrite !nabs_R. nsimp.
    unfold Rminus. rewrite !Rplus_opp_r, Rabs_R0. destruct (Rltb_spec 0 eps); [reflexivity|lra]. }
  rewrite E. reflexivity.
Qed.
End Ex.
