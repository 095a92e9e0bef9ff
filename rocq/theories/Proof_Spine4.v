(** The spine loft carries its sections and leaves them along the spine. *)
From Coq Require Import List Arith ZArith Reals Lia Lra Bool.
From Verif Require Import Model_Base Model_Knots Model_Math Model_Basis Model_Curve Model_Rational Model_Interp Model_Surface Model_Unify Model_Skin Model_Spine
  Spec_Base Spec_Basis Spec_Eval Spec_Knots Spec_Interp Spec_Surface Spec_Unify Spec_Skin Spec_Spine Proof_Base Proof_Eval Proof_Builders Proof_Builders2
  Proof_Interp Proof_Interp2 Proof_Interp3 Proof_Interp4 Proof_Surface Proof_SurfEdit Proof_SurfEdit2 Proof_Tfi Proof_Skin1 Proof_Skin2 Proof_Skin3 Proof_Skin6 Proof_Skin7 Proof_Skin9 Proof_Spine1 Proof_Spine2 Proof_Spine3.
Import ListNotations.
Local Open Scope R_scope.

Section AtR.
Variable eps : R.
Local Hint Extern 0 (Num R) => exact (NumR eps) : typeclass_instances.

Lemma column_at us i j c : nth_error us j = Some c -> pts_at (pole_column us i) j = nth i (c_poles c) (fun _ => 0).
Proof. intros H. unfold pts_at, pole_column. apply nth_error_nth. rewrite nth_error_map, H. reflexivity. Qed.

Lemma columns_spread dist dim c0 rest m k us nu : let cs := c0 :: rest in 0 < eps -> separates dim dist -> loftable eps c0 cs ->
  (m <= 12)%nat -> first_knot k = c_lo c0 -> last_knot k = c_hi c0 -> length us = length cs ->
  (forall i c, nth_error cs i = Some c -> exists P', nth_error us i = Some (mk m P' k (c_lo c0) (c_hi c0)) /\
      clamped_info eps m (P', k, m) /\ (length P' + m + 1 = length k)%nat /\
      forall x d, c_lo c <= x <= c_hi c ->
        c_lo c0 <= rescale (c_knots c0) (c_knots c) x <= c_hi c0 /\
        exists q q', value c x d = Ok q /\ value (mk m P' k (c_lo c0) (c_hi c0)) (rescale (c_knots c0) (c_knots c) x) d = Ok q' /\
          forall j, ratio (c_knots c0) (c_knots c) ^ d * q' j = q j) ->
  (nu + m + 1 = length k)%nat ->
  (forall j c c', nth_error cs j = Some c -> nth_error cs (S j) = Some c' -> sections_differ eps dim c c') ->
  spread dist ChordLength (pole_columns us nu) (length us).
Proof.
  intros cs He Hd Hl Hm Fk Lk LU V Hnu Hdiff. split.
  { intros r i _ _. unfold chord. apply (proj1 (Hd _ _)). }
  intros j Hj.
  destruct (some_pos nu (fun i => dist (pts_at (pole_column us i) (S j)) (pts_at (pole_column us i) j))) as [(i & Hi & H)|H].
  { exists (pole_column us i). split; [|exact H]. apply in_map_iff. exists i. split; [reflexivity|]. apply in_seq. lia. }
  exfalso.
  destruct (nth_error cs j) as [c1|] eqn:Ec1; [|apply nth_error_None in Ec1; lia].
  destruct (nth_error cs (S j)) as [c2|] eqn:Ec2; [|apply nth_error_None in Ec2; lia].
  destruct (V j c1 Ec1) as (P1 & Ej & C1 & L1 & S1). destruct (V (S j) c2 Ec2) as (P2 & Ej' & _ & L2 & S2).
  destruct (Hdiff j c1 c2 Ec1 Ec2) as (t & z & z' & ii & Ht & Hii & Z1 & Z2 & Hne). apply Hne.
  destruct (proj1 Hl c1 (nth_error_In _ _ Ec1)) as ((CI1 & O1 & O2) & _). destruct (proj1 Hl c2 (nth_error_In _ _ Ec2)) as ((CI2 & O3 & O4) & _).
  pose proof (clamped_span eps _ _ _ He CI1) as H1. pose proof (clamped_span eps _ _ _ He CI2) as H2.
  assert (X1 : c_lo c1 <= c_lo c1 + t * (c_hi c1 - c_lo c1) <= c_hi c1) by (rewrite O1, O2; split; nra).
  assert (X2 : c_lo c2 <= c_lo c2 + t * (c_hi c2 - c_lo c2) <= c_hi c2) by (rewrite O3, O4; split; nra).
  destruct (S1 _ 0%nat X1) as (R1 & q1 & q1' & Q1 & Q1' & Q1e). destruct (S2 _ 0%nat X2) as (R2 & q2 & q2' & Q2 & Q2' & Q2e).
  rewrite Z1 in Q1. injection Q1 as <-. rewrite Z2 in Q2. injection Q2 as <-.
  pose proof (Q1e ii) as QQ1. pose proof (Q2e ii) as QQ2. cbn [pow] in QQ1, QQ2. rewrite Rmult_1_l in QQ1, QQ2. rewrite <- QQ1, <- QQ2.
  assert (Ey : rescale (c_knots c0) (c_knots c1) (c_lo c1 + t * (c_hi c1 - c_lo c1)) = rescale (c_knots c0) (c_knots c2) (c_lo c2 + t * (c_hi c2 - c_lo c2))).
  { unfold rescale. rewrite O1, O2, O3, O4. field. lra. }
  rewrite <- Ey in Q2'. rewrite (value_guard_eval eps) in Q1', Q2' by (cbn [c_lo c_hi]; lra). cbn [c_knots c_poles c_deg] in Q1', Q2'.
  destruct (clamped_ok eps m P1 k He C1) as (Kk & Kp & Kn). assert (E1 : length P1 = nu) by lia. assert (E2 : length P2 = nu) by lia.
  rewrite E1 in Kk, Kn. rewrite <- Fk, <- Lk, <- Kp, <- Kn in R1.
  assert (D : eval_dom eps k nu m) by (left; unfold stack_max; lia).
  destruct (rv_eval eps k nu m Kk _ 0 P1 R1 E1 D) as (w1 & W1 & W1e). destruct (rv_eval eps k nu m Kk _ 0 P2 R1 E2 D) as (w2 & W2 & W2e).
  rewrite Q1' in W1. injection W1 as <-. rewrite Q2' in W2. injection W2 as <-. rewrite W1e, W2e. apply sumn_ext. intros i Hi. f_equal.
  assert (D0 : dist (pts_at (pole_column us i) (S j)) (pts_at (pole_column us i) j) = 0) by (pose proof (H i Hi); pose proof (proj1 (Hd (pts_at (pole_column us i) (S j)) (pts_at (pole_column us i) j))); lra).
  pose proof (proj2 (Hd _ _) D0 ii Hii) as Heq. rewrite (column_at us i j _ Ej), (column_at us i (S j) _ Ej') in Heq. unfold pole. symmetry. exact Heq.
Qed.

Lemma spine_core (lu : solver) dist (extrema : curve R -> curve R -> result R) (rat : bool) (dim : nat) c0 rest spine q s : let cs := c0 :: rest in let dt := if rat then (dim + 1)%nat else dim in
  let m := list_max (map c_deg cs) in
  0 < eps -> exact_solver lu -> (0 < dt)%nat -> separates dt dist -> loftable eps c0 cs ->
  (forall j c c', nth_error cs j = Some c -> nth_error cs (S j) = Some c' -> sections_differ eps dt c c') ->
  forall norm2, loft_spine lu (fun l => curve_parametrization dist sqrt l ChordLength true) norm2 extrema rat dim cs spine q = Ok s -> evaluable_surface eps s ->
  (2 <= length cs)%nat /\ s_degU s = m /\ s_degV s = Nat.max (Nat.min q (length cs - 1)) 1 /\ surface_ok s /\ natural_surface s /\
  s_u1 s = c_lo c0 /\ s_u2 s = c_hi c0 /\
  exists k us nu v ts feet D, s_ku s = k /\ common_form eps c0 cs m k us /\ (nu + m + 1 = length k)%nat /\ (0 < nu)%nat /\ knots_ok k nu m /\ kn k m = c_lo c0 /\ kn k nu = c_hi c0 /\
    (m <= 12)%nat /\
    mean_params eps dist ChordLength (pole_columns us nu) (length cs) v /\ s_v1 s = 0 /\ s_v2 s = kn v (length cs - 1) /\
    Forall2 (fun c t => extrema spine c = Ok t) us ts /\ Forall2 (fun t x => value spine t 0 = Ok x) ts feet /\ Forall2 (fun t x => value spine t 1 = Ok x) ts D /\
    length feet = length cs /\ length D = length cs /\
    (forall j, (j < length cs)%nat -> around (length cs) j (steps norm2 feet) <> 0) /\
    (forall j u du, (j < length cs)%nat -> c_lo c0 <= u <= c_hi c0 -> in_surface s u (nth j v 0) /\ exists z,
       surf_value s u (nth j v 0) du 0 = Ok z /\
       surf_eval u (nth j v 0) (s_ku s) (s_kv s) (s_poles s) (s_degU s) (s_degV s) du 0 = Ok z /\
       forall d, (d < dt)%nat -> z d = sumn nu (fun i => rv eps k nu m u du i * pts_at (pole_column us i) j d)) /\
    (forall j u du, (j < length cs)%nat -> c_lo c0 <= u <= c_hi c0 -> exists z, surf_value s u (nth j v 0) du 1 = Ok z /\
       surf_eval u (nth j v 0) (s_ku s) (s_kv s) (s_poles s) (s_degU s) (s_degV s) du 1 = Ok z /\
       forall d, (d < dt)%nat -> z d = sumn nu (fun i => rv eps k nu m u du i *
         spine_tangent_to_pole rat dim (stretch norm2 (map (projected rat dim) (pole_column us i)) feet j) (nth j D (fun _ => 0)) (pts_at (pole_column us i) j) d)).
Proof.
  intros cs dt m He Hex Hdt Hd Hl Hdiff norm2 E Hev. unfold loft_spine in E.
  destruct (Nat.ltb_spec (length cs) 2) as [|Hn]; [discriminate|].
  destruct (unify_curves_all eps c0 rest He Hl) as (k & us & EU & LU & Fk & Lk & Hm & _ & V). fold cs in EU, LU, V, Hm. fold m in V, Hm.
  rewrite EU in E. cbn [bind] in E.
  destruct (V 0%nat c0 eq_refl) as (P0 & N0 & C0 & Len0 & _).
  destruct us as [|u0 us']; [discriminate|]. cbn [nth_error] in N0. injection N0 as ->. cbn [front bind c_poles c_knots c_deg] in E.
  set (us := mk m P0 k (c_lo c0) (c_hi c0) :: us') in *. set (nu := length P0) in *.
  destruct (clamped_ok eps m P0 k He C0) as (Kk & Kp & Kn). fold nu in Kk, Kn. rewrite Fk in Kp. rewrite Lk in Kn.
  assert (Hnu : (0 < nu)%nat) by (destruct Kk as (_ & H & _); lia).
  assert (Hlen : forall c, In c us -> length (c_poles c) = nu).
  { intros c Hc. apply In_nth_error in Hc as (i & Hi). pose proof (nth_error_lt _ _ _ Hi) as Hlt. rewrite LU in Hlt.
    destruct (nth_error cs i) as [c1|] eqn:Ei; [|apply nth_error_None in Ei; lia].
    destruct (V i c1 Ei) as (P' & N' & _ & L' & _). rewrite Hi in N'. injection N' as ->. cbn [c_poles]. unfold nu. lia. }
  pose proof (columns_spread dist dt c0 rest m k us nu He Hd Hl Hm Fk Lk LU V ltac:(unfold nu; lia) Hdiff) as HS.
  destruct (v_aligned_ok eps dist nu us ltac:(lra) ltac:(lia) Hnu Hlen HS) as (v & EV & MV).
  rewrite EV in E. cbn [bind] in E. apply bind_inv in E as (tgs & ET & E).
  destruct (tg_ok eps rat dim norm2 extrema _ spine us tgs ltac:(lia) ltac:(intros r Hr; apply in_map_iff in Hr as (i & <- & _); apply map_length) ET)
    as (ts & feet & D & F1 & F2 & F3 & LF & LD & Ltg & Htg).
  rewrite LU in *. pose proof MV as (Lv & Sv & V0 & _).
  rewrite (front_nth v 0) in E by lia. cbn [bind] in E. rewrite (back_nth v 0) in E by lia. cbn [bind] in E.
  set (q' := Nat.max (Nat.min q (length cs - 1)) 1) in *. apply bind_inv in E as (kv & EK & E).
  change (nth 0 v 0) with (kn v 0) in EK. change (nth (length v - 1) v 0) with (kn v (length v - 1)) in EK.
  assert (Hab : kn v 0 < kn v (length v - 1)) by (apply Sv; lia).
  destruct (range_knots eps _ _ (length cs * 2) q' kv ltac:(unfold q'; lia) Hab EK) as (Hkv & Kvp & Kvn & Kv0 & Kvl & _ & _).
  apply bind_inv in E as (cols & EC & E). fold dt in EC, E. apply bind_inv in E as (P & EP & E). apply (mk_surf_inv eps) in E.
  destruct (mapM_seq _ _ _ EC) as (LC & HC).
  replace (length cs * 2)%nat with (2 * length v)%nat in * by lia.
  assert (Lkv : length kv = (2 * length v + q' + 1)%nat) by apply Hkv. assert (Lku : length k = (nu + m + 1)%nat) by apply Kk.
  assert (Hev' : evaluable2 eps k nu m kv (2 * length v) q').
  { unfold evaluable_surface, s_nU, s_nV in Hev. subst s. cbn [s_ku s_kv s_degU s_degV] in Hev.
    replace nu with (length k - m - 1)%nat by lia. replace (2 * length v)%nat with (length kv - q' - 1)%nat by lia. exact Hev. }
  assert (Hv : forall x, In x v -> kn kv q' <= x <= kn kv (2 * length v)).
  { intros x Hx. destruct (In_nth v x 0 Hx) as (i & Hi & <-). change (nth i v 0) with (kn v i). rewrite Kvp, Kvn. split; apply (strict_mono v Sv); lia. }
  destruct (loft_core_ok eps lu dt 2 nu cols k kv v m q' P Hex Hdt ltac:(lia) Kk Hkv Hev' Hv LC EP) as (LP & HP).
  assert (NU : s_nU s = nu) by (subst s; unfold s_nU; cbn [s_ku s_degU]; lia).
  assert (NV : s_nV s = (2 * length v)%nat) by (subst s; unfold s_nV; cbn [s_kv s_degV]; lia).
  assert (HO : surface_ok s) by (unfold surface_ok; rewrite NU, NV; subst s; split; [exact Kk|split; [exact Hkv|exact LP]]).
  assert (HN : natural_surface s).
  { unfold natural_surface. rewrite NU, NV. subst s. cbn [s_u1 s_u2 s_v1 s_v2 s_ku s_kv s_degU s_degV]. 
    split; [reflexivity|]. split; [f_equal; lia|]. split; [reflexivity|]. f_equal; lia. }
  assert (HI : forall j u, (j < length cs)%nat -> c_lo c0 <= u <= c_hi c0 -> in_surface s u (nth j v 0)).
  { intros j u Hj Hu. unfold in_surface. rewrite NU, NV. subst s. cbn [s_ku s_kv s_degU s_degV]. split; [rewrite Kp, Kn; exact Hu|].
    apply Hv. apply nth_In. lia. }
  (* entries of the right-hand sides *)
  assert (HB : forall i d j r, (i < nu)%nat -> (d < dt)%nat -> (j < length cs)%nat -> (r < 2)%nat ->
    nth (2 * j + r) (nth (i * dt + d) cols []) 0 =
      if (r =? 0)%nat then pts_at (pole_column us i) j d else
      spine_tangent_to_pole rat dim (stretch norm2 (map (projected rat dim) (pole_column us i)) feet j) (nth j D (fun _ => 0)) (pts_at (pole_column us i) j) d).
  { intros i d j r Hi Hdd Hj Hr. destruct (HC (i * dt + d)%nat) as (b & Hb & Eb); [nia|]. rewrite (nth_error_nth _ _ [] Hb).
    destruct (mapM_seq _ _ _ Eb) as (Lb & HbV). destruct (HbV (2 * j + r)%nat ltac:(lia)) as (x & Hx & Ex). rewrite (nth_error_nth _ _ 0 Hx). cbv beta in Ex.
    replace ((i * dt + d) / dt)%nat with i in Ex by (rewrite Nat.add_comm, Nat.div_add, Nat.div_small by lia; lia).
    replace ((i * dt + d) mod dt)%nat with d in Ex by (rewrite Nat.add_comm, Nat.mod_add, Nat.mod_small by lia; lia).
    replace ((2 * j + r) / 2)%nat with j in Ex by (rewrite Nat.mul_comm, Nat.add_comm, Nat.div_add, Nat.div_small by lia; lia).
    replace ((2 * j + r) mod 2)%nat with r in Ex by (rewrite Nat.mul_comm, Nat.add_comm, Nat.mod_add, Nat.mod_small by lia; lia).
    assert (Erow : nth_error (pole_columns us nu) i = Some (pole_column us i)).
    { unfold pole_columns. rewrite nth_error_map. rewrite (nth_error_nth' _ 0%nat) by (rewrite seq_length; exact Hi). rewrite seq_nth by exact Hi. reflexivity. }
    assert (Lcol : length (pole_column us i) = length cs) by (unfold pole_column; rewrite map_length; exact LU).
    destruct (Nat.eqb_spec r 0) as [->|Hr0].
    - cbn [Nat.eqb] in Ex. rewrite (proj2 (get_some _ _ _) Erow) in Ex. cbn [bind] in Ex. rewrite (get_nth (A:=pt R) _ _ (fun _ => 0)) in Ex by lia. cbn [bind] in Ex. injection Ex as <-. reflexivity.
    - destruct (Htg i _ Erow) as (tg & T1 & T2 & T3). rewrite (proj2 (get_some _ _ _) T1) in Ex. cbn [bind] in Ex.
      rewrite (get_nth (A:=pt R) _ _ (fun _ => 0)) in Ex by lia. cbn [bind] in Ex. injection Ex as <-. exact (f_equal (fun f => f d) (proj2 (T3 j ltac:(lia)))). }
  split; [exact Hn|]. split; [subst s; reflexivity|]. split; [subst s; reflexivity|]. split; [exact HO|]. split; [exact HN|].
  split; [subst s; exact Fk|]. split; [subst s; exact Lk|].
  exists k, us, nu, v, ts, feet, D. split; [subst s; reflexivity|].
  split. { split; [exact LU|]. intros j c Hj. destruct (V j c Hj) as (P' & N' & _ & L' & S'). exists P'. split; [exact N'|]. split; [exact L'|].
    intros x d Hx. destruct (S' x d Hx) as (_ & R). exact R. }
  split; [unfold nu; lia|]. split; [exact Hnu|]. split; [exact Kk|]. split; [exact Kp|]. split; [exact Kn|]. split; [exact Hm|].
  split; [exact MV|]. split; [subst s; cbn [s_v1]; rewrite Kv0; exact V0|]. split; [subst s; cbn [s_v2]; rewrite Kvl, Lv; reflexivity|].
  split; [exact F1|]. split; [exact F2|]. split; [exact F3|]. split; [exact LF|]. split; [exact LD|].
  split.
  { intros j Hj. destruct (Htg 0%nat (pole_column us 0)) as (tg & _ & _ & T3).
    { unfold pole_columns. rewrite nth_error_map, (nth_error_nth' _ 0%nat) by (rewrite seq_length; exact Hnu). rewrite seq_nth by exact Hnu. reflexivity. }
    apply (T3 j Hj). }
  split.
  - intros j u du Hj Hu. split; [apply HI; assumption|]. destruct (HP j 0%nat u du ltac:(lia) ltac:(lia)) as (z & Z1 & Z2); [rewrite Kp, Kn; exact Hu|].
    exists z. assert (Z1' : surf_eval u (nth j v 0) (s_ku s) (s_kv s) (s_poles s) (s_degU s) (s_degV s) du 0 = Ok z) by (subst s; exact Z1).
    rewrite (surf_value_in eps s _ _ du 0 ltac:(lra) HO HN (HI j u Hj Hu)). split; [exact Z1'|]. split; [exact Z1'|].
    intros d Hdd. rewrite Z2 by exact Hdd. apply sumn_ext. intros i Hi. f_equal. exact (HB i d j 0%nat Hi Hdd Hj ltac:(lia)).
  - intros j u du Hj Hu. destruct (HP j 1%nat u du ltac:(lia) ltac:(lia)) as (z & Z1 & Z2); [rewrite Kp, Kn; exact Hu|].
    exists z. assert (Z1' : surf_eval u (nth j v 0) (s_ku s) (s_kv s) (s_poles s) (s_degU s) (s_degV s) du 1 = Ok z) by (subst s; exact Z1).
    rewrite (surf_value_in eps s _ _ du 1 ltac:(lra) HO HN (HI j u Hj Hu)). split; [exact Z1'|]. split; [exact Z1'|].
    intros d Hdd. rewrite Z2 by exact Hdd. apply sumn_ext. intros i Hi. f_equal. exact (HB i d j 1%nat Hi Hdd Hj ltac:(lia)).
Qed.
End AtR.
