(** The loft that chooses its own parameters. *)
From Coq Require Import List Arith ZArith Reals Lia Lra Bool.
From Verif Require Import Model_Base Model_Knots Model_Math Model_Basis Model_Rational Model_Curve Model_Interp Model_Surface Model_Unify Model_Skin
  Spec_Base Spec_Basis Spec_Eval Spec_Knots Spec_Interp Spec_Surface Spec_Elevate Spec_Unify Spec_Skin Proof_Base Proof_Eval Proof_Curve
  Proof_Builders Proof_Builders2 Proof_Elevate2 Proof_Unify Proof_Unify3 Proof_Unify4 Proof_Unify5 Proof_Interp Proof_Interp2 Proof_Interp3 Proof_Interp4 Proof_Surface Proof_SurfEdit Proof_SurfEdit2
  Proof_Tfi Proof_Skin1 Proof_Skin2 Proof_Skin3 Proof_Skin5 Proof_Skin6 Proof_Skin7 Proof_Skin8.
Import ListNotations.
Local Open Scope R_scope.

Section AtR.
Variable eps : R.
Local Hint Extern 0 (Num R) => exact (NumR eps) : typeclass_instances.

(** Sums over the rows that contribute. *)
Fixpoint csum (n : nat) (w : nat -> bool) : nat :=
  match n with O => 0 | S m => csum m w + (if w m then 1 else 0) end.
Lemma csum_pos n w i : (i < n)%nat -> w i = true -> (0 < csum n w)%nat.
Proof. induction n as [|n IH]; intros Hi Hw; [lia|]. cbn [csum]. destruct (Nat.eq_dec i n) as [->|]; [rewrite Hw; lia|]. specialize (IH ltac:(lia) Hw). lia. Qed.
Lemma csum_sumn n w : INR (csum n w) = sumn n (fun i => if w i then 1 else 0).
Proof. induction n as [|n IH]; [reflexivity|]. cbn [csum sumn]. rewrite plus_INR, IH. destruct (w n); simpl; ring. Qed.

Lemma lap_ok (param : list (pt R) -> result (list R)) (cs : list (@info R)) nu (ps : nat -> list R) : (2 <= length cs)%nat ->
  (forall c, In c cs -> length (poles_of c) = nu) ->
  (forall i, (i < nu)%nat -> exists row, mapM (fun C : info => get (fst (fst C)) i) cs = Ok row /\ param row = Ok (ps i) /\ length (ps i) = length cs /\
     kn (ps i) 0 = 0 /\ forall j, (S j < length cs)%nat -> kn (ps i) j <= kn (ps i) (S j)) ->
  (forall j, (S j < length cs)%nat -> exists i, (i < nu)%nat /\ kn (ps i) j < kn (ps i) (S j)) ->
  exists v, loft_averaged_params param cs = Ok v /\ length v = length cs /\ strictly_increasing v /\ kn v 0 = 0 /\ kn v (length cs - 1) = 1.
Proof.
  intros Hn Hl Hp Hs. unfold loft_averaged_params.
  destruct cs as [|((P0, k0), p0) rest] eqn:Ecs; [cbn [length] in Hn; lia|]. cbn [front bind]. rewrite <- Ecs in *.
  assert (HP0 : length P0 = nu) by (apply (Hl (P0, k0, p0)); rewrite Ecs; left; reflexivity). rewrite HP0.
  set (nv := length cs) in *.
  set (tot := fun i => kn (ps i) (nv - 1)).
  set (w := fun i => negb (nleb (tot i) n0)).
  assert (Hw : forall i, w i = true -> 0 < tot i).
  { intros i. unfold w. nsimp. destruct (Rleb_spec (tot i) 0); cbn [negb]; [discriminate|lra]. }
  assert (Hmono : forall i, (i < nu)%nat -> forall a b, (a <= b)%nat -> (b < nv)%nat -> kn (ps i) a <= kn (ps i) b).
  { intros i Hi a b Hab Hb. destruct (Hp i Hi) as (_ & _ & _ & _ & _ & Hm). induction b as [|b IH]; [replace a with 0%nat by lia; lra|].
    destruct (Nat.eq_dec a (S b)) as [->|]; [lra|]. pose proof (IH ltac:(lia) ltac:(lia)). pose proof (Hm b ltac:(lia)). lra. }
  set (g := fun j i => if w i then kn (ps i) j / tot i else 0).
  match goal with |- context [for_ 0 nu ?b ?s] =>
    destruct (for_inv (fun m (st : list R * nat) => length (fst st) = nv /\ snd st = csum m w /\ forall j, (j < nv)%nat -> kn (fst st) j = sumn m (g j)) b 0 nu s) as ((v, n) & E & L & N & V) end.
  - cbn [fst snd csum]. rewrite filled_length. split; [reflexivity|]. split; [reflexivity|]. intros j Hj. unfold kn, filled. cbn [sumn]. apply nth_repeat.
  - intros i (acc, n) Hi (L & N & V). cbn [fst snd] in *. destruct (Hp i ltac:(lia)) as (row & Er & Ep & Lp & _).
    rewrite Er. cbn [bind]. rewrite Ep. cbn [bind]. rewrite (back_nth (ps i) 0) by lia. cbn [bind]. rewrite Lp. fold (kn (ps i) (nv - 1)) (tot i).
    destruct (nleb (tot i) n0) eqn:Ew.
    + exists (acc, n). split; [reflexivity|]. cbn [fst snd csum]. assert (W : w i = false) by (unfold w; rewrite Ew; reflexivity).
      rewrite W. split; [exact L|]. split; [lia|]. intros j Hj. cbn [sumn]. unfold g at 2. rewrite W, V by lia. ring.
    + assert (W : w i = true) by (unfold w; rewrite Ew; reflexivity). pose proof (Hw i W) as Ht.
      destruct (for_inv (fun m a => length a = nv /\ forall j, (j < nv)%nat -> kn a j = kn acc j + (if (j <? m)%nat then kn (ps i) j / tot i else 0))
        (fun j v => let* x := get (ps i) j in let* r := divc x (tot i) in let* a := get v j in set v j (nadd a r)) 0 nv acc) as (a & Ea & La & Va).
      * split; [exact L|]. intros j Hj. cbn [Nat.ltb Nat.leb]. ring.
      * intros j a Hj (La & Va). rewrite (get_nth (ps i) _ 0) by lia. cbn [bind]. rewrite (divc_ok eps) by lra. cbn [bind].
        rewrite (get_nth a _ 0) by lia. cbn [bind]. rewrite set_ok by lia. eexists. split; [reflexivity|].
        rewrite upd_length. split; [exact La|]. intros j' Hj'. unfold kn at 1. rewrite nth_upd. nsimp.
        destruct (Nat.eqb_spec j j') as [<-|Hne].
        { destruct (Nat.ltb_spec j (length a)); [|lia]. cbn [andb]. fold (kn a j) (kn (ps i) j). rewrite Va by lia.
          destruct (Nat.ltb_spec j j), (Nat.ltb_spec j (S j)); try lia. ring. }
        { cbn [andb]. fold (kn a j'). rewrite Va by lia. destruct (Nat.ltb_spec j' j), (Nat.ltb_spec j' (S j)); try lia; reflexivity. }
      * rewrite Ea. cbn [bind]. eexists. split; [reflexivity|]. cbn [fst snd csum]. rewrite W. split; [exact La|]. split; [lia|].
        intros j Hj. rewrite Va by lia. cbn [Nat.add sumn]. destruct (Nat.ltb_spec j nv); [|lia]. rewrite V by lia. unfold g at 3. rewrite W. reflexivity.
  - rewrite E. cbn [bind fst snd] in *. cbn [Nat.add] in *.
    destruct (Hs 0%nat ltac:(lia)) as (i0 & Hi0 & Hlt).
    assert (Wi : forall j i, (S j < nv)%nat -> (i < nu)%nat -> kn (ps i) j < kn (ps i) (S j) -> w i = true).
    { intros j i Hj Hi H. unfold w. nsimp. destruct (Rleb_spec (tot i) 0) as [H0|]; [exfalso|reflexivity].
      destruct (Hp i Hi) as (_ & _ & _ & _ & Hz & _). pose proof (Hmono i Hi 0%nat j ltac:(lia) ltac:(lia)). pose proof (Hmono i Hi (S j) (nv - 1)%nat ltac:(lia) ltac:(lia)).
      unfold tot in H0. lra. }
    assert (Np : (0 < n)%nat) by (rewrite N; apply (csum_pos nu w i0 Hi0); exact (Wi 0%nat i0 ltac:(lia) Hi0 Hlt)).
    destruct (Nat.eqb_spec n 0); [lia|]. rewrite nofnat_R. assert (Nn : 0 < INR n) by (apply lt_0_INR; exact Np).
    rewrite (mapM_ok _ (fun x => x / INR n) v) by (intros; apply (divc_ok eps); lra).
    eexists. split; [reflexivity|]. rewrite map_length. split; [exact L|].
    assert (KV : forall j, (j < nv)%nat -> kn (map (fun x => x / INR n) v) j = sumn nu (g j) / INR n).
    { intros j Hj. unfold kn. rewrite (nth_indep _ _ (0 / INR n)) by (rewrite map_length; lia). rewrite (map_nth (fun x => x / INR n)). fold (kn v j). rewrite V by lia. reflexivity. }
    split; [|split].
    + apply succ_strict. rewrite map_length, L. intros j Hj. rewrite !KV by lia. unfold Rdiv. apply Rmult_lt_compat_r; [apply Rinv_0_lt_compat; exact Nn|].
      destruct (Hs j Hj) as (i & Hi & Hij). apply (sumn_lt nu _ _ i).
      * intros i' Hi'. unfold g. destruct (w i') eqn:W; [|lra]. unfold Rdiv. apply Rmult_le_compat_r; [left; apply Rinv_0_lt_compat, Hw, W|]. apply Hmono; lia.
      * exact Hi.
      * unfold g. pose proof (Wi j i Hj Hi Hij) as W. rewrite W. unfold Rdiv. apply Rmult_lt_compat_r; [apply Rinv_0_lt_compat, Hw, W|exact Hij].
    + rewrite KV by lia. rewrite sumn_zero; [unfold Rdiv; ring|]. intros i Hi. unfold g. destruct (w i); [|reflexivity].
      destruct (Hp i Hi) as (_ & _ & _ & _ & Hz & _). rewrite Hz. unfold Rdiv. ring.
    + rewrite KV by lia. rewrite (sumn_ext nu _ (fun i => if w i then 1 else 0)).
      * rewrite <- csum_sumn, <- N. field. lra.
      * intros i Hi. unfold g. destruct (w i) eqn:W; [|reflexivity]. pose proof (Hw i W). unfold tot in *. field. lra.
Qed.

(** Unifying twice: the knots of unified curves are apart. *)
Lemma spaced_apart U x y : 0 < eps -> spaced eps U -> In x U -> In y U -> x = y \/ eps < Rabs (x - y).
Proof.
  intros He Hs Hx Hy. pose proof (spaced_inc eps U) as HI. apply (In_nth _ _ 0) in Hx as (i & Hi & <-). apply (In_nth _ _ 0) in Hy as (j & Hj & <-).
  assert (Hgap : forall a b, (a < b)%nat -> (b < length U)%nat -> nth a U 0 + eps < nth b U 0).
  { intros a b Hab Hb. induction b as [|b IH]; [lia|]. pose proof (Hs b Hb) as H. unfold kn in H. destruct (Nat.eq_dec a b) as [->|]; [exact H|].
    specialize (IH ltac:(lia) ltac:(lia)). lra. }
  destruct (Nat.lt_trichotomy i j) as [H|[->|H]]; [right|left; reflexivity|right].
  - pose proof (Hgap i j H Hj). rewrite Rabs_minus_sym. rewrite Rabs_pos_eq; lra.
  - pose proof (Hgap j i H Hi). rewrite Rabs_pos_eq; lra.
Qed.

Lemma rescale_id k x : first_knot k <> last_knot k -> rescale k k x = x.
Proof. intros H. unfold rescale. field. lra. Qed.

Lemma clamped_span p P (k : list R) : 0 < eps -> clamped_info eps p (P, k, p) -> first_knot k < last_knot k.
Proof.
  intros He H. destruct (clamped_ok eps p P k He H) as ((Hlen & Hn & Hnd & Hs) & <- & <-).
  pose proof (Hnd p (length P - 1)%nat ltac:(lia) ltac:(lia)). lra.
Qed.

Lemma some_pos n (f : nat -> R) : (exists i, (i < n)%nat /\ 0 < f i) \/ (forall i, (i < n)%nat -> f i <= 0).
Proof.
  induction n as [|n [(i & Hi & H)|IH]]; [right; intros; lia|left; exists i; split; [lia|exact H]|].
  destruct (Rlt_le_dec 0 (f n)) as [H|H]; [left; exists n; split; [lia|exact H]|right].
  intros i Hi. destruct (Nat.eq_dec i n) as [->|]; [exact H|apply IH; lia].
Qed.

(** The unified sections and the parameters of the automatic loft. *)
Lemma auto_params dist dim c0 rest : let cs := c0 :: rest in let m := list_max (map snd (map info_of cs)) in
  0 < eps -> separates dim dist -> loftable eps c0 cs -> (2 <= length cs)%nat ->
  (forall j c c', nth_error cs j = Some c -> nth_error cs (S j) = Some c' -> sections_differ eps dim c c') ->
  exists k us P0 us' v, (let* us := unify_degree (map info_of cs) in unify_knots us) = Ok us /\
    us = (P0, k, m) :: us' /\ length us = length cs /\ (m <= 12)%nat /\ (length k <= 13 * list_sum (map (fun c => length (c_knots c)) cs))%nat /\ first_knot k = first_knot (c_knots c0) /\ last_knot k = last_knot (c_knots c0) /\
    clamped_info eps m (P0, k, m) /\
    (forall i c, nth_error us i = Some c -> exists c1, nth_error cs i = Some c1 /\ exists P', c = (P', k, m) /\ clamped_info eps m (P', k, m) /\
    (length P' + m + 1 = length k)%nat /\ forall x d, c_lo c1 <= x <= c_hi c1 ->
      first_knot k <= rescale (c_knots c0) (c_knots c1) x <= last_knot k /\
      same_value eps (c_knots c1) (c_poles c1) (c_deg c1) x k P' m (rescale (c_knots c0) (c_knots c1) x) (ratio (c_knots c0) (c_knots c1)) d) /\
    (forall c, In c us -> exists P', c = (P', k, m) /\ clamped_info eps m (P', k, m) /\ length P' = length P0) /\
    loft_averaged_params (fun l => curve_parametrization dist sqrt l ChordLength false) us = Ok v /\
    length v = length cs /\ strictly_increasing v /\ kn v 0 = 0 /\ kn v (length cs - 1) = 1.
Proof.
  intros cs m He Hd Hl Hn Hdiff.
  destruct (unify_all eps (info_of c0) (map info_of rest) He (sections_info eps c0 rest Hl) (proj2 Hl)) as (k & us & EU & LU & Fk & Lk & Hm & Hlen & _ & V).
  change (info_of c0 :: map info_of rest) with (map info_of cs) in *. fold m in Hm, V.
  rewrite map_length in LU.
  (* the unified sections *)
  assert (Hus : forall i c, nth_error us i = Some c -> exists c1, nth_error cs i = Some c1 /\ exists P', c = (P', k, m) /\ clamped_info eps m (P', k, m) /\
    (length P' + m + 1 = length k)%nat /\ forall x d, c_lo c1 <= x <= c_hi c1 ->
      first_knot k <= rescale (c_knots c0) (c_knots c1) x <= last_knot k /\
      same_value eps (c_knots c1) (c_poles c1) (c_deg c1) x k P' m (rescale (c_knots c0) (c_knots c1) x) (ratio (c_knots c0) (c_knots c1)) d).
  { intros i c Hi. destruct (nth_error cs i) as [c1|] eqn:Ei.
    2:{ exfalso. apply nth_error_None in Ei. apply (Nat.lt_irrefl i). refine (Nat.lt_le_trans _ _ _ _ Ei). rewrite <- LU. exact (nth_error_lt _ _ _ Hi). }
    exists c1. split; [reflexivity|]. destruct (V i (info_of c1)) as (P' & Hi' & A & B & C); [rewrite nth_error_map, Ei; reflexivity|].
    pose proof (eq_trans (eq_sym Hi) Hi') as Heq. injection Heq as ->. exists P'. split; [reflexivity|]. split; [exact A|]. split; [exact B|].
    destruct (proj1 Hl c1 (nth_error_In _ _ Ei)) as ((_ & O1 & O2) & _). rewrite O1, O2. exact C. }
  destruct us as [|u0 us'] eqn:Eus; [cbn [length] in LU; lia|]. rewrite <- Eus in *.
  assert (N0 : nth_error us 0 = Some u0) by (rewrite Eus; reflexivity).
  destruct (Hus 0%nat u0 N0) as (c0' & Ec0 & P0 & -> & C0 & Len0 & _). cbn [nth_error cs] in Ec0. injection Ec0 as <-.
  assert (Hin : forall c, In c us -> exists P', c = (P', k, m) /\ clamped_info eps m (P', k, m) /\ length P' = length P0).
  { intros c Hc. apply In_nth_error in Hc as (i & Hi). destruct (Hus i c Hi) as (_ & _ & P' & -> & A & B & _). exists P'. split; [reflexivity|]. split; [exact A|lia]. }
  pose proof (clamped_span m P0 k He C0) as Hspan.
  destruct (clamped_ok eps m P0 k He C0) as (Kk & Kp & Kn).
  (* parameters *)
  set (nu := length P0) in *. set (row := fun i => map (fun c : @info R => nth i (poles_of c) (fun _ => 0)) us).
  destruct (lap_ok (fun l => curve_parametrization dist sqrt l ChordLength false) us nu
    (fun i => match curve_parametrization dist sqrt (row i) ChordLength false with Ok l => l | _ => [] end)) as (v' & EV' & Lv & Sv & V0 & V1).
  - lia.
  - intros c Hc. destruct (Hin c Hc) as (P' & -> & _ & H). exact H.
  - intros i Hi. exists (row i).
    assert (Er : mapM (fun C : info => get (fst (fst C)) i) us = Ok (row i)).
    { apply mapM_ok. intros c Hc. destruct (Hin c Hc) as (P' & -> & _ & H). unfold poles_of. cbn [fst]. apply get_nth. lia. }
    split; [exact Er|]. assert (Lr : length (row i) = length us) by apply map_length.
    destruct (param_raw eps dist (row i) ChordLength ltac:(lia)) as (kk & Ek & Lk' & Vk). rewrite Ek. split; [reflexivity|]. split; [lia|].
    split; [rewrite Vk by lia; reflexivity|]. intros j Hj. rewrite !Vk by lia. cbn [sumn]. unfold chord. pose proof (proj1 (Hd (pts_at (row i) (S j)) (pts_at (row i) j))). lra.
  - intros j Hj.
    assert (Hch : forall i, (i < nu)%nat -> let l := match curve_parametrization dist sqrt (row i) ChordLength false with Ok l => l | _ => [] end in
      kn l (S j) = kn l j + dist (pts_at (row i) (S j)) (pts_at (row i) j)).
    { intros i Hi. assert (Lr : length (row i) = length us) by apply map_length.
      destruct (param_raw eps dist (row i) ChordLength ltac:(lia)) as (kk & Ek & Lk' & Vk). rewrite Ek. cbv zeta. rewrite !Vk by lia. reflexivity. }
    destruct (some_pos nu (fun i => dist (pts_at (row i) (S j)) (pts_at (row i) j))) as [(i & Hi & H)|H].
    { exists i. split; [exact Hi|]. pose proof (Hch i Hi) as H'. cbv zeta in H'. lra. }
    exfalso.
    destruct (nth_error us j) as [cj|] eqn:Ej; [|apply nth_error_None in Ej; lia].
    destruct (nth_error us (S j)) as [cj'|] eqn:Ej'; [|apply nth_error_None in Ej'; lia].
    destruct (Hus j cj Ej) as (c1 & Ec1 & P1 & -> & _ & L1 & S1). destruct (Hus (S j) cj' Ej') as (c2 & Ec2 & P2 & -> & _ & L2 & S2).
    destruct (Hdiff j c1 c2 Ec1 Ec2) as (t & z & z' & ii & Ht & Hii & Z1 & Z2 & Hne). apply Hne.
    destruct (proj1 Hl c1 (nth_error_In _ _ Ec1)) as ((CI1 & O1 & O2) & _). destruct (proj1 Hl c2 (nth_error_In _ _ Ec2)) as ((CI2 & O3 & O4) & _).
    pose proof (clamped_span _ _ _ He CI1) as H1. pose proof (clamped_span _ _ _ He CI2) as H2.
    assert (X1 : c_lo c1 <= c_lo c1 + t * (c_hi c1 - c_lo c1) <= c_hi c1) by (rewrite O1, O2; split; nra).
    assert (X2 : c_lo c2 <= c_lo c2 + t * (c_hi c2 - c_lo c2) <= c_hi c2) by (rewrite O3, O4; split; nra).
    destruct (S1 _ 0%nat X1) as (R1 & q1 & q1' & Q1 & Q1' & Q1e). destruct (S2 _ 0%nat X2) as (R2 & q2 & q2' & Q2 & Q2' & Q2e).
    rewrite (value_guard_eval eps) in Z1, Z2 by lra. rewrite Z1 in Q1. injection Q1 as <-. rewrite Z2 in Q2. injection Q2 as <-.
    pose proof (Q1e ii) as QQ1. pose proof (Q2e ii) as QQ2. cbn [pow] in QQ1, QQ2. rewrite Rmult_1_l in QQ1, QQ2. rewrite <- QQ1, <- QQ2.
    assert (Ey : rescale (c_knots c0) (c_knots c1) (c_lo c1 + t * (c_hi c1 - c_lo c1)) = rescale (c_knots c0) (c_knots c2) (c_lo c2 + t * (c_hi c2 - c_lo c2))).
    { unfold rescale. rewrite O1, O2, O3, O4. field. lra. }
    rewrite <- Ey in Q2'. rewrite <- Kp, <- Kn in R1.
    assert (D : eval_dom eps k nu m) by (left; unfold stack_max; lia).
    destruct (rv_eval eps k nu m Kk _ 0 P1 R1 ltac:(unfold nu; lia) D) as (w1 & W1 & W1e). destruct (rv_eval eps k nu m Kk _ 0 P2 R1 ltac:(unfold nu; lia) D) as (w2 & W2 & W2e).
    rewrite Q1' in W1. injection W1 as <-. rewrite Q2' in W2. injection W2 as <-. rewrite W1e, W2e. apply sumn_ext. intros i Hi. f_equal.
    assert (D0 : dist (pts_at (row i) (S j)) (pts_at (row i) j) = 0) by (pose proof (H i Hi); pose proof (proj1 (Hd (pts_at (row i) (S j)) (pts_at (row i) j))); lra).
    pose proof (proj2 (Hd _ _) D0 ii Hii) as Heq. unfold pts_at, row in Heq.
    assert (Hrow : forall a P', nth_error us a = Some (P', k, m) -> nth a (map (fun c : @info R => nth i (poles_of c) (fun _ => 0)) us) (fun _ => 0) = nth i P' (fun _ => 0)).
    { intros a P' Ha. apply nth_error_nth. rewrite nth_error_map. rewrite Ha. reflexivity. }
    rewrite (Hrow _ _ Ej), (Hrow _ _ Ej') in Heq. unfold pole. symmetry. exact Heq.
  - rewrite LU in Lv, V1. exists k, us, P0, us', v'. split; [exact EU|]. split; [exact Eus|]. split; [exact LU|]. split; [exact Hm|].
    split; [rewrite map_map in Hlen; exact Hlen|]. split; [exact Fk|]. split; [exact Lk|]. split; [exact C0|]. split; [exact Hus|]. split; [exact Hin|]. auto.
Qed.

Lemma auto_ok lu dist dim c0 rest q s : let cs := c0 :: rest in 0 < eps -> exact_solver lu -> (0 < dim)%nat -> separates dim dist ->
  loftable eps c0 cs -> (1 <= q)%nat -> (2 <= length cs)%nat ->
  (forall j c c', nth_error cs j = Some c -> nth_error cs (S j) = Some c' -> sections_differ eps dim c c') ->
  loft_auto lu (fun l => curve_parametrization dist sqrt l ChordLength false) dim cs q = Ok s -> evaluable_surface eps s ->
  s_degU s = list_max (map c_deg cs) /\ s_degV s = Nat.min q (length cs - 1) /\
  s_u1 s = c_lo c0 /\ s_u2 s = c_hi c0 /\ s_v1 s = 0 /\ s_v2 s = 1 /\ surface_ok s /\ natural_surface s /\
  exists v, length v = length cs /\ strictly_increasing v /\ kn v 0 = 0 /\ kn v (length cs - 1) = 1 /\
    forall j c, nth_error cs j = Some c -> forall x d, c_lo c <= x <= c_hi c ->
    in_surface s (rescale (c_knots c0) (c_knots c) x) (nth j v 0) /\
    exists z z', value c x d = Ok z /\ eval_value x (c_knots c) (c_poles c) (c_deg c) d = Ok z /\
      surf_value s (rescale (c_knots c0) (c_knots c) x) (nth j v 0) d 0 = Ok z' /\
      surf_eval (rescale (c_knots c0) (c_knots c) x) (nth j v 0) (s_ku s) (s_kv s) (s_poles s) (s_degU s) (s_degV s) d 0 = Ok z' /\
      forall i, (i < dim)%nat -> ratio (c_knots c0) (c_knots c) ^ d * z' i = z i.
Proof.
  intros cs He Hex Hdim Hd Hl Hq Hn Hdiff E Hev. unfold loft_auto in E.
  destruct (auto_params dist dim c0 rest He Hd Hl Hn Hdiff) as (k & us & P0 & us' & v & EU & Eus & LU & Hm & _ & Fk & Lk & C0 & Hus & Hin & EV' & Lv & Sv & V0 & V1).
  fold cs in EU, Eus, LU, Hm, C0, Hus, Hin, Lv, V1. set (m := list_max (map snd (map info_of cs))) in *.
  apply bind_inv in E as (us1 & E1 & E). apply bind_inv in E as (us2 & E2 & E).
  assert (E3 : us2 = us).
  { change (curves_info cs) with (map info_of cs) in E1. rewrite E1 in EU. cbn [bind] in EU. congruence. }
  subst us2. clear E1 E2 us1.
  pose proof (clamped_span m P0 k He C0) as Hspan.
  destruct (clamped_ok eps m P0 k He C0) as (Kk & Kp & Kn).
  apply bind_inv in E as (v1 & EV & E).
  - rewrite EV in EV'. injection EV' as ->.
    rewrite clamp_degree_eq, LU in E by lia. cbv zeta in E. apply bind_inv in E as (kv & EK & E). apply bind_inv in E as (((P & ku) & p) & EI & E).
    destruct (simple_knots eps v (Nat.min q (length cs - 1)) kv ltac:(lia) ltac:(lia) Sv EK) as (Hkv & _ & _ & K0 & K1 & Hv).
    apply (mk_surf_inv eps) in E.
    set (q' := Nat.min q (length cs - 1)) in *.
    assert (Lkv : length kv = (length v + q' + 1)%nat) by apply Hkv.
    assert (Hev' : forall n, (length ku = n + p + 1)%nat -> evaluable2 eps ku n p kv (length v) q').
    { intros n Hn'. unfold evaluable_surface, s_nU, s_nV in Hev. subst s. cbn [s_ku s_kv s_degU s_degV] in Hev.
      replace n with (length ku - p - 1)%nat by lia. replace (length v) with (length kv - q' - 1)%nat by lia. exact Hev. }
    rewrite Eus in EI.
    assert (HA : forall c, In c ((P0, k, m) :: us') -> clamped_info eps (snd c) c /\ (snd c <= 12)%nat).
    { intros c Hc0. assert (Hc : In c us) by (rewrite Eus; exact Hc0). destruct (Hin c Hc) as (P' & -> & A & _). split; [exact A|exact Hm]. }
    assert (HB : knots_apart eps (knots_of (P0, k, m)) ((P0, k, m) :: us')).
    { intros c c' x y Hc0 Hc0' Hx Hy. assert (Hc : In c us) by (rewrite Eus; exact Hc0). assert (Hc' : In c' us) by (rewrite Eus; exact Hc0'). destruct (Hin c Hc) as (P' & -> & (_ & U & M & CK & EK1 & _) & _). destruct (Hin c' Hc') as (P'' & -> & _ & _).
      unfold knots_of in *. cbn [fst snd] in *. rewrite !rescale_id by lra. rewrite EK1 in Hx, Hy. apply repeat_each_In in Hx, Hy. apply (spaced_apart U); auto. apply CK. }
    destruct (loft_info_ok eps lu dim (P0, k, m) us' v kv q' P ku p He Hex Hdim HA HB Hkv Hev' Hv EI) as (Hp & _ & nu' & Kk' & LP & F & L & Kp' & Kn' & VV).
    assert (Hp' : p = list_max (map snd us)) by (rewrite Eus; exact Hp). clear Hp. rename Hp' into Hp.
    assert (Hpm : p = m).
    { rewrite Hp. assert (HAm : forall a, In a (map snd us) -> a = m) by (intros a Ha; apply in_map_iff in Ha as (c & <- & Hc); destruct (Hin c Hc) as (P' & -> & _); reflexivity).
      apply Nat.le_antisymm; [apply list_max_le, Forall_forall; intros a Ha; rewrite (HAm a Ha); lia|].
      rewrite Eus. cbn [map snd list_max fold_right]. lia. }
    assert (Lku : length ku = (nu' + p + 1)%nat) by apply Kk'.
    unfold knots_of in F, L. cbn [fst snd] in F, L.
    assert (NU : s_nU s = nu') by (subst s; unfold s_nU; cbn [s_ku s_degU]; lia).
    assert (NV : s_nV s = length v) by (subst s; unfold s_nV; cbn [s_kv s_degV]; lia).
    assert (HO : surface_ok s) by (unfold surface_ok; rewrite NU, NV; subst s; split; [exact Kk'|split; [exact Hkv|exact LP]]).
    assert (HN : natural_surface s).
    { unfold natural_surface. rewrite NU, NV. subst s. cbn [s_u1 s_u2 s_v1 s_v2 s_ku s_kv s_degU s_degV]. repeat split; f_equal; lia. }
    destruct (proj1 Hl c0 (or_introl eq_refl)) as ((_ & O1 & O2) & _). unfold info_of, knots_of in Fk, Lk. cbn [fst snd] in Fk, Lk.
    split; [subst s; cbn [s_degU]; rewrite Hpm; unfold m; rewrite map_map; reflexivity|]. split; [subst s; reflexivity|].
    split; [subst s; cbn [s_u1]; rewrite O1, <- Fk, <- F; reflexivity|]. split; [subst s; cbn [s_u2]; rewrite O2, <- Lk, <- L; reflexivity|].
    split; [subst s; cbn [s_v1]; rewrite K0; exact V0|]. split; [subst s; cbn [s_v2]; rewrite K1, Lv; exact V1|]. split; [exact HO|]. split; [exact HN|].
    exists v. split; [exact Lv|]. split; [exact Sv|]. split; [exact V0|]. split; [exact V1|].
    intros j c Hj x d Hx. destruct (nth_error us j) as [cj|] eqn:Ej.
    2:{ exfalso. apply nth_error_None in Ej. rewrite LU in Ej. pose proof (nth_error_lt _ _ _ Hj). lia. }
    destruct (Hus j cj Ej) as (c1 & Ec1 & P1 & -> & _ & L1 & S1). rewrite Hj in Ec1. injection Ec1 as <-.
    destruct (S1 x d Hx) as (R1 & z & zc & Z1 & Z1' & Z1e). set (y := rescale (c_knots c0) (c_knots c) x) in *.
    assert (Ej' : nth_error ((P0, k, m) :: us') j = Some (P1, k, m)) by exact (eq_trans (f_equal (fun l => nth_error l j) (eq_sym Eus)) Ej).
    destruct (VV j (P1, k, m) y d Ej') as (Hr & w & z' & W1 & W2 & W3); [exact R1|].
    unfold knots_of, poles_of in *. cbn [fst snd] in *. rewrite rescale_id in Hr, W2 by lra.
    rewrite Z1' in W1. injection W1 as <-.
    assert (Er : ratio k k = 1) by (unfold ratio; field; lra). rewrite Er, pow1 in W3.
    assert (IN : in_surface s y (nth j v 0)).
    { unfold in_surface. rewrite NU, NV. subst s. cbn [s_ku s_kv s_degU s_degV]. split; [rewrite Kp', Kn'; exact Hr|].
      apply Hv. apply nth_In. rewrite Lv. exact (nth_error_lt _ _ _ Hj). }
    split; [exact IN|]. exists z, z'. rewrite (value_guard_eval eps) by lra. split; [exact Z1|]. split; [exact Z1|].
    assert (Z2' : surf_eval y (nth j v 0) (s_ku s) (s_kv s) (s_poles s) (s_degU s) (s_degV s) d 0 = Ok z') by (subst s; exact W2).
    split; [rewrite (surf_value_in eps s _ _ d 0 ltac:(lra) HO HN IN); exact Z2'|]. split; [exact Z2'|].
    intros i Hi. rewrite <- Z1e. f_equal. rewrite <- W3 by exact Hi. ring.
Qed.

Lemma loft_auto_ok lu dist dim c0 rest q s : let cs := c0 :: rest in 0 < eps -> exact_solver lu -> (0 < dim)%nat -> separates dim dist ->
  loftable eps c0 cs -> (1 <= q)%nat -> (2 <= length cs)%nat ->
  (forall j c c', nth_error cs j = Some c -> nth_error cs (S j) = Some c' -> sections_differ eps dim c c') ->
  loft_auto lu (fun l => curve_parametrization dist sqrt l ChordLength false) dim cs q = Ok s -> evaluable_surface eps s ->
  s_degU s = list_max (map c_deg cs) /\ s_degV s = Nat.min q (length cs - 1) /\
  s_u1 s = c_lo c0 /\ s_u2 s = c_hi c0 /\ s_v1 s = 0 /\ s_v2 s = 1 /\
  exists v, length v = length cs /\ strictly_increasing v /\ kn v 0 = 0 /\ kn v (length cs - 1) = 1 /\
    forall j c, nth_error cs j = Some c -> carries eps dim s c0 c (nth j v 0).
Proof.
  intros cs He Hex Hdim Hd Hl Hq Hn Hdiff E Hev.
  destruct (auto_ok lu dist dim c0 rest q s He Hex Hdim Hd Hl Hq Hn Hdiff E Hev) as (A1 & A2 & A3 & A4 & A5 & A6 & _ & _ & v & B1 & B2 & B3 & B4 & V).
  repeat (split; [assumption|]). exists v. repeat (split; [assumption|]).
  intros j c Hj x d Hx. destruct (V j c Hj x d Hx) as (_ & z & z' & Z1 & _ & Z2 & _ & Z3). exists z, z'. auto.
Qed.

Lemma loft_auto_rational_ok lu dist dim c0 rest q s : let cs := c0 :: rest in 0 < eps -> exact_solver lu -> separates (S dim) dist ->
  loftable eps c0 cs -> (1 <= q)%nat -> (2 <= length cs)%nat ->
  (forall j c c', nth_error cs j = Some c -> nth_error cs (S j) = Some c' -> sections_differ eps (S dim) c c') ->
  loft_auto lu (fun l => curve_parametrization dist sqrt l ChordLength false) (S dim) cs q = Ok s -> evaluable_surface eps s ->
  exists v, length v = length cs /\ strictly_increasing v /\ kn v 0 = 0 /\ kn v (length cs - 1) = 1 /\
    forall j c, nth_error cs j = Some c -> carries_rational eps dim s c0 c (nth j v 0).
Proof.
  intros cs He Hex Hd Hl Hq Hn Hdiff E Hev.
  destruct (auto_ok lu dist (S dim) c0 rest q s He Hex ltac:(lia) Hd Hl Hq Hn Hdiff E Hev) as (_ & _ & _ & _ & _ & _ & HO & HN & v & B1 & B2 & B3 & B4 & V).
  exists v. repeat (split; [assumption|]). intros j c Hj x Hx.
  destruct (V j c Hj x 0%nat Hx) as (IN & z & z' & _ & Z1 & Z2 & Z2' & Z3).
  exists (weight_projection dim z), (weight_projection dim z'). split; [|split].
  - unfold rational_value. destruct (oob_spec eps c x); [lra|]. unfold eval_rational_value, eval_rational_rec. rewrite Z1. reflexivity.
  - unfold surf_rational_value. unfold surf_value in Z2. destruct (out_u s _); [discriminate|]. destruct (out_v s _); [discriminate|].
    cbn [andb Nat.eqb]. rewrite Z2'. reflexivity.
  - intros i Hi. unfold weight_projection.
    assert (Z4 : forall i, (i < S dim)%nat -> z' i = z i) by (intros i0 Hi0; pose proof (Z3 i0 Hi0) as H; cbn [pow] in H; lra).
    rewrite (Z4 dim) by lia. destruct (neqb (z dim) n0); [reflexivity|]. rewrite (Z4 i) by lia. reflexivity.
Qed.
End AtR.
