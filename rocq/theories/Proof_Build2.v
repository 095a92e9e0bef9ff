(** build_derivate and build_integrate. *)
From Coq Require Import List Arith ZArith Reals Lia Lra Permutation FunctionalExtensionality.
From Verif Require Import Model_Base Model_Basis Model_Vec Model_Curve Model_Build
  Spec_Base Spec_Basis Spec_Eval Spec_Class Spec_Build
  Proof_Base Proof_Blossom Proof_Basis Proof_Ders Proof_Eval Proof_PropBasis Proof_Refine Proof_Unique
  Proof_Ctor Proof_Curve Proof_Trim Proof_Build.
Import ListNotations.
Local Open Scope R_scope.

Lemma nth_removelast {A} (l : list A) i d : (i < length l - 1)%nat -> nth i (removelast l) d = nth i l d.
Proof.
  revert i. induction l as [|a l IH]; intros i Hi; [reflexivity|].
  destruct l as [|b l]; [simpl in Hi; lia|]. change (removelast (a :: b :: l)) with (a :: removelast (b :: l)).
  destruct i as [|i]; [reflexivity|]. cbn [nth]. apply IH. simpl in *. lia.
Qed.
Lemma length_removelast {A} (l : list A) : length (removelast l) = (length l - 1)%nat.
Proof.
  induction l as [|a l IH]; [reflexivity|]. destruct l as [|b l]; [reflexivity|].
  change (removelast (a :: b :: l)) with (a :: removelast (b :: l)). cbn [length] in *. rewrite IH. lia.
Qed.

Lemma nth_error_ext {A} (l1 l2 : list A) : (forall i, nth_error l1 i = nth_error l2 i) -> l1 = l2.
Proof.
  revert l2; induction l1 as [|a t IH]; intros [|b u] H; auto.
  - specialize (H 0%nat); discriminate.
  - specialize (H 0%nat); discriminate.
  - pose proof (H 0%nat) as H0. injection H0 as ->. f_equal. apply IH. intros i. exact (H (S i)).
Qed.

(** The knots without the first and the last one. *)
Definition inner (k : list R) : list R := tl (removelast k).
Lemma inner_length k : length (inner k) = (length k - 2)%nat.
Proof.
  unfold inner. assert (T : forall l : list R, length (tl l) = (length l - 1)%nat) by (destruct l; simpl; lia).
  rewrite T, length_removelast. lia.
Qed.
Lemma inner_kn k i : (i + 2 < length k)%nat -> kn (inner k) i = kn k (S i).
Proof.
  intros Hi. unfold inner, kn. transitivity (nth (S i) (removelast k) 0); [|apply nth_removelast; lia].
  destruct (removelast k) eqn:E; [|reflexivity]. pose proof (length_removelast k) as L. rewrite E in L. simpl in L. lia.
Qed.
Lemma nth_tl {A} (l : list A) i d : nth i (tl l) d = nth (S i) l d.
Proof. destruct l; [destruct i; reflexivity|reflexivity]. Qed.

Lemma inner_knots_ok k n p : knots_ok k n (S p) -> knots_ok (inner k) (n - 1) p.
Proof.
  intros (L & Hp & Hm & Hl). repeat split.
  - rewrite inner_length. lia.
  - lia.
  - intros i j Hij Hj. rewrite inner_length in Hj. rewrite !inner_kn by lia. apply Hm; lia.
  - rewrite !inner_kn by lia. replace (S (n - 1 - 1)) with (n - 1)%nat by lia. replace (S (n - 1)) with n by lia. exact Hl.
Qed.

(** Poles of the derived spline. *)
Definition dpole (k : list R) (p : nat) (P : nat -> R) (i : nat) : R :=
  INR p * (P (i + 1)%nat - P i) / (kn k (i + p + 1) - kn k (i + 1)).

Lemma ffall_SS m d : ffall (S m) (S d) = INR (S m) * ffall m d.
Proof.
  induction d as [|d IH]; [cbn [ffall]; rewrite Nat.sub_0_r; ring|].
  change (ffall (S m) (S (S d))) with (ffall (S m) (S d) * INR (S m - S d)). rewrite IH.
  change (ffall m (S d)) with (ffall m d * INR (m - d)). rewrite Nat.sub_succ. ring.
Qed.

Lemma derived_piece k n m l P d u : knots_ok k n (S m) -> (S m <= l < n)%nat -> kn k l < kn k (S l) ->
  (forall i, (1 <= i < n)%nat -> kn k i < kn k (i + S m)) -> (d <= m)%nat ->
  PS (inner k) m (l - 1) d (dpole k (S m) P) u = PS k (S m) l (S d) P u.
Proof.
  intros Hk Hl Hs Hc Hd. pose proof Hk as (Len & Hp & Hm & Hlast).
  pose proof (blo_symml k n (S m) l P Hk Hl Hs) as (Sym & Lin).
  set (f := blo (kn k) l P) in *.
  set (g := fun args => INR (S m) * f ((1, 0) :: args)).
  assert (Hg : symml m g).
  { split.
    - intros a b La Pab. unfold g. rewrite (Sym ((1, 0) :: a) ((1, 0) :: b)); [reflexivity|simpl; lia|constructor; exact Pab].
    - intros c d' x y r Lr. unfold g.
      rewrite (Sym ((1, 0) :: lc c x d' y :: r) (lc c x d' y :: (1, 0) :: r)) by (try (simpl; lia); constructor).
      rewrite Lin by (simpl; lia).
      rewrite (Sym (x :: (1, 0) :: r) ((1, 0) :: x :: r)) by (try (simpl; lia); constructor).
      rewrite (Sym (y :: (1, 0) :: r) ((1, 0) :: y :: r)) by (try (simpl; lia); constructor). ring. }
  pose proof (inner_knots_ok k n m Hk) as Hk'.
  assert (Hs' : kn (inner k) (l - 1) < kn (inner k) (S (l - 1))).
  { rewrite !inner_kn by lia. replace (S (l - 1)) with l by lia. exact Hs. }
  assert (Dual : forall i, (i <= l - 1)%nat -> (l - 1 <= i + m)%nat -> g (kargs (kn (inner k)) i m) = dpole k (S m) P i).
  { intros i H1 H2. unfold g, dpole.
    rewrite (kargs_shift (kn (inner k)) (kn k) i (i + 1) m) by (intros x Hx; rewrite inner_kn by lia; f_equal; lia).
    set (D := kn k (i + S m + 1) - kn k (i + 1)).
    assert (HD : 0 < D).
    { unfold D. specialize (Hc (i + 1)%nat ltac:(lia)). replace (i + S m + 1)%nat with (i + 1 + S m)%nat by lia. lra. }
    replace (1, 0) with (lc (1 / D) (kn k (i + S m + 1), 1) (- (1 / D)) (kn k (i + 1), 1))
      by (unfold lc; cbn [fst snd]; f_equal; unfold D; field; fold D; lra).
    rewrite Lin by (rewrite kargs_length; reflexivity).
    replace (f ((kn k (i + 1), 1) :: kargs (kn k) (i + 1) m)) with (P i).
    2: { symmetry. replace (i + 1)%nat with (S i) by lia. rewrite <- kargs_S. apply (blo_dual k n (S m)); auto; lia. }
    replace (f ((kn k (i + S m + 1), 1) :: kargs (kn k) (i + 1) m)) with (P (i + 1)%nat).
    2: { symmetry. rewrite (Sym _ (kargs (kn k) (i + 1) m ++ [(kn k (i + S m + 1), 1)]));
           [|simpl; rewrite kargs_length; reflexivity|apply Permutation_cons_append].
         replace [(kn k (i + S m + 1), 1)] with (kargs (kn k) (i + 1 + m) 1)
           by (unfold kargs; cbn [seq map]; do 3 f_equal; lia).
         rewrite <- kargs_app. replace (m + 1)%nat with (S m) by lia. apply (blo_dual k n (S m)); auto; lia. }
    field. lra. }
  assert (Form : forall args, length args = m -> blo (kn (inner k)) (l - 1) (dpole k (S m) P) args = g args).
  { intros args La.
    rewrite <- (NH_repro (kn (inner k)) (l - 1) (n - 1 + m) (knots_mono _ _ _ Hk') Hs' g m args Hg La ltac:(lia) ltac:(lia)).
    unfold blo. apply sumn_ext. intros i Hi.
    destruct (Nat.le_gt_cases (l - 1) (i + m)) as [H|H].
    - rewrite Dual by lia. reflexivity.
    - rewrite (NH_out (kn (inner k)) (l - 1)) by (rewrite La; lia). ring. }
  rewrite !PS_blo, ffall_SS, Form by (rewrite app_length, !repeat_length; lia).
  unfold g, f. rewrite Nat.sub_succ. cbn [repeat app]. ring.
Qed.

Section AtR.
Variable eps : R.
Local Hint Extern 0 (Num R) => exact (NumR eps) : typeclass_instances.

Definition dpoles (k : list R) (p : nat) (P : list (pt R)) : list (pt R) :=
  map (fun i c => dpole k p (pole P c) i) (seq 0 (length P - 1)).

Lemma dpoles_length k p P : length (dpoles k p P) = (length P - 1)%nat.
Proof. unfold dpoles. rewrite map_length, seq_length. reflexivity. Qed.
Lemma dpoles_pole k p P c i : (i < length P - 1)%nat -> pole (dpoles k p P) c i = dpole k p (pole P c) i.
Proof.
  intros Hi. unfold pole at 1, dpoles. rewrite (nth_indep _ _ ((fun j c => dpole k p (pole P c) j) 0%nat)) by (rewrite map_length, seq_length; exact Hi).
  rewrite (map_nth (fun j c => dpole k p (pole P c) j)). rewrite seq_nth by exact Hi. reflexivity.
Qed.

Lemma derivate_built c : well_formed c -> (1 <= c_deg c)%nat -> continuous_knots c ->
  build_derivate c = Ok (mk (c_deg c - 1) (dpoles (c_knots c) (c_deg c) (c_poles c)) (inner (c_knots c))
    (kn (c_knots c) 1) (kn (c_knots c) (c_n c + c_deg c - 1))).
Proof.
  intros Hw Hp Hc. pose proof (wf_knots c Hw) as Hk. pose proof Hk as (Len & Hpn & Hm & Hlast).
  unfold build_derivate. unfold c_n in *. unfold subi.
  destruct (Nat.leb_spec 1 (length (c_poles c))); [|lia]. cbn [bind].
  rewrite (mapM_ok _ (fun i q => dpole (c_knots c) (c_deg c) (pole (c_poles c) q) i)).
  - cbn [bind]. destruct (Nat.leb_spec 1 (c_deg c)); [|lia]. cbn [bind].
    destruct (c_deg c) as [|m] eqn:Ed; [lia|].
    pose proof (inner_knots_ok (c_knots c) (length (c_poles c)) m Hk) as (L' & P' & M' & _).
    fold (inner (c_knots c)). change (map _ _) with (dpoles (c_knots c) (S m) (c_poles c)).
    rewrite (mk_curve_accepts eps); [|rewrite dpoles_length; lia|rewrite dpoles_length; lia|exact M'].
    f_equal. f_equal.
    + rewrite inner_kn by lia. reflexivity.
    + rewrite inner_length, inner_kn by lia. f_equal. lia.
  - intros i Hi%in_seq. rewrite !get_pole by lia. cbn [bind]. rewrite !get_kn by lia. cbn [bind].
    rewrite pdiv_ok.
    + f_equal. apply functional_extensionality. intros q. unfold dpole, pscal, psub. rewrite (nofnat_R eps). nsimp.
      unfold pole. specialize (Hc (i + 1)%nat). unfold c_n in Hc. field.
      specialize (Hc ltac:(lia)). replace (i + 1 + c_deg c)%nat with (i + c_deg c + 1)%nat in Hc by lia. lra.
    + nsimp. specialize (Hc (i + 1)%nat). unfold c_n in Hc. specialize (Hc ltac:(lia)).
      replace (i + 1 + c_deg c)%nat with (i + c_deg c + 1)%nat in Hc by lia. lra.
Qed.

Lemma derivate_evaluable c c' : well_formed c -> evaluable_curve eps c -> (1 <= c_deg c)%nat ->
  c_knots c' = inner (c_knots c) -> c_n c' = (c_n c - 1)%nat -> c_deg c' = (c_deg c - 1)%nat -> evaluable_curve eps c'.
Proof.
  intros Hw He Hp Ek En Ed. pose proof (wf_knots c Hw) as (Len & Hpn & Hm & Hlast).
  unfold evaluable_curve in *. rewrite Ek, En, Ed. destruct He as [He|(Hcl & Hsep & He)]; [left; lia|right].
  split; [|split; [|exact He]].
  - intros i Hi. rewrite !inner_kn by lia. replace (S (c_n c - 1)) with (c_n c) by lia. apply Hcl. lia.
  - intros i j Hij Hj. rewrite inner_length in Hj. rewrite !inner_kn by lia. apply Hsep; lia.
Qed.

Lemma derivate_spec c : 0 <= eps -> well_formed c -> natural_bounds c -> evaluable_curve eps c ->
  (1 <= c_deg c)%nat -> continuous_knots c ->
  exists c', build_derivate c = Ok c' /\ well_formed c' /\ c_deg c' = (c_deg c - 1)%nat /\ c_n c' = (c_n c - 1)%nat /\
    (forall x, in_domain c' x <-> in_domain c x) /\
    forall x d, in_domain c x -> exists q q', value c x (d + 1) = Ok q /\ value c' x d = Ok q' /\ forall i, q' i = q i.
Proof.
  intros He Hw Hb Hev Hp Hc. pose proof (wf_knots c Hw) as Hk. pose proof Hk as (Len & Hpn & Hm & Hlast).
  eexists. split; [apply derivate_built; auto|].
  set (c' := mk _ _ _ _ _). destruct (c_deg c) as [|m] eqn:Ed; [lia|].
  assert (En : c_n c' = (c_n c - 1)%nat) by (unfold c_n, c'; cbn [c_poles]; apply dpoles_length).
  assert (Edg : c_deg c' = m) by (unfold c'; cbn [c_deg]; lia).
  assert (Ek : c_knots c' = inner (c_knots c)) by reflexivity.
  pose proof (inner_knots_ok (c_knots c) (c_n c) m Hk) as Hk'.
  assert (Hw' : well_formed c').
  { destruct Hk' as (L' & P' & M' & La'). split; [|split].
    - unfold shape_ok. rewrite En, Edg, Ek. split; [lia|]. split; [lia|exact M'].
    - rewrite Edg, Ek, !inner_kn by lia. destruct Hw as (_ & F & _). rewrite Ed in F. exact F.
    - rewrite En, Ek. exact La'. }
  assert (Hdom : forall x, in_domain c' x <-> in_domain c x).
  { intros x. unfold in_domain. rewrite En, Edg, Ek, !inner_kn, Ed by lia. replace (S (c_n c - 1)) with (c_n c) by lia. reflexivity. }
  split; [exact Hw'|]. split; [lia|]. split; [exact En|]. split; [exact Hdom|].
  intros x d Hx. destruct Hb as (Blo & Bhi).
  assert (X : kn (c_knots c) (S m) <= x <= kn (c_knots c) (c_n c)) by (unfold in_domain in Hx; rewrite Ed in Hx; exact Hx).
  assert (O1 : out_of_bounds c x = false).
  { destruct (oob_spec eps c x) as [H|]; auto. exfalso. rewrite Blo, Bhi, Ed in H.
    pose proof (Hm 0%nat (S m) ltac:(lia) ltac:(lia)). pose proof (Hm (c_n c) (c_n c + S m)%nat ltac:(lia) ltac:(lia)). lra. }
  assert (O2 : out_of_bounds c' x = false).
  { destruct (oob_spec eps c' x) as [H|]; auto. exfalso. unfold c' in H. cbn [c_lo c_hi] in H.
    pose proof (Hm 1%nat (S m) ltac:(lia) ltac:(lia)). pose proof (Hm (c_n c) (c_n c + S m - 1)%nat ltac:(lia) ltac:(lia)). lra. }
  unfold value. rewrite O1, O2.
  destruct (Nat.le_gt_cases d m) as [Hd|Hd].
  - destruct (span_pack eps (c_knots c) (c_n c) (S m) x Hk X) as (l & _ & Hl & Sp & Hs).
    destruct (eval_value_span eps (c_knots c) (c_n c) (S m) (c_poles c) x (d + 1) l Hk eq_refl Hl Sp ltac:(lia)) as (q & E & Q).
    { unfold evaluable_curve in Hev. rewrite Ed in Hev. exact Hev. }
    destruct (eval_value_span eps (inner (c_knots c)) (c_n c - 1) m (c_poles c') x d (l - 1) Hk') as (q' & E' & Q'); auto.
    + lia.
    + destruct Sp as [Sp|(Sp1 & Sp2)]; [left|right].
      * rewrite !inner_kn by lia. replace (S (l - 1)) with l by lia. exact Sp.
      * rewrite inner_kn by lia. replace (S (c_n c - 1)) with (c_n c) by lia. split; [exact Sp1|lia].
    + pose proof (derivate_evaluable c c' Hw Hev ltac:(lia) Ek En ltac:(lia)) as Hev'. unfold evaluable_curve in Hev'.
      rewrite En, Edg, Ek in Hev'. exact Hev'.
    + exists q, q'. rewrite Ed, Edg, Ek. split; [exact E|]. split; [exact E'|]. intros i. rewrite Q, Q'.
      replace (d + 1)%nat with (S d) by lia. rewrite <- (derived_piece (c_knots c) (c_n c) m l) by
        (auto; unfold continuous_knots in Hc; rewrite Ed in Hc; exact Hc).
      unfold PS. apply sumn_ext. intros j Hj. f_equal.
      unfold c'. cbn [c_poles]. apply dpoles_pole. unfold c_n in *. lia.
  - rewrite !eval_value_high by lia. exists pzero, pzero. auto.
Qed.

(** ** Integration *)
Definition outer (k : list R) : list R := (kn k 0 :: k) ++ [kn k (length k - 1)].
Lemma outer_length k : length (outer k) = (length k + 2)%nat.
Proof. unfold outer. rewrite app_length. simpl. lia. Qed.
Lemma outer_S k i : (i < length k)%nat -> kn (outer k) (S i) = kn k i.
Proof. intros H. unfold outer, kn. rewrite app_nth1 by (simpl; lia). reflexivity. Qed.
Lemma outer_0 k : kn (outer k) 0 = kn k 0.
Proof. reflexivity. Qed.
Lemma outer_last k : kn (outer k) (length k + 1) = kn k (length k - 1).
Proof. unfold outer, kn. rewrite app_nth2 by (simpl; lia). replace (length k + 1 - length (nth 0 k 0%R :: k))%nat with 0%nat by (simpl; lia). reflexivity. Qed.
Lemma inner_outer k : inner (outer k) = k.
Proof.
  unfold inner, outer. rewrite removelast_last. reflexivity.
Qed.

Fixpoint ipole (k : list R) (p : nat) (P : nat -> R) (P0 : R) (i : nat) : R :=
  match i with
  | O => P0
  | S j => P j * (kn k (p + S j) - kn k j) / INR (S p) + ipole k p P P0 j
  end.
Definition ipoles (k : list R) (p : nat) (P : list (pt R)) (P0 : pt R) : list (pt R) :=
  map (fun i c => ipole k p (pole P c) (P0 c) i) (seq 0 (length P + 1)).
Lemma ipoles_length k p P P0 : length (ipoles k p P P0) = (length P + 1)%nat.
Proof. unfold ipoles. rewrite map_length, seq_length. reflexivity. Qed.
Lemma ipoles_pole k p P P0 c i : (i < length P + 1)%nat -> pole (ipoles k p P P0) c i = ipole k p (pole P c) (P0 c) i.
Proof.
  intros Hi. unfold pole at 1, ipoles. rewrite (nth_indep _ _ ((fun j c => ipole k p (pole P c) (P0 c) j) 0%nat)) by (rewrite map_length, seq_length; exact Hi).
  rewrite (map_nth (fun j c => ipole k p (pole P c) (P0 c) j)). rewrite seq_nth by exact Hi. reflexivity.
Qed.

Lemma integrate_built c (P0 : pt R) : shape_ok c ->
  build_integrate c P0 = Ok (mk (c_deg c + 1) (ipoles (c_knots c) (c_deg c) (c_poles c) P0) (outer (c_knots c))
    (kn (c_knots c) 0) (kn (c_knots c) (c_n c + c_deg c))).
Proof.
  intros (Len & Hpn & Hm). unfold c_n in *. set (k := c_knots c) in *. set (P := c_poles c) in *. set (p := c_deg c) in *.
  unfold build_integrate. fold k P p.
  assert (Ef : front k = Ok (kn k 0)) by (destruct k; [simpl in Len; lia|reflexivity]).
  rewrite Ef. cbn [bind]. rewrite back_kn by lia. cbn [bind].
  fold (outer k).
  rewrite set_ok by (rewrite filled_length; lia). cbn [bind].
  destruct (for_inv (fun i s => length s = (length P + 1)%nat /\
      forall j, (j < i)%nat -> nth_error s j = Some (fun q => ipole k p (pole P q) (P0 q) j))
     (fun i new_poles => let* a := get P (i - 1) in let* k1 := get (outer k) (p + 1 + i) in
        let* k0 := get (outer k) i in let* q := pdiv (pscal (nsub k1 k0) a) (nofnat (p + 1)) in
        let* prev := get new_poles (i - 1) in set new_poles i (padd q prev))
     1 (length P + 1 - 1) (upd (filled (length P + 1) pzero) 0 P0)) as (s & Es & Ls & Hs).
  - split; [rewrite upd_length; apply filled_length|]. intros j Hj. replace j with 0%nat by lia.
    rewrite nth_error_upd, filled_length. destruct (Nat.ltb_spec 0 (length P + 1)); [reflexivity|lia].
  - intros i s Hi (Ls & Hs). rewrite get_pole by lia. cbn [bind]. rewrite !get_kn by (rewrite outer_length; lia). cbn [bind].
    rewrite pdiv_ok by (rewrite (nofnat_R eps); apply not_0_INR; lia). cbn [bind].
    rewrite (proj2 (get_some s (i - 1) _) (Hs (i - 1)%nat ltac:(lia))). cbn [bind].
    rewrite set_ok by lia. eexists. split; [reflexivity|]. split; [rewrite upd_length; exact Ls|].
    intros j Hj. rewrite nth_error_upd. destruct (Nat.eqb_spec i j) as [<-|Hne]; [|cbn [andb]; apply Hs; lia].
    destruct (Nat.ltb_spec i (length s)); [|lia]. cbn [andb].
    f_equal. apply functional_extensionality. intros q. destruct i as [|i]; [lia|]. cbn [ipole].
    unfold padd, pscal. nsimp. rewrite (nofnat_R eps), outer_S by lia.
    replace (p + 1 + S i)%nat with (S (p + S i)) by lia. rewrite outer_S by lia. replace (p + 1)%nat with (S p) by lia.
    rewrite Nat.sub_succ, Nat.sub_0_r. unfold pole. field. apply not_0_INR. lia.
  - change (S (length P + 1 - 1)) with (1 + (length P + 1 - 1))%nat in Hs.
    transitivity (let* np := Ok s in mk_curve np (outer k) (p + 1)). { f_equal. exact Es. }
    cbn [bind].
    assert (Eip : s = ipoles k p P P0).
    { apply nth_error_ext. intros j. destruct (Nat.lt_ge_cases j (length P + 1)) as [H|H].
      - rewrite Hs by lia. unfold ipoles. rewrite nth_error_map.
        rewrite (nth_error_nth' (seq 0 (length P + 1)) 0%nat) by (rewrite seq_length; exact H).
        rewrite seq_nth by exact H. reflexivity.
      - rewrite (proj2 (nth_error_None s j)) by lia. symmetry. apply nth_error_None. rewrite ipoles_length. exact H. }
    rewrite Eip. rewrite (mk_curve_accepts eps).
    + f_equal. f_equal. rewrite outer_length. replace (length k + 2 - 1)%nat with (length k + 1)%nat by lia.
      rewrite outer_last. f_equal. lia.
    + rewrite ipoles_length, outer_length. lia.
    + rewrite ipoles_length. lia.
    + intros i j Hij Hj. rewrite outer_length in Hj.
      assert (Pos : forall x, (x < length k + 2)%nat -> exists y, (y < length k)%nat /\ kn (outer k) x = kn k y /\
         (x = 0%nat /\ y = 0%nat \/ x = S y \/ x = (length k + 1)%nat /\ y = (length k - 1)%nat)).
      { intros x Hx. destruct x as [|x]; [exists 0%nat; split; [lia|]; auto|].
        destruct (Nat.lt_ge_cases x (length k)) as [H|H]; [exists x; rewrite outer_S by exact H; auto|].
        exists (length k - 1)%nat. replace (S x) with (length k + 1)%nat by lia. rewrite outer_last. split; [lia|]. auto. }
      destruct (Pos i ltac:(lia)) as (a & Ha & Ea & Ca). destruct (Pos j ltac:(lia)) as (b & Hb & Eb & Cb).
      rewrite Ea, Eb. apply Hm; lia.
Qed.

Lemma integrate_wf c P0 : well_formed c -> forall c2, build_integrate c P0 = Ok c2 -> well_formed c2 /\ natural_bounds c2.
Proof.
  intros Hw c2 E. pose proof Hw as (Sh & F & La). rewrite (integrate_built c P0 Sh) in E. injection E as <-.
  pose proof Sh as (Len & Hpn & Hm). unfold c_n in *.
  set (k := c_knots c) in *. set (P := c_poles c) in *. set (p := c_deg c) in *.
  pose proof (integrate_built c P0 Sh) as E2. unfold c_n in E2. fold k P p in E2.
  assert (Mo : nondecreasing (outer k)).
  { intros i j Hij Hj. rewrite outer_length in Hj.
      assert (Pos : forall x, (x < length k + 2)%nat -> exists y, (y < length k)%nat /\ kn (outer k) x = kn k y /\
         (x = 0%nat /\ y = 0%nat \/ x = S y \/ x = (length k + 1)%nat /\ y = (length k - 1)%nat)).
      { intros x Hx. destruct x as [|x]; [exists 0%nat; split; [lia|]; auto|].
        destruct (Nat.lt_ge_cases x (length k)) as [H|H]; [exists x; rewrite outer_S by exact H; auto|].
        exists (length k - 1)%nat. replace (S x) with (length k + 1)%nat by lia. rewrite outer_last. split; [lia|]. auto. }
      destruct (Pos i ltac:(lia)) as (a & Ha & Ea & Ca). destruct (Pos j ltac:(lia)) as (b & Hb & Eb & Cb).
      rewrite Ea, Eb. apply Hm; lia. }
  split; [split; [|split]|].
  - unfold shape_ok, c_n. cbn [c_knots c_poles c_deg]. rewrite ipoles_length, outer_length. split; [lia|]. split; [lia|exact Mo].
  - cbn [c_knots c_deg]. replace (p + 1)%nat with (S p) by lia. rewrite !outer_S by lia. exact F.
  - unfold c_n. cbn [c_knots c_poles]. rewrite ipoles_length. replace (length P + 1 - 1)%nat with (S (length P - 1)) by lia.
    replace (length P + 1)%nat with (S (length P)) by lia. rewrite !outer_S by lia. exact La.
  - unfold natural_bounds, c_n. cbn [c_knots c_poles c_deg c_lo c_hi]. rewrite ipoles_length. split; [reflexivity|].
    replace (length P + 1 + (p + 1))%nat with (length k + 1)%nat by lia. rewrite outer_last. f_equal. lia.
Qed.

Lemma integrate_spec c P0 : 0 <= eps -> well_formed c -> natural_bounds c -> no_empty_support c ->
  exists c2, build_integrate c P0 = Ok c2 /\ c_deg c2 = (c_deg c + 1)%nat /\ c_n c2 = (c_n c + 1)%nat /\
    bounds c2 = bounds c /\ well_formed c2 /\
    build_derivate c2 = Ok c /\
    (clamped_curve c -> evaluable_curve eps c2 -> exists q, value c2 (c_lo c) 0 = Ok q /\ forall i, q i = P0 i) /\
    (evaluable_curve eps c2 -> forall x d, in_domain c x ->
       exists q q', value c2 x (d + 1) = Ok q /\ value c x d = Ok q' /\ forall i, q' i = q i).
Proof.
  intros He Hw Hb Hs. pose proof Hw as (Sh & F & La). pose proof Sh as (Len & Hpn & Hm).
  pose proof (integrate_built c P0 Sh) as E2. exists (mk (c_deg c + 1) (ipoles (c_knots c) (c_deg c) (c_poles c) P0) (outer (c_knots c))
    (kn (c_knots c) 0) (kn (c_knots c) (c_n c + c_deg c))). split; [exact E2|].
  set (c2 := mk _ _ _ _ _) in *.
  destruct (integrate_wf c P0 Hw c2 E2) as (Hw2 & Hb2).
  assert (En : c_n c2 = (c_n c + 1)%nat) by (unfold c_n, c2; cbn [c_poles]; apply ipoles_length).
  assert (Hc2 : continuous_knots c2).
  { intros i Hi. rewrite En in Hi. unfold c2. cbn [c_knots c_deg]. destruct i as [|i]; [lia|].
    rewrite outer_S by (unfold c_n in *; lia). replace (S i + (c_deg c + 1))%nat with (S (i + c_deg c + 1)) by lia.
    rewrite outer_S by (unfold c_n in *; lia). apply Hs. lia. }
  assert (Ed : build_derivate c2 = Ok c).
  { rewrite derivate_built; auto; [|unfold c2; cbn [c_deg]; lia].
    destruct Hb as (B1 & B2). rewrite En.
    transitivity (Ok (mk (c_deg c) (c_poles c) (c_knots c) (c_lo c) (c_hi c))); [|destruct c; reflexivity].
    f_equal. unfold c2. cbn [c_deg c_poles c_knots]. f_equal.
    - lia.
    - apply nth_error_ext. intros j. destruct (Nat.lt_ge_cases j (length (c_poles c))) as [H|H].
      + unfold dpoles. rewrite ipoles_length, Nat.add_sub, nth_error_map.
        rewrite (nth_error_nth' (seq 0 (length (c_poles c))) 0%nat) by (rewrite seq_length; exact H).
        rewrite seq_nth by exact H. cbn [option_map]. rewrite (nth_error_nth' (c_poles c) (fun _ => 0) H). apply (f_equal (@Some (pt R))).
        apply functional_extensionality. intros q. unfold dpole. rewrite !ipoles_pole by (cbn [Nat.add]; lia). cbn [Nat.add].
        replace (j + 1)%nat with (S j) by lia. cbn [ipole]. replace (j + (c_deg c + 1) + 1)%nat with (S (c_deg c + S j)) by lia.
        unfold c_n in *. rewrite !outer_S by lia. replace (c_deg c + 1)%nat with (S (c_deg c)) by lia.
        specialize (Hs j). unfold c_n in Hs. specialize (Hs H). replace (j + c_deg c + 1)%nat with (c_deg c + S j)%nat in Hs by lia.
        unfold pole. field. split; [apply not_0_INR; lia|lra].
      + rewrite (proj2 (nth_error_None _ _)) by (rewrite dpoles_length, ipoles_length; lia). symmetry. apply nth_error_None. exact H.
    - apply inner_outer.
    - rewrite outer_S by lia. congruence.
    - rewrite B2. replace (c_n c + 1 + (c_deg c + 1) - 1)%nat with (S (c_n c + c_deg c)) by lia. rewrite outer_S by lia. reflexivity. }
  split; [reflexivity|]. split; [exact En|].
  split; [destruct Hb as (B1 & B2); unfold bounds, c2; cbn [c_lo c_hi]; congruence|].
  split; [exact Hw2|]. split; [exact Ed|]. split.
  - intros (Cl & _) Hev2. unfold value. destruct (oob_spec eps c2 (c_lo c)) as [H|_].
    { exfalso. destruct Hb as (B1 & B2). unfold c2 in H. cbn [c_lo c_hi] in H. rewrite B1 in H.
      pose proof (Hm 0%nat (c_n c + c_deg c)%nat ltac:(lia) ltac:(lia)). lra. }
    pose proof (wf_knots c2 Hw2) as Hk2.
    destruct (eval_value_start eps (c_knots c2) (c_n c2) (c_deg c2) (c_poles c2) Hk2 eq_refl Hev2) as (q & E & Q).
    + intros i Hi. unfold c2 in *. cbn [c_knots c_deg] in *. rewrite outer_0. destruct i as [|i]; [reflexivity|].
      rewrite outer_S by lia. apply Cl. lia.
    + rewrite Nat.add_1_r. apply Hw2.
    + exists q. replace (c_lo c) with (kn (c_knots c2) 0) by (destruct Hb as (B1 & _); rewrite B1; reflexivity).
      split; [exact E|]. intros i. rewrite Q. unfold c2. cbn [c_poles].
      change (polec ?a ?b ?d) with (pole a b d). rewrite ipoles_pole by lia. reflexivity.
  - intros Hev2 x d Hx. destruct (derivate_spec c2 He Hw2 Hb2 Hev2) as (c3 & E3 & _ & _ & _ & Hdom & V); auto.
    { unfold c2. cbn [c_deg]. lia. }
    rewrite Ed in E3. injection E3 as <-.
    apply V. apply Hdom. exact Hx.
Qed.
End AtR.
