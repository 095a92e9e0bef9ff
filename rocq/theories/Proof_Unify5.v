(** unify_degree and unify_curves_knots. *)
From Coq Require Import List Arith ZArith Reals Lia Lra Bool Permutation.
From Verif Require Import Model_Base Spec_Base Spec_Basis Spec_Knots Spec_Eval Spec_Class Spec_Rational Spec_Elevate Spec_Unify
  Model_Basis Model_Knots Model_Removal Model_Curve Model_Rational Model_Elevate Model_Unify
  Proof_Base Proof_Basis Proof_Eval Proof_Insert Proof_Curve Proof_Trim Proof_Interp4 Proof_SurfEdit2
  Proof_Knots Proof_Builders Proof_Elevate2 Proof_Elevate3 Proof_Elevate4 Proof_Unify Proof_Unify2 Proof_Unify3 Proof_Unify4.
Import ListNotations.
Local Open Scope R_scope.

Lemma fold_max l : forall d, fold_left max l d = max d (list_max l).
Proof. induction l as [|x l IH]; intros d; cbn [fold_left]; [cbn; lia|]. rewrite IH, list_max_cons. lia. Qed.
Lemma max_degree_ok ds : ds <> [] -> max_degree ds = Ok (list_max ds).
Proof. destruct ds as [|d t]; intros H; [congruence|]. unfold max_degree. rewrite fold_max. reflexivity. Qed.

Section AtR.
Variable eps : R.
Local Hint Extern 0 (Num R) => exact (NumR eps) : typeclass_instances.

Lemma re_ends p U M : ckn p U M -> first_knot (repeat_each U M) = kn U 0 /\ last_knot (repeat_each U M) = kn U (length U - 1).
Proof.
  intros C0. pose proof C0 as (A1 & A2 & A3 & A4 & A5 & A6). unfold first_knot, last_knot. split.
  - apply (ck_at p U M C0); [lia|]. rewrite pre_0, (ck_pre_1 p U M C0). lia.
  - apply (ck_at p U M C0); [lia|]. rewrite (ck_len p U M C0), (ck_n p U M C0), pre_S, A5. lia.
Qed.

Lemma degree_one m (c : @info R) : 0 < eps -> clamped_info eps (snd c) c -> (snd c <= m)%nat -> (m <= 12)%nat ->
  exists P' k', (let '(P, k, p) := c in let* (k, P) := increase_degree k P p (m - p) in Ok (P, k, m)) = Ok (P', k', m) /\
    clamped_info eps m (P', k', m) /\ first_knot k' = first_knot (knots_of c) /\ last_knot k' = last_knot (knots_of c) /\
    (forall x, In x (knots_of c) -> count k' x = (count (knots_of c) x + (m - snd c))%nat) /\
    (forall x, In x k' -> In x (knots_of c)) /\
    forall x d, first_knot (knots_of c) <= x <= last_knot (knots_of c) ->
      same_value eps (knots_of c) (poles_of c) (snd c) x k' P' m x 1 d.
Proof.
  intros He (_ & U & M & HK & EK & LP) Hm H12. destruct c as [[P k] p]. unfold knots_of, poles_of in *. cbn [fst snd] in *.
  destruct (elevate_statement eps p (m - p) U M P He HK LP) as (P' & E & L & K & V); [lia|].
  replace (p + (m - p))%nat with m in * by lia. pose proof (ck_ckn eps p U M ltac:(lra) HK) as HC.
  pose proof (ck_ckn eps m U _ ltac:(lra) K) as HC'. subst k. rewrite E. cbn [bind].
  destruct (re_ends p U M HC) as (A1 & A2). destruct (re_ends m U _ HC') as (B1 & B2).
  exists P', (repeat_each U (map (Nat.add (m - p)) M)). split; [reflexivity|].
  split. { split; [reflexivity|]. exists U, (map (Nat.add (m - p)) M). split; [exact K|]. split; [reflexivity|exact L]. }
  split; [congruence|]. split; [congruence|].
  split; [|split].
  - intros x Hx. apply repeat_each_In in Hx. apply (In_nth _ _ 0) in Hx as (i & Hi & <-). fold (kn U i).
    destruct HC as (LM & _ & Hs & _). destruct HC' as (LM' & _).
    rewrite !re_count_at by assumption.
    rewrite (nth_indep _ 0%nat ((m - p) + 0)%nat) by lia. rewrite map_nth. lia.
  - intros x Hx. apply repeat_each_In in Hx. apply (In_nth _ _ 0) in Hx as (i & Hi & <-). fold (kn U i).
    apply (count_occ_In Req_EM_T). pose proof HC as (LM & L2 & Hs & _). rewrite re_count_at by assumption.
    apply (ck_mult p U M); auto.
  - intros x d Hx. rewrite A1, A2 in Hx. destruct (V x d Hx) as (q & q' & Q1 & Q2 & Q3). exists q, q'.
    split; [exact Q1|]. split; [exact Q2|]. intros c. rewrite pow1, Q3. ring.
Qed.

Lemma unify_degree_ok cs : 0 < eps -> cs <> [] -> (forall c, In c cs -> clamped_info eps (snd c) c /\ (snd c <= 12)%nat) ->
  let m := list_max (map snd cs) in
  exists cs', unify_degree cs = Ok cs' /\ length cs' = length cs /\
    forall i c, nth_error cs i = Some c -> exists P' k', nth_error cs' i = Some (P', k', m) /\
      clamped_info eps m (P', k', m) /\ first_knot k' = first_knot (knots_of c) /\ last_knot k' = last_knot (knots_of c) /\
      (forall x, In x (knots_of c) -> count k' x = (count (knots_of c) x + (m - snd c))%nat) /\
      (forall x, In x k' -> In x (knots_of c)) /\
      forall x d, first_knot (knots_of c) <= x <= last_knot (knots_of c) ->
        same_value eps (knots_of c) (poles_of c) (snd c) x k' P' m x 1 d.
Proof.
  intros He Hne Hc m. unfold unify_degree. rewrite max_degree_ok by (destruct cs; [congruence|discriminate]). cbn [bind]. fold m.
  assert (H12 : (m <= 12)%nat).
  { unfold m. apply list_max_le, Forall_forall. intros d Hd. apply in_map_iff in Hd as (c & <- & Hin). apply Hc, Hin. }
  assert (Hle : forall c, In c cs -> (snd c <= m)%nat) by (intros c Hin; apply list_max_ge, in_map, Hin).
  clearbody m. clear Hne. induction cs as [|c cs IH].
  { exists []. split; [reflexivity|]. split; [reflexivity|]. intros [|i] c Hn; discriminate. }
  destruct IH as (cs' & E & L & V).
  { intros c' Hin. apply Hc. right. exact Hin. } { intros c' Hin. apply Hle. right. exact Hin. }
  destruct (degree_one m c He) as (P' & k' & E1 & R1); [apply Hc; left; reflexivity|apply Hle; left; reflexivity|exact H12|].
  exists ((P', k', m) :: cs'). cbn [mapM]. rewrite E1. cbn [bind]. rewrite E. cbn [bind].
  split; [reflexivity|]. split; [simpl; lia|]. intros [|i] c' Hn.
  - injection Hn as <-. exists P', k'. split; [reflexivity|exact R1].
  - apply (V i c' Hn).
Qed.

(** ** unify_curves_knots *)
Section Curves.
Hypothesis He : 0 < eps.
Variable S : R -> Prop.
Hypothesis Apart : forall x y, S x -> S y -> x = y \/ eps < Rabs (x - y).

Lemma mult_eps_count u l : S u -> (forall x, In x l -> S x) -> multiplicity_eps l u = count l u.
Proof.
  intros Hu. unfold multiplicity_eps.
  assert (G : forall l n, (forall x, In x l -> S x) ->
    fold_left (fun m x => if nltb (nabs (nsub x u)) neps then Datatypes.S m else m) l n = (n + count l u)%nat).
  { clear l. induction l as [|x l IH]; intros n Hl; cbn [fold_left count_occ]; [lia|]. rewrite IH by (intros; apply Hl; right; auto).
    rewrite nabs_R. nsimp. assert (Sx : S x) by (apply Hl; left; auto).
    destruct (Rltb_spec (Rabs (x - u)) eps) as [L|L]; destruct (Req_EM_T x u) as [E|E]; try lia; exfalso.
    - destruct (Apart x u Sx Hu); [auto|lra].
    - subst x. replace (u - u) with 0 in L by ring. rewrite Rabs_R0 in L. lra. }
  intros Hl. rewrite (G l 0%nat Hl). reflexivity.
Qed.

Lemma into_curve p kin : forall km P lo' hi', kmok p km -> inS S km -> length P = npol p km -> Forall (fits S p (lo km) (hi km)) kin ->
  exists km' P', insertKnots (mk p P (fk km) lo' hi') kin = Ok (mk p P' (fk km') lo' hi') /\
    kmok p km' /\ inS S km' /\ length P' = npol p km' /\ lo km' = lo km /\ hi km' = hi km /\
    (forall x, mlt km' x = max (mlt km x) (mlt kin x)) /\ same_cv p km P km' P'.
Proof.
  induction kin as [|[u m] kin IH]; intros km P lo' hi' HC HS HP Hf.
  - exists km, P. split; [reflexivity|]. split; [exact HC|]. split; [exact HS|]. split; [exact HP|].
    split; [reflexivity|]. split; [reflexivity|]. split; [intros x; unfold mlt; cbn; lia|apply same_cv_refl].
  - inversion Hf as [|? ? F1 F2]; subst. unfold insertKnots. cbn [foldM fst snd c_knots].
    assert (Su : S u) by apply F1.
    assert (HSk : forall x, In x (fk km) -> S x) by (intros x Hx; apply HS, (fk_in p km x HC), Hx).
    rewrite (mult_eps_count u (fk km) Su HSk).
    assert (STEP : exists km1 P1, (if (count (fk km) u <? m)%nat then insertKnot (mk p P (fk km) lo' hi') u (m - count (fk km) u)
          else Ok (mk p P (fk km) lo' hi')) = Ok (mk p P1 (fk km1) lo' hi') /\
      kmok p km1 /\ inS S km1 /\ length P1 = npol p km1 /\ lo km1 = lo km /\ hi km1 = hi km /\
      (forall x, mlt km1 x = max (mlt km x) (if Req_EM_T x u then m else 0)) /\ same_cv p km P km1 P1).
    { destruct (Nat.ltb_spec (count (fk km) u) m) as [L|L].
      - unfold insertKnot. cbn [c_deg c_knots c_poles c_lo c_hi].
        destruct (in_dec Req_EM_T u (map fst km)) as [I|N].
        + apply in_map_iff in I as ([v s] & Ev & I). cbn [fst] in Ev. subst v.
          destruct (In_nth_error _ _ I) as (i & En). rewrite (mult_of p km u s HC I) in *.
          destruct (raise_found eps S p km P i u s m HC HS HP En F1 L) as (idx & P1 & E1 & R1). rewrite E1. cbn [bind].
          exists (upd km i (u, m)), P1. split; [reflexivity|exact R1].
        + rewrite (fk_count0 km u N). rewrite Nat.sub_0_r.
          destruct (raise_new eps S p km P u m HC HS HP N F1) as (idx & P1 & E1 & R1). rewrite E1. cbn [bind].
          eexists _, P1. split; [reflexivity|exact R1].
      - exists km, P. split; [reflexivity|]. split; [exact HC|]. split; [exact HS|]. split; [exact HP|].
        split; [reflexivity|]. split; [reflexivity|]. split; [|apply same_cv_refl].
        intros x. destruct (Req_EM_T x u) as [->|]; [|lia]. rewrite (kmok_mlt p) by exact HC. lia. }
    destruct STEP as (km1 & P1 & E1 & C1 & S1 & L1 & A1 & B1 & M1 & V1). rewrite E1. cbn [bind].
    destruct (IH km1 P1 lo' hi' C1 S1 L1) as (km2 & P2 & E2 & C2 & S2 & L2 & A2 & B2 & M2 & V2); [rewrite A1, B1; exact F2|].
    exists km2, P2. split; [exact E2|].
    split; [exact C2|]. split; [exact S2|]. split; [exact L2|]. split; [congruence|]. split; [congruence|].
    split; [|apply (same_cv_trans p km P km1 P1); auto].
    intros x. rewrite M2, M1, mlt_cons. lia.
Qed.
End Curves.

Section Phases.
Hypothesis He : 0 < eps.
Variable p : nat.
Variable k0 : list R.
Variable S : R -> Prop.
Hypothesis Apart : forall x y, S x -> S y -> x = y \/ eps < Rabs (x - y).
Let a := first_knot k0.
Let b := last_knot k0.
Hypothesis Hab : a < b.

Definition moved_curve (c c' : curve R) : Prop :=
  exists km, moved eps p k0 S (info_of c) km /\ c' = mk p (c_poles c) (fk km) a b.

Lemma phase1c rest : Forall (fun c => okinfo eps p k0 S (info_of c)) rest ->
  forall km P done, kmok p km -> inS S km -> lo km = a -> hi km = b -> length P = npol p km ->
  exists km' P' rest', foldM (fun st c =>
        let '(c0, done) := st in
        let* c := changeBounds c (c_lo c0) (c_hi c0) in
        let* km := unflat_pairs (c_knots c) in
        let* c0 := insertKnots c0 km in
        Ok (c0, done ++ [c])) (mk p P (fk km) a b, done) rest = Ok (mk p P' (fk km') a b, done ++ rest') /\
    kmok p km' /\ inS S km' /\ lo km' = a /\ hi km' = b /\ length P' = npol p km' /\ same_cv p km P km' P' /\
    Forall2 moved_curve rest rest' /\
    forall x, mlt km' x = max (mlt km x) (list_max (map (fun c => count (map (rescale k0 (c_knots c)) (c_knots c)) x) rest)).
Proof.
  induction 1 as [|c rest Hc HF IH]; intros km P done H HS E1 E2 LP.
  - exists km, P, []. rewrite app_nil_r. split; [reflexivity|].
    split; [exact H|]. split; [exact HS|]. split; [exact E1|]. split; [exact E2|]. split; [exact LP|].
    split; [apply same_cv_refl|]. split; [constructor|]. intros x. cbn. lia.
  - destruct (moved_ex eps He p k0 S Apart Hab (info_of c) Hc) as (kc & Mc). pose proof Mc as (Hk & Ik & A1 & A2 & Fk & Lp & Ch & Ed & _).
    unfold info_of, knots_of, poles_of in Fk, Lp, Ch, Ed. cbn [fst snd] in Fk, Lp, Ch, Ed. cbn [foldM c_lo c_hi].
    assert (Ecb : changeBounds c a b = Ok (mk (c_deg c) (c_poles c) (fk kc) a b)) by (unfold changeBounds; fold a b in Ch; rewrite Ch; reflexivity).
    rewrite Ecb. cbn [bind c_knots]. rewrite (unflat_fk eps He p kc Hk (spaced_S eps p S Apart kc Hk Ik)). cbn [bind].
    destruct (into_curve He S Apart p kc km P a b H HS LP) as (km1 & P1 & U1 & C1 & S1 & L1 & B1 & B2 & M1 & V1).
    { rewrite E1, E2. unfold a, b. apply fits_of; auto. }
    rewrite U1. cbn [bind].
    destruct (IH km1 P1 (done ++ [mk (c_deg c) (c_poles c) (fk kc) a b]) C1 S1 ltac:(congruence) ltac:(congruence) L1)
      as (km2 & P2 & rest' & U2 & C2 & S2 & F1 & F2 & L2 & V2 & FA & M2).
    exists km2, P2, (mk (c_deg c) (c_poles c) (fk kc) a b :: rest'). rewrite U2, <- app_assoc. split; [reflexivity|].
    split; [exact C2|]. split; [exact S2|]. split; [exact F1|]. split; [exact F2|]. split; [exact L2|].
    split; [apply (same_cv_trans p km P km1 P1); auto|].
    split. { constructor; [|exact FA]. exists kc. split; [exact Mc|]. rewrite Ed. reflexivity. }
    intros x. rewrite M2, M1. cbn [map]. rewrite list_max_cons.
    rewrite <- Fk, (kmok_mlt p kc) by exact Hk. lia.
Qed.

Definition final_curve (km0 : list (R * nat)) (c c' : curve R) : Prop :=
  exists P', c' = mk p P' (fk km0) a b /\ length P' = npol p km0 /\
    forall x d, first_knot (c_knots c) <= x <= last_knot (c_knots c) ->
      same_value eps (c_knots c) (c_poles c) p x (fk km0) P' p (rescale k0 (c_knots c) x) (ratio k0 (c_knots c)) d.

Lemma phase2c km0 rest : forall rest', kmok p km0 -> inS S km0 -> lo km0 = a -> hi km0 = b ->
  Forall2 moved_curve rest rest' ->
  (forall c x, In c rest -> (count (map (rescale k0 (c_knots c)) (c_knots c)) x <= mlt km0 x)%nat) ->
  exists rest2, mapM (fun c => insertKnots c km0) rest' = Ok rest2 /\ Forall2 (final_curve km0) rest rest2.
Proof.
  induction rest as [|c rest IH]; intros rest' H0 S0 E1 E2 HF Hle; inversion HF as [|? c' ? r' HM HF']; subst.
  { exists []. split; [reflexivity|constructor]. }
  destruct (IH r' H0 S0 E1 E2 HF') as (rest2 & ER & FR). { intros d x Hd. apply Hle. right. exact Hd. }
  destruct HM as (km & Mc & ->). pose proof Mc as (Hk & Ik & A1 & A2 & Fk & Lp & Ch & Ed & Vm).
  unfold info_of, knots_of, poles_of in Fk, Lp, Ch, Ed, Vm. cbn [fst snd] in Fk, Lp, Ch, Ed, Vm.
  cbn [mapM].
  destruct (into_curve He S Apart p km0 km (c_poles c) a b Hk Ik Lp) as (km1 & P1 & U1 & C1 & S1 & L1 & B1 & B2 & M1 & V1).
  { rewrite A1, A2. apply fits_of; auto. }
  rewrite U1. cbn [bind]. rewrite ER. cbn [bind].
  assert (EF : fk km1 = fk km0).
  { apply sorted_count_eq; [apply (kmok_nd p), C1|apply (kmok_nd p), H0|]. intros x.
    rewrite <- !(kmok_mlt p) by assumption. rewrite M1. specialize (Hle c x (or_introl eq_refl)).
    rewrite <- Fk, <- (kmok_mlt p) in Hle by exact Hk. lia. }
  exists (mk p P1 (fk km1) a b :: rest2). split; [reflexivity|]. constructor; [|exact FR].
  exists P1. rewrite EF. split; [reflexivity|].
  assert (EN : npol p km1 = npol p km0).
  { pose proof (ck_len p _ _ C1) as Z1. pose proof (ck_len p _ _ H0) as Z2. fold (fk km1) in Z1. fold (fk km0) in Z2.
    rewrite EF in Z1. unfold npol. lia. }
  split; [congruence|]. intros x d Hx. destruct (Vm x d Hx) as (Hr & q & q' & Q1 & Q2 & Q3).
  destruct (eval_same eps He p km (c_poles c) km1 P1 (rescale k0 (c_knots c) x) d Hk (spaced_S eps p S Apart km Hk Ik) Lp C1
     (spaced_S eps p S Apart km1 C1 S1) L1 B1 B2 V1)
    as (r & rr & R1 & R2 & R3). { rewrite A1, A2. exact Hr. }
  rewrite Q2 in R1. injection R1 as <-. exists q, rr. split; [exact Q1|]. split; [rewrite <- EF; exact R2|].
  intros i. rewrite R3. apply Q3.
Qed.
End Phases.

Lemma unify_curves_ok p c0 rest (cs := c0 :: rest) : 0 < eps ->
  Forall (fun c => c_deg c = p /\ clamped_object eps c) cs ->
  knots_apart eps (c_knots c0) (map info_of cs) ->
  exists k cs', unify_curves_knots cs = Ok cs' /\ length cs' = length cs /\ nondecreasing k /\
    (forall x, count k x = max_multiplicity (c_knots c0) (map info_of cs) x) /\
    forall i c, nth_error cs i = Some c -> exists P', nth_error cs' i = Some (mk p P' k (c_lo c0) (c_hi c0)) /\
      (length P' + p + 1 = length k)%nat /\
      forall x d, c_lo c <= x <= c_hi c ->
        exists q q', value c x d = Ok q /\ value (mk p P' k (c_lo c0) (c_hi c0)) (rescale (c_knots c0) (c_knots c) x) d = Ok q' /\
          forall j, ratio (c_knots c0) (c_knots c) ^ d * q' j = q j.
Proof.
  intros He HF0 HA. set (k0 := c_knots c0) in *.
  assert (HF0' : Forall (fun c => clamped_info eps p (info_of c) /\ c_lo c = first_knot (c_knots c) /\ c_hi c = last_knot (c_knots c)) cs).
  { eapply Forall_impl; [|exact HF0]. intros c (<- & Hc). exact Hc. }
  clear HF0. rename HF0' into HF0.
  assert (HF : Forall (fun c => clamped_info eps p (info_of c)) cs) by (eapply Forall_impl; [|exact HF0]; intros c Hc; apply Hc).
  set (S := fun y => exists c x, In c cs /\ In x (c_knots c) /\ y = rescale k0 (c_knots c) x).
  assert (Apart : forall x y, S x -> S y -> x = y \/ eps < Rabs (x - y)).
  { intros x y (c & x' & Hc & Hx & ->) (c' & y' & Hc' & Hy & ->). apply (HA (info_of c) (info_of c')); auto; apply in_map; auto. }
  assert (HO : Forall (fun c => okinfo eps p k0 S (info_of c)) cs).
  { apply Forall_forall. intros c Hc. split; [apply (proj1 (Forall_forall _ _) HF c Hc)|].
    intros x Hx. exists c, x. auto. }
  inversion HO as [|? ? O0 OR]; subst.
  destruct (info_km eps p _ ltac:(lra) (proj1 O0)) as (km & H & Hsp & EK & LP & Dp). unfold info_of, knots_of, poles_of in EK, LP, Dp. cbn [fst snd] in EK, LP, Dp.
  fold k0 in EK. destruct (fk_first p km H) as (E1 & E2). pose proof (lo_hi p km H) as Hlh.
  assert (Hab : first_knot k0 < last_knot k0) by (rewrite EK, E1, E2; exact Hlh).
  assert (Hid : forall x, rescale k0 k0 x = x) by (intros x; apply rescale_self, Hab).
  assert (Hlo : c_lo c0 = first_knot k0 /\ c_hi c0 = last_knot k0) by (inversion HF0; subst; tauto).
  destruct Hlo as (Hlo & Hhi).
  assert (HS : inS S km).
  { intros x Hx. exists c0, x. split; [left; reflexivity|]. fold k0.
    split; [rewrite EK; apply (fk_in p km x H); exact Hx|symmetry; apply Hid]. }
  destruct (phase1c He p k0 S Apart Hab rest OR km (c_poles c0) [] H HS) as (km' & P' & rest' & U & C' & S' & F1 & F2 & L' & V' & FA & M').
  { rewrite EK. symmetry. exact E1. } { rewrite EK. symmetry. exact E2. } { exact LP. }
  assert (HM : forall x, count (fk km') x = max_multiplicity k0 (map info_of cs) x).
  { intros x. rewrite <- (kmok_mlt p) by exact C'. rewrite M'. unfold max_multiplicity, cs. cbn [map]. rewrite list_max_cons.
    unfold info_of, knots_of at 1 2. cbn [fst snd]. fold k0. rewrite (map_ext _ (fun x => x)) by exact Hid. rewrite map_id.
    rewrite (kmok_mlt p) by exact H. rewrite <- EK, map_map. reflexivity. }
  destruct (phase2c He p k0 S Apart km' rest rest' C' S' F1 F2 FA) as (rest2 & U2 & FB).
  { intros c x Hc. rewrite (kmok_mlt p) by exact C'. rewrite HM. unfold max_multiplicity. apply list_max_ge.
    rewrite map_map. apply (in_map (fun c => count (map (rescale k0 (knots_of (info_of c))) (knots_of (info_of c))) x)). right. exact Hc. }
  set (k := fk km') in *. set (D := mk p P' k (c_lo c0) (c_hi c0)).
  exists k, (D :: rest2). split.
  { unfold unify_curves_knots, cs.
    assert (Eall : forallb (fun c => c_deg c =? c_deg c0)%nat (c0 :: rest) = true).
    { apply forallb_forall. intros c Hc. apply (proj1 (Forall_forall _ _) HF) in Hc. apply Nat.eqb_eq.
      destruct Hc as (Hc & _). cbn [info_of snd] in Hc. congruence. }
    rewrite Eall. cbn [negb]. fold k0.
    assert (Eu : unflat_pairs k0 = Ok km) by (rewrite EK; apply (unflat_fk eps He p km H Hsp)).
    rewrite Eu. cbn [bind].
    assert (Ec0 : c0 = mk p (c_poles c0) (fk km) (first_knot k0) (last_knot k0)).
    { destruct c0 as [d P kk l h]. unfold k0 in *. cbn in *. congruence. }
    rewrite Ec0. rewrite U. cbn [bind app c_knots]. unfold k. rewrite (unflat_fk eps He p km' C' (spaced_S eps p S Apart km' C' S')). cbn [bind].
    rewrite U2. cbn [bind]. unfold D. rewrite Hlo, Hhi. reflexivity. }
  split. { unfold cs. cbn [length]. f_equal. clear - FB. induction FB; [reflexivity|]. simpl. lia. }
  split; [apply (kmok_nd p), C'|]. split; [exact HM|].
  pose proof (ck_len p _ _ C') as LK. fold (fk km') in LK. fold (npol p km') in LK. fold k in LK.
  assert (G : forall c P2, In c cs ->
     (forall x d, first_knot (c_knots c) <= x <= last_knot (c_knots c) ->
       same_value eps (c_knots c) (c_poles c) p x k P2 p (rescale k0 (c_knots c) x) (ratio k0 (c_knots c)) d) ->
     forall x d, c_lo c <= x <= c_hi c ->
       exists q q', value c x d = Ok q /\ value (mk p P2 k (c_lo c0) (c_hi c0)) (rescale k0 (c_knots c) x) d = Ok q' /\
          forall j, ratio k0 (c_knots c) ^ d * q' j = q j).
  { intros c P2 Hin HV x d Hx. pose proof (proj1 (Forall_forall _ _) HF0 c Hin) as (Hci & B1 & B2).
    rewrite B1, B2 in Hx. destruct (HV x d Hx) as (q & q' & Q1 & Q2 & Q3). exists q, q'.
    destruct (info_km eps p _ ltac:(lra) Hci) as (kc & Hkc & _ & EKc & _ & Dc). unfold info_of, knots_of in EKc, Dc. cbn [fst snd] in EKc, Dc.
    destruct (fk_first p kc Hkc) as (Z1 & Z2). pose proof (lo_hi p kc Hkc) as Zl. rewrite <- EKc in Z1, Z2.
    split; [rewrite (value_guard_eval eps) by (rewrite B1, B2; lra); rewrite Dc; exact Q1|].
    split; [|exact Q3]. rewrite (value_guard_eval eps); [exact Q2|]. cbn [c_lo c_hi]. rewrite Hlo, Hhi.
    destruct (rescale_ends k0 (c_knots c)) as (Y1 & Y2); [lra|].
    assert (Hm : forall y z, y <= z -> rescale k0 (c_knots c) y <= rescale k0 (c_knots c) z).
    { intros y z [L| ->]; [|lra]. apply Rlt_le, rescale_si; auto. lra. }
    pose proof (Hm (first_knot (c_knots c)) x ltac:(lra)). pose proof (Hm x (last_knot (c_knots c)) ltac:(lra)). lra. }
  intros [|i] c Hc.
  - injection Hc as <-. exists P'. split; [reflexivity|]. split; [lia|]. apply G; [left; reflexivity|].
    intros x d Hx. fold k0. fold k0 in Hx. rewrite Hid.
    destruct (eval_same eps He p km (c_poles c0) km' P' x d H Hsp LP C' (spaced_S eps p S Apart km' C' S') L') as (q & q' & Q1 & Q2 & Q3).
    { rewrite F1, EK. exact E1. } { rewrite F2, EK. exact E2. } { exact V'. } { rewrite EK, E1, E2 in Hx. exact Hx. }
    exists q, q'. split; [rewrite EK; exact Q1|]. split; [exact Q2|]. intros j. rewrite Q3.
    replace (ratio k0 k0) with 1 by (unfold ratio; field; lra). rewrite pow1. ring.
  - cbn [nth_error] in Hc |- *.
    assert (X : exists P2, nth_error rest2 i = Some (mk p P2 k (c_lo c0) (c_hi c0)) /\ (length P2 + p + 1 = length k)%nat /\
       (forall x d, first_knot (c_knots c) <= x <= last_knot (c_knots c) ->
       same_value eps (c_knots c) (c_poles c) p x k P2 p (rescale k0 (c_knots c) x) (ratio k0 (c_knots c)) d)).
    { clear - FB Hc LK Hlo Hhi. revert i Hc. induction FB as [|c1 c1' r r' HF FB IH]; intros [|i] Hc; try discriminate.
      - injection Hc as <-. destruct HF as (Q & -> & LQ & V). exists Q. rewrite Hlo, Hhi. split; [reflexivity|]. split; [fold k in V; lia|exact V].
      - apply (IH i Hc). }
    destruct X as (P2 & X1 & X2 & X3). exists P2. split; [exact X1|]. split; [exact X2|]. apply G; [|exact X3].
    right. apply nth_error_In in Hc. exact Hc.
Qed.
End AtR.
