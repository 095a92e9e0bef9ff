(** Lofts: the surface carries its sections. *)
From Coq Require Import List Arith ZArith Reals Lia Lra Bool.
From Verif Require Import Model_Base Model_Knots Model_Math Model_Basis Model_Curve Model_Interp Model_Surface Model_Unify Model_Skin
  Spec_Base Spec_Basis Spec_Eval Spec_Knots Spec_Interp Spec_Surface Spec_Elevate Spec_Unify Spec_Skin Proof_Base Proof_Eval Proof_Curve
  Proof_Elevate2 Proof_Unify Proof_Unify3 Proof_Unify4 Proof_Unify5 Proof_Interp Proof_Interp2 Proof_Interp3 Proof_Interp4 Proof_Surface Proof_SurfEdit Proof_SurfEdit2
  Proof_Tfi Proof_Skin1 Proof_Skin2 Proof_Skin3 Proof_Skin5 Proof_Skin6.
Import ListNotations.
Local Open Scope R_scope.

Section AtR.
Variable eps : R.
Local Hint Extern 0 (Num R) => exact (NumR eps) : typeclass_instances.

Lemma clamped_ok p P (k : list R) : 0 < eps -> clamped_info eps p (P, k, p) ->
  knots_ok k (length P) p /\ kn k p = first_knot k /\ kn k (length P) = last_knot k.
Proof.
  intros He H. destruct (info_km eps p _ ltac:(lra) H) as (km & K1 & _ & K3 & K4 & _).
  unfold knots_of, poles_of in *. cbn [fst snd] in *. subst k. rewrite K4.
  destruct (fk_first p km K1) as (-> & ->). destruct (fk_dom p km K1) as (D1 & D2).
  split; [exact (ck_knots_ok p _ _ K1)|]. split; [exact D1|exact D2].
Qed.

Lemma loft_info_ok lu dim c0 rest (cs := c0 :: rest) (v kv : list R) q P ku p : 0 < eps -> exact_solver lu -> (0 < dim)%nat ->
  (forall c, In c cs -> clamped_info eps (snd c) c /\ (snd c <= 12)%nat) -> knots_apart eps (knots_of c0) cs ->
  knots_ok kv (length v) q -> (forall n, (length ku = n + p + 1)%nat -> evaluable2 eps ku n p kv (length v) q) ->
  (forall x, In x v -> kn kv q <= x <= kn kv (length v)) ->
  loft_info lu dim cs v kv q = Ok (P, ku, p) ->
  p = list_max (map snd cs) /\ length cs = length v /\
  exists nu, knots_ok ku nu p /\ length P = (nu * length v)%nat /\
    first_knot ku = first_knot (knots_of c0) /\ last_knot ku = last_knot (knots_of c0) /\
    kn ku p = first_knot ku /\ kn ku nu = last_knot ku /\
    forall j c x d, nth_error cs j = Some c -> first_knot (knots_of c) <= x <= last_knot (knots_of c) ->
      first_knot ku <= rescale (knots_of c0) (knots_of c) x <= last_knot ku /\
      exists z z', eval_value x (knots_of c) (poles_of c) (snd c) d = Ok z /\
        surf_eval (rescale (knots_of c0) (knots_of c) x) (nth j v 0) ku kv P p q d 0 = Ok z' /\
        forall i, (i < dim)%nat -> ratio (knots_of c0) (knots_of c) ^ d * z' i = z i.
Proof.
  intros He Hex Hdim Hc Ha Hkv Hev Hv E. unfold loft_info in E.
  destruct (unify_all eps c0 rest He Hc Ha) as (k & us & EU & LU & Fk & Lk & _ & _ & _ & V). fold cs in V, EU, LU.
  apply bind_inv in E as (us1 & E1 & E). apply bind_inv in E as (us2 & E2 & E).
  assert (E3 : us2 = us) by (rewrite E1 in EU; cbn [bind] in EU; congruence). subst us2.
  destruct (V 0%nat c0 eq_refl) as (P0 & N0 & C0 & Len0 & _).
  unfold get in E. rewrite N0 in E. cbn [bind] in E.
  apply bind_inv in E as (P1 & EP & E). injection E as <- <- <-.
  destruct (clamped_ok _ P0 k He C0) as (Kk & Kp & Kn).
  set (m := list_max (map snd cs)) in *.
  destruct (loft_poles_ok eps lu dim (map (fun c : info => fst (fst c)) us) k kv v (length P0) m q P1 Hex Hdim Kk Hkv (Hev _ (proj1 Kk)) Hv) as (L1 & L2 & HV).
  { intros c Hin. apply in_map_iff in Hin as (c' & <- & Hin). apply In_nth_error in Hin as (i & Hi).
    destruct (nth_error cs i) as [c1|] eqn:Ei.
    2:{ exfalso. apply nth_error_None in Ei. apply (Nat.lt_irrefl i). refine (Nat.lt_le_trans _ _ _ _ Ei). rewrite <- LU. exact (nth_error_lt _ _ _ Hi). }
    destruct (V i c1 Ei) as (P' & Hi' & _ & Len & _). pose proof (eq_trans (eq_sym Hi) Hi') as Heq. injection Heq as ->. cbn [fst]. lia. }
  { exact EP. }
  split; [reflexivity|]. rewrite map_length in L1. split; [congruence|].
  exists (length P0). split; [exact Kk|]. split; [exact L2|]. split; [exact Fk|]. split; [exact Lk|]. split; [exact Kp|]. split; [exact Kn|].
  intros j c x d Hj Hx. destruct (V j c Hj) as (P' & Hj' & _ & _ & S). destruct (S x d Hx) as (Hr & z & zc & Z1 & Z2 & Z3).
  split; [exact Hr|].
  destruct (HV j P' (rescale (knots_of c0) (knots_of c) x) d) as (w & w' & W1 & W2 & W3).
  { rewrite nth_error_map, Hj'. reflexivity. } { rewrite Kp, Kn. exact Hr. }
  rewrite Z2 in W2. injection W2 as <-. exists z, w. split; [exact Z1|]. split; [exact W1|]. intros i Hi. rewrite W3 by exact Hi. apply Z3.
Qed.

Lemma sections_info c0 rest : loftable eps c0 (c0 :: rest) ->
  (forall c, In c (map info_of (c0 :: rest)) -> clamped_info eps (snd c) c /\ (snd c <= 12)%nat).
Proof. intros (H & _) c Hc. apply in_map_iff in Hc as (d & <- & Hd). destruct (H d Hd) as ((A & _) & B). split; [exact A|exact B]. Qed.

(** The surface made from the poles. *)
Lemma loft_finish lu dim c0 rest (cs := c0 :: rest) (v kv : list R) q P ku p s : 0 < eps -> exact_solver lu -> (0 < dim)%nat ->
  loftable eps c0 cs -> knots_ok kv (length v) q ->
  (forall x, In x v -> kn kv q <= x <= kn kv (length v)) ->
  loft_info lu dim (curves_info cs) v kv q = Ok (P, ku, p) -> mk_surf P ku kv p q = Ok s -> evaluable_surface eps s ->
  s_degU s = list_max (map c_deg cs) /\ s_degV s = q /\ length cs = length v /\
  s_u1 s = c_lo c0 /\ s_u2 s = c_hi c0 /\ s_v1 s = kn kv 0 /\ s_v2 s = kn kv (length kv - 1) /\
  surface_ok s /\ natural_surface s /\
  forall j c, nth_error cs j = Some c -> forall x d, c_lo c <= x <= c_hi c ->
    in_surface s (rescale (c_knots c0) (c_knots c) x) (nth j v 0) /\
    exists z z', value c x d = Ok z /\ eval_value x (c_knots c) (c_poles c) (c_deg c) d = Ok z /\
      surf_value s (rescale (c_knots c0) (c_knots c) x) (nth j v 0) d 0 = Ok z' /\
      surf_eval (rescale (c_knots c0) (c_knots c) x) (nth j v 0) (s_ku s) (s_kv s) (s_poles s) (s_degU s) (s_degV s) d 0 = Ok z' /\
      forall i, (i < dim)%nat -> ratio (c_knots c0) (c_knots c) ^ d * z' i = z i.
Proof.
  intros He Hex Hdim Hl Hkv Hv EI E Hev. apply (mk_surf_inv eps) in E.
  assert (Lkv : length kv = (length v + q + 1)%nat) by apply Hkv.
  assert (Hev' : forall n, (length ku = n + p + 1)%nat -> evaluable2 eps ku n p kv (length v) q).
  { intros n Hn. unfold evaluable_surface, s_nU, s_nV in Hev. subst s. cbn [s_ku s_kv s_degU s_degV] in Hev.
    replace n with (length ku - p - 1)%nat by lia. replace (length v) with (length kv - q - 1)%nat by lia. exact Hev. }
  destruct (loft_info_ok lu dim (info_of c0) (map info_of rest) v kv q P ku p He Hex Hdim (sections_info c0 rest Hl) (proj2 Hl) Hkv Hev' Hv EI)
    as (Hp & Hlen & nu & Kk & LP & F & L & Kp & Kn' & V).
  assert (Lku : length ku = (nu + p + 1)%nat) by apply Kk.
  destruct (proj1 Hl c0 (or_introl eq_refl)) as ((_ & O1 & O2) & _).
  assert (NU : s_nU s = nu) by (subst s; unfold s_nU; cbn [s_ku s_degU]; lia).
  assert (NV : s_nV s = length v) by (subst s; unfold s_nV; cbn [s_kv s_degV]; lia).
  assert (HO : surface_ok s) by (unfold surface_ok; rewrite NU, NV; subst s; split; [exact Kk|split; [exact Hkv|exact LP]]).
  assert (HN : natural_surface s).
  { unfold natural_surface. rewrite NU, NV. subst s. cbn [s_u1 s_u2 s_v1 s_v2 s_ku s_kv s_degU s_degV]. repeat split; f_equal; lia. }
  unfold first_knot, last_knot in F, L.
  split; [subst s; cbn [s_degU]; rewrite Hp; cbn [map]; rewrite map_map; reflexivity|].
  split; [subst s; reflexivity|]. split; [cbn [length] in Hlen |- *; rewrite map_length in Hlen; exact Hlen|].
  split; [subst s; cbn [s_u1]; rewrite O1; exact F|]. split; [subst s; cbn [s_u2]; rewrite O2; exact L|].
  split; [subst s; reflexivity|]. split; [subst s; reflexivity|]. split; [exact HO|]. split; [exact HN|].
  intros j c Hj x d Hx.
  destruct (proj1 Hl c (nth_error_In _ _ Hj)) as ((_ & Oc1 & Oc2) & _). 
  destruct (V j (info_of c) x d) as (Hr & z & z' & Z1 & Z2 & Z3).
  { change (info_of c0 :: map info_of rest) with (map info_of cs). rewrite nth_error_map, Hj. reflexivity. }
  { unfold info_of, knots_of. cbn [fst snd]. rewrite <- Oc1, <- Oc2. exact Hx. }
  unfold info_of, knots_of, poles_of in Hr, Z1, Z2, Z3. cbn [fst snd] in Hr, Z1, Z2, Z3.
  assert (Hj' : (j < length v)%nat).
  { cbn [length] in Hlen. rewrite map_length in Hlen. rewrite <- Hlen. change (S (length rest)) with (length cs). apply nth_error_Some. rewrite Hj. discriminate. }
  assert (IN : in_surface s (rescale (c_knots c0) (c_knots c) x) (nth j v 0)).
  { unfold in_surface. rewrite NU, NV. subst s. cbn [s_ku s_kv s_degU s_degV]. split; [rewrite Kp, Kn'; exact Hr|].
    apply Hv. apply nth_In. exact Hj'. }
  split; [exact IN|]. exists z, z'. rewrite value_guard_eval by lra. split; [exact Z1|]. split; [exact Z1|].
  assert (Z2' : surf_eval (rescale (c_knots c0) (c_knots c) x) (nth j v 0) (s_ku s) (s_kv s) (s_poles s) (s_degU s) (s_degV s) d 0 = Ok z') by (subst s; exact Z2).
  split; [rewrite (surf_value_in eps s _ _ d 0 ltac:(lra) HO HN IN); exact Z2'|]. split; [exact Z2'|]. exact Z3.
Qed.
End AtR.
