(** Extending a surface to a curve: the rows. *)
From Coq Require Import List Arith ZArith Reals Lia Lra Bool.
From Verif Require Import Model_Base Spec_Base Spec_Basis Spec_Knots Spec_Eval Spec_Surface Spec_Interp Spec_Solve Spec_Elevate Spec_Unify Spec_Curve Spec_Gordon Spec_Connect Spec_Stools
  Model_Basis Model_Knots Model_Curve Model_Surface Model_Elevate Model_Unify Model_Interp Model_Gordon Model_Connect Model_Stools
  Proof_Base Proof_Basis Proof_Eval Proof_Insert Proof_Curve Proof_Trim Proof_PropBasis Proof_Ctor
  Proof_Knots Proof_Builders Proof_Elevate2 Proof_Elevate3 Proof_Elevate4 Proof_Unify Proof_Unify2 Proof_Unify3 Proof_Unify4 Proof_Unify5
  Proof_Join Proof_Join2 Proof_Json Proof_SurfEdit2
  Proof_Interp Proof_Interp3 Proof_Surface Proof_SurfEdit Proof_Skin1 Proof_Gordon1 Proof_Gordon2 Proof_Gordon4 Proof_Connect4 Proof_Connect5 Proof_Stools1 Proof_Stools2.
Import ListNotations.
Local Open Scope R_scope.

Section AtR.
Variable eps : R.
Local Hint Extern 0 (Num R) => exact (NumR eps) : typeclass_instances.

Lemma mapM_cps (g : nat -> result (pt R)) u l cs : mapM (fun i => let* x := g i in Ok (mkcp x u i)) l = Ok cs -> map cp_u cs = repeat u (length l).
Proof.
  revert cs. induction l as [|i l IH]; intros cs E; cbn [mapM] in E.
  - injection E as <-. reflexivity.
  - apply bind_inv in E as (a & Ea & E). apply bind_inv in Ea as (x & _ & Ea). injection Ea as <-.
    apply bind_inv in E as (r & Er & E). injection E as <-. cbn [map cp_u length repeat]. rewrite (IH r Er). reflexivity.
Qed.

Lemma mk_curve_fields (P : list (pt R)) k p c : mk_curve P k p = Ok c -> c_deg c = p /\ c_knots c = k /\ c_poles c = P.
Proof.
  intros E. unfold mk_curve in E. apply bind_inv in E as (f & _ & E). apply bind_inv in E as (b & _ & E).
  apply bind_inv in E as (ok & _ & E). destruct ok; [|discriminate]. injection E as <-. auto.
Qed.

Lemma fold_params (cs : list (@cpoint R)) l : fold_left (fun u c => insert_ordered u (cp_u c)) cs l = fold_left insert_ordered (map cp_u cs) l.
Proof. revert l. induction cs as [|c cs IH]; intros l; [reflexivity|]. cbn [fold_left map]. apply IH. Qed.

Lemma ic_frame lu dim (x : R) a y q cs p e : interpolate_constraints lu dim x a y q cs p = Ok e ->
  c_deg e = p /\ build_simple_mult_flat_knots (fold_left insert_ordered (map cp_u cs) [x; y]) p = Ok (c_knots e) /\ length (c_poles e) = (length cs + 2)%nat.
Proof.
  intros E. unfold interpolate_constraints in E. destruct (length cs + 2 <? p + 1)%nat; [discriminate|].
  apply bind_inv in E as (k & Ek & E). apply bind_inv in E as (? & _ & E). apply bind_inv in E as (? & _ & E).
  apply bind_inv in E as (? & _ & E). apply bind_inv in E as (X & _ & E). apply mk_curve_fields in E as (D & K & Q).
  rewrite fold_params in Ek. rewrite K, Q, poles_length. auto.
Qed.

Lemma ext_frame lu dim (c : curve R) q u w (natural : bool) mc e c' q' e' :
  extention_to_point_at lu dim c q u w natural mc = Ok e -> extention_to_point_at lu dim c' q' u w natural mc = Ok e' ->
  c_deg c = c_deg c' -> c_deg e = c_deg e' /\ c_knots e = c_knots e'.
Proof.
  intros E E' D. unfold extention_to_point_at in E, E'. rewrite <- D in E'. set (p := c_deg c) in *.
  apply bind_inv in E as (a & _ & E). apply bind_inv in E as (cs & Ecs & E). apply bind_inv in E' as (a' & _ & E'). apply bind_inv in E' as (cs' & Ecs' & E').
  apply mapM_cps in Ecs. apply mapM_cps in Ecs'.
  assert (L : length cs = length cs') by (rewrite <- (map_length cp_u cs), <- (map_length cp_u cs'), Ecs, Ecs'; reflexivity).
  assert (M : map cp_u cs = map cp_u cs') by congruence.
  destruct ((2 <? p)%nat && natural).
  - apply ic_frame in E as (E1 & E2 & _). apply ic_frame in E' as (E3 & E4 & _). rewrite app_length in E1, E2, E3, E4. rewrite map_app in E2, E4.
    rewrite <- L in E3, E4. rewrite <- M in E4. cbn [map cp_u] in E2, E4. split; [congruence|]. rewrite E2 in E4. injection E4 as ->. reflexivity.
  - apply ic_frame in E as (E1 & E2 & _). apply ic_frame in E' as (E3 & E4 & _). rewrite <- L in E3, E4. rewrite <- M in E4.
    split; [congruence|]. rewrite E2 in E4. injection E4 as ->. reflexivity.
Qed.

Lemma ext_poles lu dim (c : curve R) q u w (natural : bool) mc e : extention_to_point_at lu dim c q u w natural mc = Ok e ->
  (length (c_poles e) <= continuity (c_deg c) mc + 3)%nat.
Proof.
  intros E. unfold extention_to_point_at in E. apply bind_inv in E as (a & _ & E). apply bind_inv in E as (cs & Ecs & E).
  apply mapM_cps in Ecs. rewrite cont_orders_seq, seq_length in Ecs.
  assert (L : length cs = continuity (c_deg c) mc) by (rewrite <- (map_length cp_u cs), Ecs, repeat_length; reflexivity).
  destruct ((2 <? c_deg c)%nat && natural); apply ic_frame in E as (_ & _ & Z); rewrite ?app_length in Z; cbn [length] in Z; lia.
Qed.

(** Transfer between rows of different degrees and knots. *)
Lemma row_transfer_on2 (D : nat -> Prop) ku n p ku' n' p' kv m q P P' u u' du dv v :
  Spec_Surface.grid_ok ku n p kv m q P -> Spec_Surface.grid_ok ku' n' p' kv m q P' ->
  evaluable2 eps ku n p kv m q -> evaluable2 eps ku' n' p' kv m q ->
  kn ku p <= u <= kn ku n -> kn ku' p' <= u' <= kn ku' n' -> kn kv q <= v <= kn kv m ->
  (forall j c, (j < m)%nat -> D c ->
     val (eval_value u' ku' (row P' n' j) p' du) c = val (eval_value u ku (row P n j) p du) c) ->
  exists z z', surf_eval u v ku kv P p q du dv = Ok z /\ surf_eval u' v ku' kv P' p' q du dv = Ok z' /\
    forall c, D c -> z' c = z c.
Proof.
  intros Hg Hg' Hev Hev' Hu Hu' Hv H.
  destruct (surf_total eps ku kv n m p q P Hg Hev u v du dv (conj Hu Hv)) as (z & E).
  destruct (surf_total eps ku' kv n' m p' q P' Hg' Hev' u' v du dv (conj Hu' Hv)) as (z' & E').
  exists z, z'. split; [exact E|]. split; [exact E'|]. intros c Hc. pose proof Hg as (_ & Hkv & _).
  destruct (span_pack eps kv m q v Hkv Hv) as (l2 & _ & Hl2 & Hs2 & _).
  pose proof (surf_rows eps ku kv n m p q P Hg Hev u v du dv c l2 Hu Hl2 Hs2) as A. unfold SVal in A. rewrite E in A. cbn [val] in A.
  pose proof (surf_rows eps ku' kv n' m p' q P' Hg' Hev' u' v du dv c l2 Hu' Hl2 Hs2) as B. unfold SVal in B. rewrite E' in B. cbn [val] in B.
  rewrite A, B. destruct (dv <=? q)%nat; [|reflexivity]. apply PS_ext. intros j Hj. apply H; [lia|exact Hc].
Qed.

Hypothesis He : 0 < eps.

(** A row of a surface is a curve. *)
Lemma row_object s j : csurf eps s -> (j < s_nV s)%nat ->
  let c := mk (s_degU s) (row (s_poles s) (s_nU s) j) (s_ku s) (s_u1 s) (s_u2 s) in
  mk_curve (row (s_poles s) (s_nU s) j) (s_ku s) (s_degU s) = Ok c /\ clamped_object eps c.
Proof.
  intros H Hj c. destruct (csurf_bounds eps He s H) as (B1 & B2 & _). pose proof H as (_ & _ & CU & _).
  destruct (ckn_gk eps He _ _ _ CU) as (K & _). pose proof K as (L & Hn & Hnd & _). split.
  - rewrite (mk_curve_accepts eps); [|rewrite row_length; lia|rewrite row_length; lia|exact Hnd].
    unfold c. rewrite B1, B2. reflexivity.
  - split; [|split; [exact B1|exact B2]]. split; [reflexivity|]. destruct CU as (U & M & C & E & N). exists U, M.
    split; [exact C|]. split; [exact E|]. unfold poles_of, info_of. cbn [fst c c_poles]. rewrite row_length. exact N.
Qed.

Theorem ext_surface_ok lu dim s c u_new (natural : bool) mc :
  let p := s_degU s in let m := continuity p mc in
  complete_solver lu -> csurf eps s -> (1 <= p)%nat -> (s_nV s <= length (c_poles c))%nat -> eps * INR p < u_new - s_u2 s ->
  countable (length (s_ku s)) (length (s_kv s)) ->
  exists e, extention_to_curve_at lu dim s c (s_u2 s) u_new natural mc = Ok e /\ csurf eps e /\
    (1 <= s_degU e <= p)%nat /\ s_degV e = s_degV s /\ s_kv e = s_kv s /\ s_nV e = s_nV s /\ s_u1 e = s_u2 s /\ s_u2 e = u_new /\ (length (s_ku e) <= 2 * length (s_ku s))%nat /\
    (forall j d, (j < s_nV s)%nat -> (d <= m)%nat -> forall i, (i < dim)%nat ->
       val (eval_value (s_u2 s) (s_ku e) (row (s_poles e) (s_nU e) j) (s_degU e) d) i =
       val (eval_value (s_u2 s) (s_ku s) (row (s_poles s) (s_nU s) j) p d) i) /\
    (forall j i, (j < s_nV s)%nat -> (i < dim)%nat ->
       val (eval_value u_new (s_ku e) (row (s_poles e) (s_nU e) j) (s_degU e) 0) i = pole (c_poles c) i j) /\
    (natural = true -> (2 < p)%nat -> forall j i, (j < s_nV s)%nat -> (i < dim)%nat ->
       val (eval_value u_new (s_ku e) (row (s_poles e) (s_nU e) j) (s_degU e) 2) i = 0).
Proof.
  intros p m Hco H Hp HL Hg Hz. unfold countable in Hz.
  destruct (csurf_bounds eps He s H) as (B1 & B2 & B3 & B4 & B5 & B6). pose proof H as (Oks & _ & CU & CV & D1 & D2).
  fold p in D1. assert (Hlt : s_u2 s < u_new) by (pose proof (pos_INR p); pose proof (Rmult_le_pos eps (INR p) ltac:(lra) ltac:(lra)); lra).
  pose proof Oks as (KU & KV & LP). set (n := s_nU s) in *. set (nv := s_nV s) in *.
  assert (Hnv : (0 < nv)%nat) by (destruct KV as (_ & Z & _); lia).
  set (iso := fun j => mk p (row (s_poles s) n j) (s_ku s) (s_u1 s) (s_u2 s)).
  set (qj := fun j => nth j (c_poles c) (fun _ => 0)).
  set (ex := fun j => match extention_to_point_at lu dim (iso j) (qj j) (s_u2 s) u_new natural mc with Ok e => e | _ => iso 0%nat end).
  assert (HE : forall j, (j < nv)%nat -> exists a, curve_jet eps (iso j) (s_u2 s) m a /\
      extention_to_point_at lu dim (iso j) (qj j) (s_u2 s) u_new natural mc = Ok (ex j) /\ bounds (ex j) = (s_u2 s, u_new) /\ (1 <= c_deg (ex j) <= p)%nat /\
      (forall d, (d <= m)%nat -> passes eps dim (ex j) (s_u2 s) d (a d)) /\ passes eps dim (ex j) u_new 0 (qj j) /\
      (natural = true -> (2 < p)%nat -> passes eps dim (ex j) u_new 2 (fun _ => 0)) /\ clamped_object eps (ex j)).
  { intros j Hj. destruct (row_object s j H Hj) as (_ & Ho). fold p n in Ho.
    destruct (object_jet eps (iso j) (s_u2 s) m He Ho ltac:(cbn; lia) ltac:(cbn; lra)) as (a & Ha).
    destruct (ext_at_ok eps lu dim (iso j) (qj j) (s_u2 s) u_new natural mc a Hco He ltac:(cbn; lia) Hlt Ha) as (e & E & Q1 & Q2 & Q3 & Q4 & Q5 & Q6).
    exists a. split; [exact Ha|]. unfold ex. rewrite E. split; [reflexivity|]. split; [exact Q1|]. split; [exact Q2|]. split; [exact Q3|]. split; [exact Q4|].
    split; [exact Q5|]. apply Q6. exact Hg. }
  assert (HF : forall j, (j < nv)%nat -> c_deg (ex j) = c_deg (ex 0%nat) /\ c_knots (ex j) = c_knots (ex 0%nat)).
  { intros j Hj. destruct (HE j Hj) as (_ & _ & E & _). destruct (HE 0%nat Hnv) as (_ & _ & E0 & _).
    exact (ext_frame lu dim _ _ _ _ _ _ _ _ _ _ E E0 eq_refl). }
  set (pe := c_deg (ex 0%nat)) in *. set (ke := c_knots (ex 0%nat)) in *. set (ne := length (c_poles (ex 0%nat))).
  assert (HO : forall j, (j < nv)%nat -> length (c_poles (ex j)) = ne /\ c_lo (ex j) = s_u2 s /\ c_hi (ex j) = u_new).
  { intros j Hj. destruct (HF j Hj) as (F1 & F2). destruct (HE j Hj) as (_ & _ & _ & Bb & _ & _ & _ & _ & (Oj & _)). destruct (HE 0%nat Hnv) as (_ & _ & _ & _ & _ & _ & _ & _ & (O0 & _)).
    unfold bounds in Bb. injection Bb as Bb1 Bb2. split; [|auto].
    destruct (info_gk eps _ _ ltac:(lra) Oj) as ((Z1 & _) & _). destruct (info_gk eps _ _ ltac:(lra) O0) as ((Z2 & _) & _).
    unfold info_of, knots_of, poles_of in Z1, Z2. cbn [fst snd] in Z1, Z2. fold ne pe ke in Z2. rewrite F1, F2 in Z1. fold pe ke in Z1. lia. }
  destruct (HE 0%nat Hnv) as (a0 & Ha0 & E0 & Bb0 & Dp0 & _ & _ & _ & O0). fold pe in Dp0.
  assert (Ce : ckn_of eps pe ke ne).
  { destruct O0 as ((_ & U & M & C & EK & EN) & _). exists U, M. split; [exact C|]. split; [exact EK|exact EN]. }
  set (F := fun j => c_poles (ex j)).
  assert (LF : forall j, (j < nv)%nat -> length (F j) = ne) by (intros j Hj; apply (HO j Hj)).
  unfold extention_to_curve_at. rewrite (nPolesU_ok s Oks), (nPolesV_ok s Oks). cbn [bind]. fold n nv p.
  match goal with |- context [for_ 0 nv ?b ?i0] =>
    destruct (for_inv (fun i st => st = (rows F i, if (i =? 0)%nat then None else Some (pe, ke))) b 0 nv i0) as (st & -> & EP) end.
  { reflexivity. }
  { intros j st Hj ->. rewrite (row_slice _ n nv) by (auto; lia). cbn [bind].
    destruct (row_object s j H ltac:(fold nv; lia)) as (Er & _). fold p n in Er. rewrite Er. cbn [bind].
    rewrite (get_nth (c_poles c) j (fun _ => 0)) by lia. cbn [bind]. fold (iso j). fold (qj j).
    destruct (HE j ltac:(lia)) as (_ & _ & -> & _). cbn [bind fst snd]. eexists. split; [reflexivity|].
    destruct (HF j ltac:(lia)) as (F1 & F2). rewrite rows_S. cbn [Nat.eqb]. f_equal.
    destruct (Nat.eqb_spec j 0) as [->|]; [reflexivity|]. reflexivity. }
  rewrite Nat.add_0_l in EP. subst st. cbn [bind]. destruct (Nat.eqb_spec nv 0) as [|_]; [lia|].
  destruct (ckn_gk eps He _ _ _ Ce) as (Ke & _ & Se & _ & Te & _). pose proof Ke as (Lke & Hne & _).
  assert (Lk : (length ke <= 2 * length (s_ku s))%nat).
  { pose proof (ext_poles _ _ _ _ _ _ _ _ _ E0) as Z. cbn [iso c_deg] in Z. fold ne in Z. pose proof (continuity_le p mc).
    destruct KU as (Z1 & Z2 & _). fold p in Z1, Z2. lia. }
  destruct (csurf_make eps He (rows F nv) ke (s_kv s) pe (s_degV s) ne nv) as (e & Ee & Ces & X1 & X2 & X3 & X4 & X5 & X6 & X7);
    [lia|lia|exact Ce|exact CV|apply rows_length, LF|nia|].
  exists e. split; [exact Ee|]. split; [exact Ces|]. split; [lia|]. split; [exact X2|]. split; [exact X4|]. split; [exact X7|].
  destruct (csurf_bounds eps He e Ces) as (Be1 & Be2 & _). rewrite X3 in Be1, Be2.
  destruct (HO 0%nat Hnv) as (_ & Lo0 & Hi0). destruct O0 as (_ & Ol & Oh). fold ke in Ol, Oh.
  split; [congruence|]. split; [congruence|]. split; [rewrite X3; exact Lk|].
  rewrite X1, X3, X5, X6.
  assert (RR : forall j, (j < nv)%nat -> row (rows F nv) ne j = c_poles (ex j)) by (intros j Hj; apply (row_rows F ne nv j LF Hj)).
  assert (VV : forall j x d q, (j < nv)%nat -> s_u2 s <= x <= u_new -> passes eps dim (ex j) x d q -> forall i, (i < dim)%nat ->
     val (eval_value x ke (row (rows F nv) ne j) pe d) i = q i).
  { intros j x d q Hj Hx (v & Ev & Vq) i Hi. destruct (HO j Hj) as (_ & Loj & Hij). destruct (HF j Hj) as (F1 & F2).
    rewrite (value_guard_eval eps) in Ev by lra. rewrite F1, F2 in Ev. rewrite (RR j Hj), Ev. cbn [val]. apply Vq, Hi. }
  split; [|split].
  - intros j d Hj Hd i Hi. destruct (HE j Hj) as (a & Ha & _ & _ & _ & Pj & _). rewrite (VV j (s_u2 s) d (a d) Hj ltac:(lra) (Pj d Hd) i Hi).
    pose proof (Ha d Hd) as Hv. rewrite (value_guard_eval eps) in Hv by (cbn; lra). cbn [iso c_knots c_poles c_deg] in Hv. rewrite Hv. reflexivity.
  - intros j i Hj Hi. destruct (HE j Hj) as (a & Ha & _ & _ & _ & _ & Qj & _). rewrite (VV j u_new 0%nat (qj j) Hj ltac:(lra) Qj i Hi). reflexivity.
  - intros Hn Hp2 j i Hj Hi. destruct (HE j Hj) as (a & Ha & _ & _ & _ & _ & _ & Nj & _). exact (VV j u_new 2%nat _ Hj ltac:(lra) (Nj Hn Hp2) i Hi).
Qed.
End AtR.
