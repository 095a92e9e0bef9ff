(** Degree elevation of surfaces, overflow, literal cases. *)
From Coq Require Import List Arith ZArith Reals Lia Lra Bool QArith.
From Verif Require Import Model_Base Spec_Base Spec_Basis Spec_Knots Spec_Eval Spec_Curve Spec_Class Spec_Rational Spec_Surface Spec_Elevate
  Model_Basis Model_Knots Model_Curve Model_Rational Model_Surface Model_Elevate
  Proof_Base Proof_Basis Proof_Ders Proof_Eval Proof_PropBasis Proof_Trim Proof_Rational Proof_Surface Proof_SurfEdit Proof_SurfEdit2
  Proof_Elevate Proof_Elevate2 Proof_Elevate3 Proof_Elevate4.
Import ListNotations.
Local Open Scope R_scope.

Section AtR.
Variable eps : R.
Local Hint Extern 0 (Num R) => exact (NumR eps) : typeclass_instances.

Lemma row_transfer2 ku n p ku' n' p' kv m q P P' u du dv v :
  grid_ok ku n p kv m q P -> grid_ok ku' n' p' kv m q P' ->
  evaluable2 eps ku n p kv m q -> evaluable2 eps ku' n' p' kv m q ->
  kn ku p <= u <= kn ku n -> kn ku' p' <= u <= kn ku' n' -> kn kv q <= v <= kn kv m ->
  (forall j c, (j < m)%nat ->
     val (eval_value u ku' (row P' n' j) p' du) c = val (eval_value u ku (row P n j) p du) c) ->
  exists z z', surf_eval u v ku kv P p q du dv = Ok z /\ surf_eval u v ku' kv P' p' q du dv = Ok z' /\
    forall c, z' c = z c.
Proof.
  intros Hg Hg' He He' Hu Hu' Hv H.
  destruct (surf_total eps ku kv n m p q P Hg He u v du dv (conj Hu Hv)) as (z & E).
  destruct (surf_total eps ku' kv n' m p' q P' Hg' He' u v du dv (conj Hu' Hv)) as (z' & E').
  exists z, z'. split; [exact E|]. split; [exact E'|]. intros c. pose proof Hg as (_ & Hkv & _).
  destruct (span_pack eps kv m q v Hkv Hv) as (l2 & _ & Hl2 & Hs2 & _).
  pose proof (surf_rows eps ku kv n m p q P Hg He u v du dv c l2 Hu Hl2 Hs2) as A. unfold SVal in A. rewrite E in A. cbn [val] in A.
  pose proof (surf_rows eps ku' kv n' m p' q P' Hg' He' u v du dv c l2 Hu' Hl2 Hs2) as A'. unfold SVal in A'. rewrite E' in A'. cbn [val] in A'.
  rewrite A, A'. destruct (Nat.leb_spec dv q); [|ring]. apply PS_ext. intros j Hj. apply H. lia.
Qed.

Definition elevF (s : surf R) j : list (pt R) :=
  match increase_degree (s_ku s) (row (s_poles s) (s_nU s) j) (s_degU s) 1 with Ok (_, P) => P | _ => [] end.

Lemma increaseU_prop (s : surf R) U M : 0 < eps -> surface_ok s -> natural_surface s ->
  s_ku s = repeat_each U M -> clamped_knots eps (s_degU s) U M -> (s_degU s <= 11)%nat ->
  exists s', increaseDegreeU s = Ok s' /\ surface_ok s' /\ natural_surface s' /\
    s_degU s' = (s_degU s + 1)%nat /\ s_degV s' = s_degV s /\ s_kv s' = s_kv s /\ s_ku s' = repeat_each U (map S M) /\
    (forall x y, in_surface s' x y <-> in_surface s x y) /\
    (evaluable_surface eps s -> evaluable_surface eps s' -> surfaces_agree eps s s' (same_params s) one).
Proof.
  intros He Hok Hn EU HK H11. pose proof (ck_ckn eps _ U M ltac:(lra) HK) as HC.
  set (p := s_degU s) in *. set (k' := repeat_each U (map S M)). set (n' := poles_for (p + 1) (map S M)).
  assert (En : s_nU s = poles_for p M).
  { unfold s_nU. rewrite EU, (ck_len p U M HC). fold p. lia. }
  assert (J : forall j, (j < s_nV s)%nat ->
     increase_degree (s_ku s) (row (s_poles s) (s_nU s) j) p 1 = Ok (k', elevF s j) /\ length (elevF s j) = n' /\
     clamped_knots eps (p + 1) U (map S M) /\
     forall x d, kn U 0 <= x <= kn U (length U - 1) -> forall c,
        val (eval_value x k' (elevF s j) (p + 1) d) c = val (eval_value x (s_ku s) (row (s_poles s) (s_nU s) j) p d) c).
  { intros j Hj. destruct (elevate_statement eps p 1 U M (row (s_poles s) (s_nU s) j) He HK) as (P' & E & L & K & V).
    { rewrite row_length. exact En. } { lia. }
    change (map (Nat.add 1) M) with (map S M) in *. unfold elevF. fold p. rewrite EU at 1 2. rewrite E.
    rewrite EU. rewrite E. split; [reflexivity|]. split; [exact L|]. split; [exact K|].
    intros x d Hx c. destruct (V x d Hx) as (q & q' & E1 & E2 & V12). unfold k'. rewrite E1, E2. cbn [val]. apply V12. }
  pose proof Hok as (HkU & HkV & LP). pose proof HkV as (LV & HpV & _).
  destruct (J 0%nat ltac:(lia)) as (_ & _ & HK' & _).
  pose proof (ck_ckn eps _ U _ ltac:(lra) HK') as HC'. pose proof (ck_knots_ok _ _ _ HC') as OK'. fold k' n' in OK'.
  set (s' := mks (p + 1) (s_degV s) (rows (elevF s) (s_nV s)) k' (s_kv s) (s_u1 s) (s_u2 s) (s_v1 s) (s_v2 s)).
  assert (N1 : s_nU s' = n') by (unfold s_nU, s'; cbn [s_ku s_degU]; destruct OK' as (L' & _); rewrite L'; lia).
  assert (N2 : s_nV s' = s_nV s) by reflexivity.
  assert (HR : forall j, (j < s_nV s)%nat -> row (s_poles s') n' j = elevF s j).
  { intros j Hj. cbn. apply row_rows; auto. intros i Hi. apply J, Hi. }
  assert (Hok' : surface_ok s').
  { split; [rewrite N1; exact OK'|]. split; [exact HkV|]. rewrite N1, N2. cbn. apply rows_length. intros i Hi. apply J, Hi. }
  assert (Hlast : kn k' (n' + (p + 1)) = kn (s_ku s) (s_nU s + p) /\ kn k' 0 = kn (s_ku s) 0).
  { rewrite EU, En. destruct HC as (A1 & A2 & A3 & A4 & A5 & A6). destruct HC' as (B1 & B2 & B3 & B4 & B5 & B6).
    pose proof (ck_n p U M ltac:(repeat split; auto; apply A6; auto)) as X1. 
    assert (CC : ckn p U M) by (split; [|split; [|split; [|split; [|split]]]]; auto).
    assert (CC' : ckn (p + 1) U (map S M)) by (split; [|split; [|split; [|split; [|split]]]]; auto).
    split.
    - rewrite (ck_at _ U _ CC' (length U - 1)), (ck_at _ U _ CC (length U - 1)); auto; try lia.
      + rewrite pre_S, A5. rewrite (ck_n p U M CC). lia.
      + unfold n'. rewrite (ck_n _ U _ CC'). rewrite pre_S, B5. lia.
    - rewrite (ck_at _ U _ CC' 0), (ck_at _ U _ CC 0); auto; try lia.
      + rewrite pre_0, (ck_pre_1 p U M CC). lia.
      + rewrite pre_0, (ck_pre_1 _ U _ CC'). lia. }
  assert (Hdom : kn k' (p + 1) = kn (s_ku s) p /\ kn k' n' = kn (s_ku s) (s_nU s)).
  { rewrite EU, En. unfold k', n'. rewrite (ck_first _ _ _ HC'), (ck_first _ _ _ HC), (ck_last _ _ _ HC'), (ck_last _ _ _ HC). auto. }
  assert (Hn' : natural_surface s').
  { destruct Hn as (B1 & B2 & B3 & B4). unfold natural_surface. rewrite N1, N2. unfold s'. cbn [s_u1 s_u2 s_v1 s_v2 s_ku s_kv s_degU s_degV].
    rewrite (proj1 Hlast), (proj2 Hlast). auto. }
  exists s'. split; [|split; [exact Hok'|split; [exact Hn'|]]].
  { unfold increaseDegreeU. rewrite nPolesV_ok, nPolesU_ok by auto. cbn [bind].
    set (body := fun (j : nat) (st : list R * list (pt R)) => _).
    destruct (for_inv (fun j st => (1 <= j -> fst st = k')%nat /\ snd st = rows (elevF s) j)
      body 0 (s_nV s) ([], [])) as ([ku P] & EB & B1 & B2).
    - split; [intros; lia|reflexivity].
    - intros j [ku acc] Hj (B0 & B). cbn [snd] in B. subst acc. unfold body.
      rewrite (row_slice (s_poles s) (s_nU s) (s_nV s)) by (auto; lia). cbn [bind]. fold p.
      destruct (J j ltac:(lia)) as (EJ & _). rewrite EJ. cbn [bind].
      eexists; split; [reflexivity|]. cbn [fst snd] in *. split; [intros _|rewrite rows_S; reflexivity].
      destruct (Nat.eqb_spec j 0); [reflexivity|apply B0; lia].
    - cbn [fst snd] in B1, B2. specialize (B1 ltac:(lia)). subst ku P. rewrite EB. reflexivity. }
  do 4 (split; [reflexivity|]). split.
  { intros x y. unfold in_surface, in_rect. rewrite N1, N2. unfold s'. cbn [s_ku s_kv s_degU s_degV]. fold p. rewrite (proj1 Hdom), (proj2 Hdom). tauto. }
  intros Hev Hev' x y x' y' du dv ([Hx Hy] & -> & ->). fold p in Hx.
  assert (Hx' : kn (s_ku s') (s_degU s') <= x <= kn (s_ku s') (s_nU s')).
  { rewrite N1. unfold s'. cbn [s_ku s_degU]. rewrite (proj1 Hdom), (proj2 Hdom). exact Hx. }
  rewrite (surf_value_in eps s) by (try lra; auto; split; auto). rewrite (surf_value_in eps s') by (try lra; auto; split; auto).
  destruct (row_transfer2 (s_ku s) (s_nU s) p (s_ku s') (s_nU s') (p + 1) (s_kv s) (s_nV s) (s_degV s) (s_poles s) (s_poles s') x du dv y)
    as (z & z' & E & E' & V); auto.
  { intros j c Hj. rewrite N1, HR by auto. apply J; auto.
    rewrite EU, En in Hx. rewrite (ck_first _ _ _ HC), (ck_last _ _ _ HC) in Hx. exact Hx. }
  exists z, z'. split; [exact E|]. split; [exact E'|]. intros c. rewrite V. unfold one. ring.
Qed.

Lemma increaseV_prop (s : surf R) U M : 0 < eps -> surface_ok s -> natural_surface s ->
  s_kv s = repeat_each U M -> clamped_knots eps (s_degV s) U M -> (s_degV s <= 11)%nat ->
  exists s', increaseDegreeV s = Ok s' /\ surface_ok s' /\ natural_surface s' /\
    s_degV s' = (s_degV s + 1)%nat /\ s_degU s' = s_degU s /\ s_ku s' = s_ku s /\ s_kv s' = repeat_each U (map S M) /\
    (forall x y, in_surface s' x y <-> in_surface s x y) /\
    (evaluable_surface eps s -> evaluable_surface eps s' -> surfaces_agree eps s s' (same_params s) one).
Proof.
  intros He Hok Hn EU HK H11. unfold increaseDegreeV.
  destruct (invert_prop eps s ltac:(lra) Hok Hn) as (s1 & E1 & Hok1 & Hn1 & D1 & D2 & D3 & D4 & _ & _ & V1).
  rewrite E1. cbn [bind].
  destruct (increaseU_prop s1 U M He Hok1 Hn1) as (s2 & E2 & Hok2 & Hn2 & G1 & G2 & G3 & G4 & G6 & V2); try (rewrite ?D1, ?D3; assumption).
  rewrite E2. cbn [bind].
  destruct (invert_prop eps s2 ltac:(lra) Hok2 Hn2) as (s3 & E3 & Hok3 & Hn3 & F1 & F2 & F3 & F4 & _ & _ & V3).
  rewrite E3. exists s3. split; [reflexivity|]. split; [exact Hok3|]. split; [exact Hn3|].
  do 4 (split; [congruence|]).
  split. { intros x y. rewrite <- (in_swap s2 s3), G6, <- (in_swap s s1) by auto. tauto. }
  intros Hev Hev3.
  assert (Hev1 : evaluable_surface eps s1) by (apply (ev_swap eps s); auto).
  assert (Hev2 : evaluable_surface eps s2) by (apply (ev_swap eps s3); auto; congruence).
  specialize (V1 Hev). specialize (V2 Hev1 Hev2). specialize (V3 Hev2).
  intros x y x' y' du dv (Hin & -> & ->).
  refine (agree_swap eps s s1 s2 s3 (fun u v u' v' du dv => same_params s1 u v u' v' du dv /\ in_surface s2 u' v') one _ V1 V3 _ _
    x y x y du dv _).
  - intros ? ? ? ? ? ? ((A & _) & B). split; assumption.
  - intros. apply in_swap; auto.
  - intros ? ? ? ? ? ? (A & B). apply V2. exact A.
  - split; [split; [apply (in_swap s s1); auto|auto]|].
    apply G6. apply (in_swap s s1); auto.
Qed.

(** increaseDegree on a curve object *)
Lemma curve_statement (c : curve R) t U M : 0 < eps -> c_knots c = repeat_each U M -> clamped_knots eps (c_deg c) U M ->
  length (c_poles c) = poles_for (c_deg c) M -> natural_bounds c -> (c_deg c + t <= 12)%nat ->
  exists c', increaseDegree c t = Ok c' /\ c_deg c' = (c_deg c + t)%nat /\ c_knots c' = repeat_each U (map (Nat.add t) M) /\
    length (c_poles c') = poles_for (c_deg c + t) (map (Nat.add t) M) /\
    c_lo c' = c_lo c /\ c_hi c' = c_hi c /\ natural_bounds c' /\
    forall x d, c_lo c <= x <= c_hi c -> exists q q', value c x d = Ok q /\ value c' x d = Ok q' /\ forall i, q' i = q i.
Proof.
  intros He EK HK LP (B1 & B2) H12. pose proof (ck_ckn eps _ U M ltac:(lra) HK) as HC.
  destruct (elevate_statement eps (c_deg c) t U M (c_poles c) He HK LP H12) as (P' & E & L & K & V).
  pose proof (ck_ckn eps _ U _ ltac:(lra) K) as HC'.
  unfold increaseDegree. rewrite EK, E. cbn [bind]. eexists. split; [reflexivity|].
  assert (Ends : forall p M0, ckn p U M0 -> kn (repeat_each U M0) 0 = kn U 0 /\
     kn (repeat_each U M0) (poles_for p M0 + p) = kn U (length U - 1)).
  { intros p M0 C0. pose proof C0 as (A1 & A2 & A3 & A4 & A5 & A6). split.
    - apply (ck_at p U M0 C0); [lia|]. rewrite pre_0, (ck_pre_1 p U M0 C0). lia.
    - apply (ck_at p U M0 C0); [lia|]. rewrite (ck_n p U M0 C0), pre_S, A5. lia. }
  unfold c_n in B2. rewrite EK in B1, B2. rewrite LP in B2. destruct (Ends _ _ HC) as (X1 & X2). rewrite X1 in B1. rewrite X2 in B2.
  destruct (Ends _ _ HC') as (Y1 & Y2).
  do 2 (split; [reflexivity|]). split; [exact L|]. do 2 (split; [reflexivity|]).
  split. { unfold natural_bounds, c_n. cbn [c_lo c_hi c_knots c_deg c_poles]. rewrite L, Y1, Y2. auto. }
  intros x d Hx. rewrite B1, B2 in Hx. destruct (V x d Hx) as (q & q' & E1 & E2 & V12).
  exists q, q'. split; [|split; [|exact V12]].
  - rewrite (value_guard_eval eps) by (rewrite B1, B2; lra). rewrite EK. exact E1.
  - rewrite (value_guard_eval eps) by (cbn [c_lo c_hi]; rewrite B1, B2; lra). exact E2.
Qed.

(** Above degree 12 the binomial coefficients overflow. *)
Lemma bezier_overflow (P : list (pt R)) p t : (12 < p + t)%nat -> increase_bezier_degree P p t = Undef IntOverflow.
Proof.
  intros H. unfold increase_bezier_degree. replace (p + t + 1)%nat with (S (p + t)) by lia. cbn [for_].
  rewrite Nat.min_0_r. cbn [Nat.add Nat.sub for_].
  assert (B : forall n, binomial_law mul_int n 0 = if (n <=? 12)%nat then Ok (INR (binom n 0)) else Undef IntOverflow).
  { intros n. destruct (Nat.leb_spec n 12); [apply binomial_int; lia|]. unfold binomial_law.
    destruct (Nat.eqb_spec 0 n); [lia|]. destruct (Nat.ltb_spec n 0); [lia|]. rewrite (proj2 (factorial_int n)) by lia. reflexivity. }
  rewrite !B. destruct (Nat.leb_spec p 12); [|reflexivity]. cbn [bind]. destruct (Nat.leb_spec t 12); [|reflexivity]. cbn [bind].
  destruct (Nat.leb_spec (p + t) 12); [lia|]. reflexivity.
Qed.
End AtR.
