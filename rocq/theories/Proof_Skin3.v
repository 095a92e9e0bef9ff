(** Interpolation of a grid of points with computed parameters. *)
From Coq Require Import List Arith ZArith Reals Lia Lra Bool.
From Verif Require Import Model_Base Model_Knots Model_Math Model_Basis Model_Curve Model_Interp Model_Surface Model_Skin
  Spec_Base Spec_Basis Spec_Eval Spec_Knots Spec_Interp Spec_Surface Spec_Skin Proof_Base Proof_Eval Proof_Builders Proof_Builders2
  Proof_Band Proof_Interp Proof_Interp2 Proof_Interp3 Proof_Interp4 Proof_Surface Proof_SurfEdit Proof_Tfi Proof_Skin1 Proof_Skin2.
Import ListNotations.
Local Open Scope R_scope.

Section AtR.
Variable eps : R.
Local Hint Extern 0 (Num R) => exact (NumR eps) : typeclass_instances.

Lemma mk_surf_inv (P : list (pt R)) (ku kv : list R) p q s : mk_surf P ku kv p q = Ok s ->
  s = mks p q P ku kv (kn ku 0) (kn ku (length ku - 1)) (kn kv 0) (kn kv (length kv - 1)).
Proof.
  unfold mk_surf. intros E. apply bind_inv in E as (u1 & E1 & E). apply bind_inv in E as (u2 & E2 & E).
  apply bind_inv in E as (v1 & E3 & E). apply bind_inv in E as (v2 & E4 & E).
  destruct (_ =? _)%Z; [|discriminate].
  apply bind_inv in E as (a & _ & E). destruct a; [|discriminate].
  apply bind_inv in E as (b & _ & E). destruct b; [|discriminate]. injection E as <-.
  assert (Lu : (0 < length ku)%nat) by (destruct ku; [discriminate|simpl; lia]).
  assert (Lv : (0 < length kv)%nat) by (destruct kv; [discriminate|simpl; lia]).
  rewrite (front_nth ku 0) in E1 by lia. rewrite (back_nth ku 0) in E2 by lia.
  rewrite (front_nth kv 0) in E3 by lia. rewrite (back_nth kv 0) in E4 by lia. unfold kn. congruence.
Qed.

(** ** Parameters *)
Lemma adim_div (k : list R) : (2 <= length k)%nat -> kn k 0 = 0 -> 0 <= kn k (length k - 1) -> 0 <= eps ->
  exists D, 0 < D /\ (eps < kn k (length k - 1) -> D = kn k (length k - 1)) /\
    exists k', adimension k = Ok k' /\ length k' = length k /\ forall i, (i < length k)%nat -> kn k' i = kn k i / D.
Proof.
  intros L H0 Hd He. unfold adimension. rewrite (back_nth k 0), (front_nth k 0) by lia. cbn [bind].
  fold (kn k (length k - 1)) (kn k 0). rewrite H0. nsimp. rewrite nabs_R, Rminus_0_r, Rabs_right by lra.
  destruct (Rltb_spec eps (kn k (length k - 1))) as [Hlt|Hge].
  - exists (kn k (length k - 1)). split; [lra|]. split; [reflexivity|].
    exists (map (fun x => x / kn k (length k - 1)) k). split.
    { apply mapM_ok. intros; apply divc_ok. lra. }
    split; [apply map_length|]. intros i Hi. unfold kn at 1.
    rewrite (nth_indep _ 0 ((fun x => x / kn k (length k - 1)) 0)) by (rewrite map_length; exact Hi).
    rewrite (map_nth (fun x => x / kn k (length k - 1))). reflexivity.
  - exists 1. split; [lra|]. split; [lra|]. exists k. split; [reflexivity|]. split; [reflexivity|]. intros; field.
Qed.

Lemma param_adim dist mode (pts : list (pt R)) n : 0 <= eps -> (2 <= n)%nat -> length pts = n ->
  (forall i, (S i < n)%nat -> 0 <= chord dist pts mode i) ->
  exists k D, curve_parametrization dist sqrt pts mode true = Ok k /\ length k = n /\ 0 < D /\
    (eps < travelled dist mode pts (n - 1) -> D = travelled dist mode pts (n - 1)) /\
    forall i, (i < n)%nat -> kn k i = travelled dist mode pts i / D.
Proof.
  intros He Hn L Hc. destruct (param_raw eps dist pts mode ltac:(lia)) as (k & E & Lk & V).
  assert (Hnn : 0 <= travelled dist mode pts (n - 1)) by (apply sumn_nonneg; intros; apply Hc; lia).
  assert (Vn : kn k (length k - 1) = travelled dist mode pts (n - 1)) by (rewrite V by lia; rewrite Lk, L; reflexivity).
  destruct (adim_div k) as (D & HD & HDe & k' & E' & L' & V'); try lia; [rewrite V by lia; reflexivity|rewrite Vn; exact Hnn|exact He|].
  exists k', D. rewrite Vn in HDe. split.
  { unfold curve_parametrization in *. apply bind_inv in E as (k1 & E1 & E2). injection E2 as ->. rewrite E1. exact E'. }
  split; [lia|]. split; [exact HD|]. split; [exact HDe|]. intros i Hi. rewrite V' by lia. rewrite V by lia. reflexivity.
Qed.

Lemma avg_ok (param : list (pt R) -> result (list R)) ext ni nj (ps : nat -> list R) : (0 < ni)%nat ->
  (forall i, (i < ni)%nat -> exists r, ext i = Ok r /\ param r = Ok (ps i) /\ length (ps i) = nj) ->
  exists k, avg_params param ext ni nj = Ok k /\ length k = nj /\
    forall j, (j < nj)%nat -> kn k j = sumn ni (fun i => kn (ps i) j / INR ni).
Proof.
  intros Hni Hp. unfold avg_params.
  assert (Hn0 : INR ni <> 0) by (apply not_0_INR; lia).
  destruct (for_inv (fun m acc => length acc = nj /\ forall j, (j < nj)%nat -> kn acc j = sumn m (fun i => kn (ps i) j / INR ni))
    (fun i acc => let* pts := ext i in let* pi := param pts in
      for_ 0 (length pi) (fun j acc => let* x := get pi j in let* q := divc x (nofnat ni) in let* a := get acc j in
        set acc j (nadd a q)) acc) 0 ni (filled nj n0)) as (k & E & L & V).
  - rewrite filled_length. split; [reflexivity|]. intros j Hj. unfold kn. cbn [sumn]. unfold filled. apply nth_repeat.
  - intros i acc Hi (L & V). destruct (Hp i ltac:(lia)) as (r & Er & Ep & Lp). rewrite Er. cbn [bind]. rewrite Ep. cbn [bind]. rewrite Lp.
    destruct (for_inv (fun m a => length a = nj /\ forall j, (j < nj)%nat -> kn a j = kn acc j + (if (j <? m)%nat then kn (ps i) j / INR ni else 0))
      (fun j acc => let* x := get (ps i) j in let* q := divc x (nofnat ni) in let* a := get acc j in set acc j (nadd a q))
      0 nj acc) as (a & Ea & La & Va).
    + split; [exact L|]. intros j Hj. cbn [Nat.ltb Nat.leb]. ring.
    + intros j a Hj (La & Va). rewrite (get_nth (ps i) _ 0) by lia. cbn [bind]. rewrite nofnat_R, divc_ok by exact Hn0. cbn [bind].
      rewrite (get_nth a _ 0) by lia. cbn [bind]. rewrite set_ok by lia. eexists. split; [reflexivity|].
      rewrite upd_length. split; [exact La|]. intros j' Hj'. unfold kn at 1. rewrite nth_upd. nsimp.
      destruct (Nat.eqb_spec j j') as [<-|Hne].
      * destruct (Nat.ltb_spec j (length a)); [|lia]. cbn [andb]. fold (kn a j) (kn (ps i) j). rewrite Va by lia.
        destruct (Nat.ltb_spec j j), (Nat.ltb_spec j (S j)); try lia. ring.
      * cbn [andb]. fold (kn a j'). rewrite Va by lia.
        destruct (Nat.ltb_spec j' j), (Nat.ltb_spec j' (S j)); try lia; reflexivity.
    + exists a. split; [exact Ea|]. split; [exact La|]. intros j Hj. rewrite Va by lia. cbn [Nat.add sumn].
      destruct (Nat.ltb_spec j nj); [|lia]. rewrite V by lia. reflexivity.
  - exists k. auto.
Qed.

Lemma sumn_lt n f g i0 : (forall i, (i < n)%nat -> f i <= g i) -> (i0 < n)%nat -> f i0 < g i0 -> sumn n f < sumn n g.
Proof.
  induction n as [|n IH]; intros H Hi Hlt; [lia|]. cbn [sumn].
  destruct (Nat.eq_dec i0 n) as [->|Hne].
  - pose proof (sumn_le n f g ltac:(intros; apply H; lia)). lra.
  - pose proof (IH ltac:(intros; apply H; lia) ltac:(lia) Hlt). pose proof (H n ltac:(lia)). lra.
Qed.

Lemma succ_strict (k : list R) : (forall i, (S i < length k)%nat -> kn k i < kn k (S i)) -> strictly_increasing k.
Proof.
  intros H i j Hij Hj. induction j as [|j IH]; [lia|].
  destruct (Nat.eq_dec i j) as [->|]; [apply H; lia|]. apply Rlt_trans with (kn k j); [apply IH; lia|apply H; lia].
Qed.

Lemma mean_params_ok dist mode (rows : list (list (pt R))) n (ext : nat -> result (list (pt R))) u u' :
  0 <= eps -> (2 <= n)%nat -> (0 < length rows)%nat -> spread dist mode rows n -> (forall r, In r rows -> length r = n) ->
  (forall i, (i < length rows)%nat -> ext i = Ok (nth i rows [])) ->
  avg_params (fun l => curve_parametrization dist sqrt l mode true) ext (length rows) n = Ok u -> adimension u = Ok u' ->
  mean_params eps dist mode rows n u'.
Proof.
  intros He Hn Hr (Hc & Hs) Hl Hext E E'.
  set (T := fun j i => travelled dist mode (nth j rows []) i).
  assert (Hin : forall j, (j < length rows)%nat -> In (nth j rows []) rows) by (intros; apply nth_In; assumption).
  (* the parametrisations and their divisors *)
  assert (Hps : exists (ps : nat -> list R) (D : nat -> R), forall j, (j < length rows)%nat ->
    curve_parametrization dist sqrt (nth j rows []) mode true = Ok (ps j) /\ length (ps j) = n /\ 0 < D j /\
    (eps < T j (n - 1)%nat -> D j = T j (n - 1)%nat) /\ forall i, (i < n)%nat -> kn (ps j) i = T j i / D j).
  { set (g := fun j => match curve_parametrization dist sqrt (nth j rows []) mode true with Ok k => k | _ => [] end).
    assert (G : forall m, (m <= length rows)%nat -> exists (D : nat -> R), forall j, (j < m)%nat ->
      curve_parametrization dist sqrt (nth j rows []) mode true = Ok (g j) /\ length (g j) = n /\ 0 < D j /\
      (eps < T j (n - 1)%nat -> D j = T j (n - 1)%nat) /\ forall i, (i < n)%nat -> kn (g j) i = T j i / D j).
    { induction m as [|m IH]; intros Hm; [exists (fun _ => 1); intros; lia|].
      destruct (IH ltac:(lia)) as (D & HD).
      destruct (param_adim dist mode (nth m rows []) n He Hn (Hl _ (Hin m ltac:(lia)))) as (k & d & E1 & E2 & E3 & E4 & E5).
      { intros i Hi. apply Hc; [apply Hin; lia|exact Hi]. }
      exists (fun j => if (j =? m)%nat then d else D j). intros j Hj. destruct (Nat.eqb_spec j m) as [->|Hne].
      - unfold g. rewrite E1. split; [reflexivity|]. split; [exact E2|]. split; [exact E3|]. split; [exact E4|exact E5].
      - apply HD. lia. }
    destruct (G (length rows) (le_n _)) as (D & HD). exists g, D. exact HD. }
  destruct Hps as (ps & D & HP).
  destruct (avg_ok (fun l => curve_parametrization dist sqrt l mode true) ext (length rows) n ps Hr) as (k & Ek & Lk & Vk).
  { intros i Hi. exists (nth i rows []). destruct (HP i Hi) as (A & B & _). auto. }
  rewrite E in Ek. injection Ek as <-.
  assert (Hi0 : 0 < INR (length rows)) by (apply lt_0_INR; lia).
  assert (Vu : forall i, (i < n)%nat -> kn u i = sumn (length rows) (fun j => T j i / D j / INR (length rows))).
  { intros i Hi. rewrite Vk by exact Hi. apply sumn_ext. intros j Hj. destruct (HP j Hj) as (_ & _ & _ & _ & V). rewrite V by exact Hi. reflexivity. }
  assert (U0 : kn u 0 = 0).
  { rewrite Vu by lia. apply sumn_zero. intros j Hj. unfold T, travelled. cbn [sumn]. destruct (HP j Hj) as (_ & _ & HD & _). field. split; lra. }
  assert (Hstep : forall j i, (j < length rows)%nat -> (S i < n)%nat -> T j i / D j / INR (length rows) <= T j (S i) / D j / INR (length rows)).
  { intros j i Hj Hi. unfold T, travelled. cbn [sumn]. destruct (HP j Hj) as (_ & _ & HD & _).
    pose proof (Hc (nth j rows []) i (Hin j Hj) Hi). apply Rmult_le_compat_r; [apply Rlt_le, Rinv_0_lt_compat; lra|].
    apply Rmult_le_compat_r; [apply Rlt_le, Rinv_0_lt_compat; lra|]. lra. }
  assert (Uinc : forall i, (S i < n)%nat -> kn u i < kn u (S i)).
  { intros i Hi. rewrite !Vu by lia. destruct (Hs i Hi) as (r & Hr' & Hpos). apply (In_nth _ _ []) in Hr' as (j & Hj & <-).
    apply (sumn_lt _ _ _ j); [intros j' Hj'; apply Hstep; assumption|exact Hj|].
    unfold T, travelled. cbn [sumn]. destruct (HP j Hj) as (_ & _ & HD & _).
    apply Rmult_lt_compat_r; [apply Rinv_0_lt_compat; lra|]. apply Rmult_lt_compat_r; [apply Rinv_0_lt_compat; lra|]. lra. }
  assert (Uin : strictly_increasing u) by (apply succ_strict; intros; apply Uinc; lia).
  destruct (adim_div u) as (d & Hd & Hde & k & Ek & L' & V'); try lia; try exact He; try exact U0.
  { rewrite <- U0 at 1. apply Rlt_le, Uin; lia. }
  rewrite E' in Ek. injection Ek as <-. split; [lia|]. split.
  { apply succ_strict. intros i Hi. rewrite !V' by lia. apply Rmult_lt_compat_r; [apply Rinv_0_lt_compat; lra|]. apply Uinc. lia. }
  split. { rewrite V' by lia. rewrite U0. field. lra. }
  intros He1 Hlong i Hi.
  assert (HDj : forall j, (j < length rows)%nat -> D j = T j (n - 1)%nat).
  { intros j Hj. destruct (HP j Hj) as (_ & _ & _ & HD & _). apply HD. apply Hlong. apply Hin. exact Hj. }
  assert (Ulast : kn u (length u - 1) = 1).
  { rewrite Lk, Vu by lia. rewrite (sumn_ext _ _ (fun _ => / INR (length rows))).
    - rewrite sumn_const. field. lra.
    - intros j Hj. rewrite <- (HDj j Hj). destruct (HP j Hj) as (_ & _ & HD & _). field. split; lra. }
  rewrite V' by lia. rewrite Hde by lra. rewrite Ulast, Vu by exact Hi. unfold Rdiv at 1. rewrite Rinv_1, Rmult_1_r.
  rewrite (sumn_ext _ _ (fun j => / INR (length rows) * (T j i / T j (n - 1)%nat))).
  - rewrite sumn_scal. apply Rmult_comm.
  - intros j Hj. rewrite (HDj j Hj). unfold Rdiv. ring.
Qed.

(** ** The surface *)
Lemma extract_U_ok (Q : list (pt R)) nu nv j : length Q = (nu * nv)%nat -> (0 < nu)%nat -> (j < nv)%nat ->
  extract_U j Q nu = Ok (row Q nu j).
Proof.
  intros L Hn Hj. unfold extract_U. destruct (Nat.eqb_spec nu 0); [lia|].
  rewrite L, Nat.mul_comm, Nat.mod_mul by lia. cbn [Nat.eqb negb]. unfold row. apply mapM_ok. intros i Hi. apply in_seq in Hi.
  rewrite (get_nth Q _ (fun _ => 0)) by nia. f_equal. f_equal. lia.
Qed.
Lemma extract_V_ok (Q : list (pt R)) nu nv i : length Q = (nu * nv)%nat -> (0 < nu)%nat -> (i < nu)%nat ->
  extract_V i Q nu = Ok (col Q nu nv i).
Proof.
  intros L Hn Hi. unfold extract_V. destruct (Nat.eqb_spec nu 0); [lia|].
  rewrite L, (Nat.mul_comm nu nv), Nat.mod_mul, Nat.div_mul by lia. cbn [Nat.eqb negb]. unfold col. apply mapM_ok. intros j Hj. apply in_seq in Hj.
  rewrite (get_nth Q _ (fun _ => 0)) by nia. reflexivity.
Qed.

Lemma simple_knots (u : list R) p k : (1 <= p)%nat -> (p < length u)%nat -> strictly_increasing u ->
  build_simple_mult_flat_knots u p = Ok k ->
  knots_ok k (length u) p /\ kn k p = kn u 0 /\ kn k (length u) = kn u (length u - 1) /\
  kn k 0 = kn u 0 /\ kn k (length k - 1) = kn u (length u - 1) /\
  (forall x, In x u -> kn k p <= x <= kn k (length u)).
Proof.
  intros Hp Hl Hs E.
  destruct (build_simple_spec eps u p Hp ltac:(lia) Hs) as (k' & Ek' & (Lk & Hnd & Ka & Kb & _) & _ & Kst).
  rewrite E in Ek'. injection Ek' as <-. split; [|split; [apply Ka; lia|split; [apply Kb; lia|split; [apply Ka; lia|split; [apply Kb; lia|]]]]].
  - split; [exact Lk|]. split; [lia|]. split; [exact Hnd|].
    replace (length u) with (S (length u - 1)) at 2 by lia. apply Kst; lia.
  - intros x Hx. destruct (In_nth u x 0 Hx) as (i & Hi & <-). change (nth i u 0) with (kn u i).
    rewrite (Ka p), (Kb (length u)) by lia. split; apply (strict_mono u Hs); lia.
Qed.

Lemma grid_ok_interp lu dist mode dim (Q : list (pt R)) nu nv p q s : exact_solver lu -> 0 <= eps ->
  (1 <= p < nu)%nat -> (1 <= q < nv)%nat -> length Q = (nu * nv)%nat ->
  spread dist mode (rows_of Q nu nv) nu -> spread dist mode (cols_of Q nu nv) nv ->
  interpolate_grid lu (fun l => curve_parametrization dist sqrt l mode true) dim Q nv p q = Ok s -> evaluable_surface eps s ->
  s_degU s = p /\ s_degV s = q /\ length (s_poles s) = (nu * nv)%nat /\
  exists u v, mean_params eps dist mode (rows_of Q nu nv) nu u /\ mean_params eps dist mode (cols_of Q nu nv) nv v /\
    s_u1 s = 0 /\ s_u2 s = kn u (nu - 1) /\ s_v1 s = 0 /\ s_v2 s = kn v (nv - 1) /\
    forall i j, (i < nu)%nat -> (j < nv)%nat ->
      surface_passes eps dim s (kn u i) (kn v j) 0 0 (nth (i + nu * j) Q (fun _ => 0)).
Proof.
  intros Hex He Hp Hq LQ Su Sv E Hev. unfold interpolate_grid in E.
  destruct (Nat.eqb_spec nv 0); [lia|]. rewrite LQ, Nat.mod_mul, Nat.div_mul in E by lia. cbn [Nat.eqb negb] in E.
  apply bind_inv in E as (u0 & E1 & E). apply bind_inv in E as (u & E2 & E). apply bind_inv in E as (ku & E3 & E).
  apply bind_inv in E as (v0 & E4 & E). apply bind_inv in E as (v & E5 & E). apply bind_inv in E as (kv & E6 & E).
  apply bind_inv in E as (P & E7 & E). apply mk_surf_inv in E. 
  assert (LR : length (rows_of Q nu nv) = nv) by (unfold rows_of; rewrite map_length, seq_length; reflexivity).
  assert (LC : length (cols_of Q nu nv) = nu) by (unfold cols_of; rewrite map_length, seq_length; reflexivity).
  assert (Mu : mean_params eps dist mode (rows_of Q nu nv) nu u).
  { apply (mean_params_ok dist mode (rows_of Q nu nv) nu (fun i => extract_U i Q nu) u0); rewrite ?LR; try lia; try assumption.
    - intros r Hr. apply in_map_iff in Hr as (j & <- & _). unfold row. rewrite map_length, seq_length. reflexivity.
    - intros i Hi. unfold rows_of. rewrite nth_map_seq by exact Hi. apply extract_U_ok with nv; try assumption; lia. }
  assert (Mv : mean_params eps dist mode (cols_of Q nu nv) nv v).
  { apply (mean_params_ok dist mode (cols_of Q nu nv) nv (fun i => extract_V i Q nu) v0); rewrite ?LC; try lia; try assumption.
    - intros r Hr. apply in_map_iff in Hr as (j & <- & _). unfold col. rewrite map_length, seq_length. reflexivity.
    - intros i Hi. unfold cols_of. rewrite nth_map_seq by exact Hi. apply extract_V_ok; try assumption; lia. }
  pose proof Mu as (Lu & Iu & U0 & _). pose proof Mv as (Lv & Iv & V0 & _).
  destruct (simple_knots u p ku) as (Ku & Ku1 & Ku2 & Ku3 & Ku4 & Ku5); try assumption; try lia.
  destruct (simple_knots v q kv) as (Kv & Kv1 & Kv2 & Kv3 & Kv4 & Kv5); try assumption; try lia.
  assert (NU : s_nU s = nu) by (subst s; unfold s_nU; cbn [s_ku s_degU]; destruct Ku as (A & _); lia).
  assert (NV : s_nV s = nv) by (subst s; unfold s_nV; cbn [s_kv s_degV]; destruct Kv as (A & _); lia).
  assert (Hev' : evaluable2 eps ku (length u) p kv (length v) q).
  { unfold evaluable_surface in Hev. rewrite NU, NV in Hev. rewrite Lu, Lv. subst s. exact Hev. }
  destruct (grid_poles_ok eps lu dim Q ku kv u v p q P Hex Ku Kv Hev' Ku5 Kv5 E7) as (_ & LP & HV).
  rewrite Lu, Lv in *.
  assert (Hok : surface_ok s).
  { unfold surface_ok. rewrite NU, NV. subst s. cbn [s_ku s_kv s_degU s_degV s_poles]. split; [exact Ku|split; [exact Kv|exact LP]]. }
  assert (Hnat : natural_surface s).
  { unfold natural_surface. rewrite NU, NV. subst s. cbn [s_ku s_kv s_degU s_degV s_u1 s_u2 s_v1 s_v2].
    destruct Ku as (Lku & _), Kv as (Lkv & _). rewrite Lku, Lkv. repeat split; f_equal; lia. }
  split; [subst s; reflexivity|]. split; [subst s; reflexivity|]. split; [subst s; exact LP|].
  exists u, v. split; [exact Mu|]. split; [exact Mv|].
  do 4 (split; [subst s; cbn [s_u1 s_u2 s_v1 s_v2]; congruence|]).
  intros i j Hi Hj. destruct (HV i j Hi Hj) as (z & Ez & Vz). exists z. split; [|exact Vz].
  rewrite (surf_value_in eps); [|exact He|exact Hok|exact Hnat|].
  2:{ unfold in_surface. rewrite NU, NV. subst s. cbn [s_ku s_kv s_degU s_degV].
      split; [apply Ku5|apply Kv5]; apply nth_In; lia. }
  subst s. exact Ez.
Qed.
End AtR.
