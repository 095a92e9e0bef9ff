(** Proofs of the surface properties C29, C30, C31 and examples. *)
From Coq Require Import List Arith ZArith Reals Lia Lra Bool.
From Verif Require Import Model_Base Model_Basis Model_Rational Model_Curve Model_Surface Spec_Base Spec_Basis Spec_Eval Spec_Class
  Spec_Rational Spec_Surface Proof_Base Proof_Blossom Proof_Basis Proof_Ders Proof_Eval Proof_PropBasis Proof_Rational
  Proof_Quotient Proof_Surface Proof_Surface2 Proof_Surface3 Proof_Grid Proof_SurfEdit Proof_SurfEdit2 Proof_PropRemove2.
Import ListNotations.
Local Open Scope R_scope.

Section AtR.
Variable eps : R.
Local Hint Extern 0 (Num R) => exact (NumR eps) : typeclass_instances.

Lemma surface_value (s : surf R) u v : 0 <= eps -> surface_ok s -> natural_surface s -> evaluable_surface eps s -> in_surface s u v ->
  exists z, surf_value s u v 0 0 = Ok z /\
    forall c, z c = tensor (s_ku s) (s_nU s) (s_degU s) (s_kv s) (s_nV s) (s_degV s) (s_poles s) c u v.
Proof.
  intros He Hok Hn Hev Hin. rewrite (surf_value_in eps) by auto.
  exact (surf_tensor eps _ _ _ _ _ _ _ Hok Hev u v Hin).
Qed.

Lemma surface_rows_first (s : surf R) u v du dv : 0 <= eps -> surface_ok s -> natural_surface s -> evaluable_surface eps s -> in_surface s u v ->
  exists z R z', surf_value s u v du dv = Ok z /\
    mapM (fun j => eval_value u (s_ku s) (row (s_poles s) (s_nU s) j) (s_degU s) du) (seq 0 (s_nV s)) = Ok R /\
    eval_value v (s_kv s) R (s_degV s) dv = Ok z' /\ forall c, z' c = z c.
Proof.
  intros He Hok Hn Hev Hin. rewrite (surf_value_in eps) by auto.
  exact (surf_rows_eval eps _ _ _ _ _ _ _ Hok Hev u v du dv Hin).
Qed.
Lemma surface_cols_first (s : surf R) u v du dv : 0 <= eps -> surface_ok s -> natural_surface s -> evaluable_surface eps s -> in_surface s u v ->
  exists z R z', surf_value s u v du dv = Ok z /\
    mapM (fun i => eval_value v (s_kv s) (col (s_poles s) (s_nU s) (s_nV s) i) (s_degV s) dv) (seq 0 (s_nU s)) = Ok R /\
    eval_value u (s_ku s) R (s_degU s) du = Ok z' /\ forall c, z' c = z c.
Proof.
  intros He Hok Hn Hev Hin. rewrite (surf_value_in eps) by auto.
  exact (surf_cols_eval eps _ _ _ _ _ _ _ Hok Hev u v du dv Hin).
Qed.

Lemma val_in (s : surf R) u v du dv c : 0 <= eps -> surface_ok s -> natural_surface s -> in_surface s u v ->
  val (surf_value s u v du dv) c = SVal eps (s_ku s) (s_kv s) (s_degU s) (s_degV s) (s_poles s) u v du dv c.
Proof. intros He Hok Hn Hin. rewrite (surf_value_in eps) by auto. unfold SVal. destruct (surf_eval _ _ _ _ _ _ _ _ _); reflexivity. Qed.

Lemma surface_partial_u (s : surf R) D u v du dv c : 0 <= eps -> surface_ok s -> natural_surface s -> evaluable_surface eps s ->
  side (s_ku s) (s_nU s) (s_degU s) D u -> kn (s_kv s) (s_degV s) <= v <= kn (s_kv s) (s_nV s) ->
  D_in (fun x => val (surf_value s x v du dv) c) (fun x => val (surf_value s x v (S du) dv) c) D u.
Proof.
  intros He Hok Hn Hev Hs Hv. pose proof Hok as (Hku & _ & _). destruct (side_dom _ _ _ _ _ Hku Hs) as (Hu & HD).
  eapply D_in_ext; [| | |apply (surf_D_u eps _ _ _ _ _ _ _ Hok Hev D u v du dv c Hs Hv)].
  - intros y Hy. cbv beta. symmetry. apply val_in; auto. split; [apply HD, Hy|exact Hv].
  - cbv beta. symmetry. apply val_in; auto. split; auto.
  - cbv beta. symmetry. apply val_in; auto. split; auto.
Qed.
Lemma surface_partial_v (s : surf R) D u v du dv c : 0 <= eps -> surface_ok s -> natural_surface s -> evaluable_surface eps s ->
  side (s_kv s) (s_nV s) (s_degV s) D v -> kn (s_ku s) (s_degU s) <= u <= kn (s_ku s) (s_nU s) ->
  D_in (fun y => val (surf_value s u y du dv) c) (fun y => val (surf_value s u y du (S dv)) c) D v.
Proof.
  intros He Hok Hn Hev Hs Hv. pose proof Hok as (_ & Hku & _). destruct (side_dom _ _ _ _ _ Hku Hs) as (Hu & HD).
  eapply D_in_ext; [| | |apply (surf_D_v eps _ _ _ _ _ _ _ Hok Hev D u v du dv c Hs Hv)].
  - intros y Hy. cbv beta. symmetry. apply val_in; auto. split; [exact Hv|apply HD, Hy].
  - cbv beta. symmetry. apply val_in; auto. split; auto.
  - cbv beta. symmetry. apply val_in; auto. split; auto.
Qed.

Lemma guard_pass (s : surf R) u v : 0 <= eps -> surface_ok s -> natural_surface s -> in_surface s u v ->
  out_u s u = false /\ out_v s v = false.
Proof.
  intros He (Hku & Hkv & _) (N1 & N2 & N3 & N4) [Hu Hv]. unfold out_u, out_v. nsimp. cbn [neps NumR].
  pose proof (knots_span _ _ _ _ Hku Hu). pose proof (knots_span _ _ _ _ Hkv Hv). rewrite N1, N2, N3, N4.
  destruct (Rltb_spec u (kn (s_ku s) 0 - eps)); [lra|]. destruct (Rltb_spec (kn (s_ku s) (s_nU s + s_degU s) + eps) u); [lra|].
  destruct (Rltb_spec v (kn (s_kv s) 0 - eps)); [lra|]. destruct (Rltb_spec (kn (s_kv s) (s_nV s + s_degV s) + eps) v); [lra|].
  split; reflexivity.
Qed.

Lemma surface_table (s : surf R) u v nu nv : 0 <= eps -> surface_ok s -> natural_surface s -> evaluable_surface eps s -> in_surface s u v ->
  exists t, surf_derivatives s u v nu nv = Ok t /\ length t = ((nu + 1) * (nv + 1))%nat /\
    forall a b, (a <= nu)%nat -> (b <= nv)%nat -> exists z, surf_value s u v a b = Ok z /\
      forall c, nth (a * (nv + 1) + b) t pzero c = z c.
Proof.
  intros He Hok Hn Hev Hin. unfold surf_derivatives. destruct (guard_pass s u v He Hok Hn Hin) as [-> ->].
  destruct (surf_ders_spec eps _ _ _ _ _ _ _ Hok Hev u v nu nv Hin) as (t & E & L & V). exists t. split; [exact E|]. split; [exact L|].
  intros a b Ha Hb. rewrite (surf_value_in eps) by auto.
  destruct (surf_total eps _ _ _ _ _ _ _ Hok Hev u v a b Hin) as (z & Ez). exists z. split; [exact Ez|].
  intros c. specialize (V a b c Ha Hb). unfold cell, SVal in V. rewrite Ez in V. exact V.
Qed.

Lemma surface_outside (s : surf R) u v du dv : 
  u < s_u1 s - eps \/ s_u2 s + eps < u \/ v < s_v1 s - eps \/ s_v2 s + eps < v ->
  surf_value s u v du dv = Throw OutOfBoundsEval /\ surf_derivatives s u v du dv = Throw OutOfBoundsEval /\
  forall dim, surf_rational_value dim s u v du dv = Throw OutOfBoundsEval /\
    surf_rational_derivatives dim s u v du dv = Throw OutOfBoundsEval.
Proof.
  intros H. unfold surf_value, surf_derivatives, surf_rational_value, surf_rational_derivatives.
  assert (X : out_u s u = true \/ (out_u s u = false /\ out_v s v = true)).
  { unfold out_u, out_v. nsimp. cbn [neps NumR].
    destruct (Rltb_spec u (s_u1 s - eps)); [auto|]. destruct (Rltb_spec (s_u2 s + eps) u); [auto|].
    destruct (Rltb_spec v (s_v1 s - eps)); [auto|]. destruct (Rltb_spec (s_v2 s + eps) v); [auto|]. lra. }
  destruct X as [->|[-> ->]]; auto.
Qed.

(** ** Rational surfaces *)
Definition tns (s : surf R) (c : nat) (u v : R) : R :=
  tensor (s_ku s) (s_nU s) (s_degU s) (s_kv s) (s_nV s) (s_degV s) (s_poles s) c u v.

Lemma rational_rq2 dim (s : surf R) u v du dv : 0 <= eps -> surface_ok s -> natural_surface s -> evaluable_surface eps s -> in_surface s u v ->
  tns s dim u v <> 0 -> (du <= 20)%nat -> (dv <= 20)%nat ->
  exists z, surf_rational_value dim s u v du dv = Ok z /\ forall c, (c < dim)%nat ->
    z c = rq2 (fun i j => val (surf_value s u v i j) c) (fun i j => val (surf_value s u v i j) dim) du dv.
Proof.
  intros He Hok Hn Hev Hin Hw Hdu Hdv.
  destruct (surf_tensor eps _ _ _ _ _ _ _ Hok Hev u v Hin) as (z0 & E0 & V0).
  assert (W : SVal eps (s_ku s) (s_kv s) (s_degU s) (s_degV s) (s_poles s) u v 0 0 dim <> 0).
  { unfold SVal. rewrite E0, V0. exact Hw. }
  assert (X : forall c k l, rq2 (fun i j => SVal eps (s_ku s) (s_kv s) (s_degU s) (s_degV s) (s_poles s) u v i j c)
      (fun i j => SVal eps (s_ku s) (s_kv s) (s_degU s) (s_degV s) (s_poles s) u v i j dim) k l =
    rq2 (fun i j => val (surf_value s u v i j) c) (fun i j => val (surf_value s u v i j) dim) k l).
  { intros c k l. apply (rq2_ext _ _ _ _ (k + l)); auto; intros i j _ _; symmetry; apply val_in; auto. }
  unfold surf_rational_value, surf_rational_derivatives. destruct (guard_pass s u v He Hok Hn Hin) as [-> ->].
  destruct ((du =? 0) && (dv =? 0))%nat eqn:Z.
  - apply andb_true_iff in Z. destruct Z as [Z1 Z2]. apply Nat.eqb_eq in Z1, Z2. subst du dv. rewrite E0. cbn [bind].
    eexists. split; [reflexivity|]. intros c Hc. rewrite <- X, rq2_eq. unfold sumn, SVal. rewrite E0.
    unfold weight_projection. rewrite (proj2 (neqb_R_false eps _ _)) by (rewrite V0; exact Hw). cbn [val]. nsimp. simpl. unfold Rdiv. f_equal. ring.
  - destruct (surf_rational_spec eps _ _ _ _ _ _ _ Hok Hev dim u v du dv Hin W Hdu Hdv) as (t & E & L & V).
    rewrite E. cbn [bind]. rewrite (get_nth t _ pzero) by nia. eexists. split; [reflexivity|].
    intros c Hc. rewrite <- X. apply (V du dv c); lia.
Qed.
Lemma rational_in dim (s : surf R) u v du dv c : 0 <= eps -> surface_ok s -> natural_surface s -> evaluable_surface eps s -> in_surface s u v ->
  tns s dim u v <> 0 -> (du <= 20)%nat -> (dv <= 20)%nat -> (c < dim)%nat ->
  val (surf_rational_value dim s u v du dv) c =
    rq2 (fun i j => val (surf_value s u v i j) c) (fun i j => val (surf_value s u v i j) dim) du dv.
Proof. intros. destruct (rational_rq2 dim s u v du dv) as (z & E & V); auto. rewrite E. apply V; auto. Qed.

Lemma surface_rational_value dim (s : surf R) u v : 0 <= eps -> surface_ok s -> natural_surface s -> evaluable_surface eps s -> in_surface s u v ->
  tns s dim u v <> 0 ->
  exists z, surf_rational_value dim s u v 0 0 = Ok z /\ forall c, (c < dim)%nat -> z c = tns s c u v / tns s dim u v.
Proof.
  intros He Hok Hn Hev Hin Hw. destruct (rational_rq2 dim s u v 0 0) as (z & E & V); auto with arith.
  exists z. split; [exact E|]. intros c Hc. rewrite V by auto. rewrite rq2_eq. cbn [sumn].
  destruct (surface_value s u v He Hok Hn Hev Hin) as (z0 & E0 & V0). rewrite E0. cbn [val]. rewrite !V0.
  unfold tns. f_equal. ring.
Qed.

Lemma W00 dim (s : surf R) x v : 0 <= eps -> surface_ok s -> natural_surface s -> evaluable_surface eps s ->
  (forall x y, in_surface s x y -> tns s dim x y <> 0) -> in_surface s x v -> val (surf_value s x v 0 0) dim <> 0.
Proof.
  intros He Hok Hn Hev Hw Hin. destruct (surface_value s x v He Hok Hn Hev Hin) as (z0 & E0 & V0). rewrite E0. cbn [val].
  rewrite V0. apply Hw, Hin.
Qed.

Lemma surface_rational_u dim (s : surf R) D u v du dv c : 0 <= eps -> surface_ok s -> natural_surface s -> evaluable_surface eps s ->
  (forall x y, in_surface s x y -> tns s dim x y <> 0) -> (du < 20)%nat -> (dv <= 20)%nat -> (c < dim)%nat ->
  side (s_ku s) (s_nU s) (s_degU s) D u -> kn (s_kv s) (s_degV s) <= v <= kn (s_kv s) (s_nV s) ->
  D_in (fun x => val (surf_rational_value dim s x v du dv) c) (fun x => val (surf_rational_value dim s x v (S du) dv) c) D u.
Proof.
  intros He Hok Hn Hev Hw Hdu Hdv Hc Hs Hv. pose proof Hok as (Hku & _ & _). destruct (side_dom _ _ _ _ _ Hku Hs) as (Hu & HD).
  pose proof (rq2_D_in (fun i j x => val (surf_value s x v i j) c) (fun i j x => val (surf_value s x v i j) dim) D u) as Q.
  assert (IN : forall y, D y -> in_surface s y v) by (intros y Hy; split; [apply HD, Hy|exact Hv]).
  assert (INu : in_surface s u v) by (split; auto).
  eapply D_in_ext; [| | |apply Q].
  - intros y Hy. cbv beta. symmetry. apply rational_in; auto; lia.
  - cbv beta. symmetry. apply rational_in; auto; lia.
  - cbv beta. symmetry. apply rational_in; auto; lia.
  - intros k l. apply surface_partial_u; auto.
  - intros k l. apply surface_partial_u; auto.
  - apply W00; auto.
  - intros y Hy. apply W00; auto.
Qed.
Lemma surface_rational_v dim (s : surf R) D u v du dv c : 0 <= eps -> surface_ok s -> natural_surface s -> evaluable_surface eps s ->
  (forall x y, in_surface s x y -> tns s dim x y <> 0) -> (du <= 20)%nat -> (dv < 20)%nat -> (c < dim)%nat ->
  side (s_kv s) (s_nV s) (s_degV s) D v -> kn (s_ku s) (s_degU s) <= u <= kn (s_ku s) (s_nU s) ->
  D_in (fun y => val (surf_rational_value dim s u y du dv) c) (fun y => val (surf_rational_value dim s u y du (S dv)) c) D v.
Proof.
  intros He Hok Hn Hev Hw Hdu Hdv Hc Hs Hv. pose proof Hok as (_ & Hku & _). destruct (side_dom _ _ _ _ _ Hku Hs) as (Hu & HD).
  pose proof (rq2_D_in (fun i j x => val (surf_value s u x j i) c) (fun i j x => val (surf_value s u x j i) dim) D v) as Q.
  assert (IN : forall y, D y -> in_surface s u y) by (intros y Hy; split; [exact Hv|apply HD, Hy]).
  assert (INu : in_surface s u v) by (split; auto).
  eapply D_in_ext; [| | |apply Q].
  - intros y Hy. cbv beta. symmetry. rewrite rational_in by (auto; lia). apply (rq2_transpose _ _ (du + dv)). reflexivity.
  - cbv beta. symmetry. rewrite rational_in by (auto; lia). apply (rq2_transpose _ _ (du + dv)). reflexivity.
  - cbv beta. symmetry. rewrite rational_in by (auto; lia). apply (rq2_transpose _ _ (du + S dv)). reflexivity.
  - intros k l. apply surface_partial_v; auto.
  - intros k l. apply surface_partial_v; auto.
  - apply W00; auto.
  - intros y Hy. apply W00; auto.
Qed.

(** ** Pole accessors *)
Lemma pole_swapped (s : surf R) i j : surface_ok s -> (i < s_nV s)%nat -> (j < s_nU s)%nat ->
  surf_pole s i j = Ok (nth (j + s_nU s * i) (s_poles s) pzero).
Proof.
  intros Hok Hi Hj. unfold surf_pole. rewrite nPolesU_ok by auto. cbn [bind]. destruct Hok as (_ & _ & L).
  replace (j + i * s_nU s)%nat with (j + s_nU s * i)%nat by lia.
  destruct (Nat.leb_spec (length (s_poles s)) (j + s_nU s * i)); [nia|]. apply get_nth. exact H.
Qed.
Lemma pole_rejects (s : surf R) i j : surface_ok s -> (s_nU s * s_nV s <= j + i * s_nU s)%nat -> surf_pole s i j = Throw OutOfRangeError.
Proof.
  intros Hok Hi. unfold surf_pole. rewrite nPolesU_ok by auto. cbn [bind]. destruct Hok as (_ & _ & L).
  destruct (Nat.leb_spec (length (s_poles s)) (j + i * s_nU s)); [reflexivity|lia].
Qed.
End AtR.

(** ** Example *)
Definition ex_ku : list R := [0;0;0;1;2;2;2].
Definition ex_kv : list R := [0;0;1;1].
Definition ex_surf : surf R :=
  mks 2 1 (map (fun i c => match c with O => INR i | 1%nat => INR (i * i) | _ => 1 end) (seq 0 8)) ex_ku ex_kv 0 2 0 1.
Lemma ex_surface : surface_ok ex_surf /\ natural_surface ex_surf /\ evaluable_surface (1/1000) ex_surf /\
  s_nU ex_surf = 4%nat /\ s_nV ex_surf = 2%nat /\
  first_span (s_ku ex_surf) (s_degU ex_surf) /\ first_span (s_kv ex_surf) (s_degV ex_surf) /\
  clamped (s_ku ex_surf) (s_nU ex_surf) (s_degU ex_surf) /\ clamped (s_kv ex_surf) (s_nV ex_surf) (s_degV ex_surf) /\
  in_surface ex_surf (1/2) (1/3).
Proof.
  unfold surface_ok, natural_surface, evaluable_surface, in_surface, s_nU, s_nV, first_span, ex_surf, grid_ok, in_rect; cbn [s_ku s_kv s_degU s_degV s_poles s_u1 s_u2 s_v1 s_v2].
  change (length ex_ku - 2 - 1)%nat with 4%nat. change (length ex_kv - 1 - 1)%nat with 2%nat.
  split; [split; [knots_lit|split; [knots_lit|rewrite map_length, seq_length; reflexivity]]|].
  split; [unfold kn, ex_ku, ex_kv; simpl; lra|].
  split; [left; lia|]. split; [reflexivity|]. split; [reflexivity|].
  split; [unfold kn; simpl; lra|]. split; [unfold kn; simpl; lra|].
  split. { split; intros i Hi.
    - repeat (destruct i as [|i]; [unfold kn; simpl; lra|]). lia.
    - do 4 (destruct i as [|i]; [lia|]). repeat (destruct i as [|i]; [unfold kn; simpl; lra|]). lia. }
  split. { split; intros i Hi.
    - repeat (destruct i as [|i]; [unfold kn; simpl; lra|]). lia.
    - do 2 (destruct i as [|i]; [lia|]). repeat (destruct i as [|i]; [unfold kn; simpl; lra|]). lia. }
  unfold kn; simpl; lra.
Qed.

(** ** Refutations *)
Lemma pole_wrong eps : exists s q q0, surface_ok s /\ (0 < s_nU s)%nat /\ (1 < s_nV s)%nat /\
  @surf_pole R s 0 1 = Ok q /\ q0 = nth (0 + s_nU s * 1) (s_poles s) (@pzero R (NumR eps)) /\ q 0%nat <> q0 0%nat.
Proof.
  exists ex_surf, (nth 1 (s_poles ex_surf) (@pzero R (NumR eps))), (nth 4 (s_poles ex_surf) (@pzero R (NumR eps))).
  destruct ex_surface as (Hok & _ & _ & Hn & Hm & _). rewrite Hn, Hm. split; [exact Hok|]. split; [lia|]. split; [lia|].
  split. { rewrite (pole_swapped eps) by (auto; rewrite ?Hn, ?Hm; lia). rewrite Hn. reflexivity. }
  split; [reflexivity|]. simpl. lra.
Qed.
Lemma pole_reject_valid : exists s, surface_ok s /\ (2 < s_nU s)%nat /\ (1 < s_nV s)%nat /\
  @surf_pole R s 2 1 = Throw OutOfRangeError.
Proof.
  exists ex_surf. destruct ex_surface as (Hok & _ & _ & Hn & Hm & _). rewrite Hn, Hm. split; [exact Hok|]. split; [lia|]. split; [lia|].
  apply pole_rejects; [exact Hok|rewrite Hn, Hm; lia].
Qed.
Lemma pole_accept_invalid : exists s q, surface_ok s /\ (s_nV s <= 7)%nat /\ (s_nU s <= 7)%nat /\ @surf_pole R s 0 7 = Ok q.
Proof.
  exists ex_surf. destruct ex_surface as (Hok & _ & _ & Hn & Hm & _). rewrite Hn, Hm. eexists. split; [exact Hok|]. split; [lia|]. split; [lia|].
  unfold surf_pole. rewrite nPolesU_ok by auto. cbn [bind]. rewrite Hn. reflexivity.
Qed.
Lemma polesU_past eps (s : surf R) : surface_ok s -> @polesU R (NumR eps) s (s_nV s) = Ok (filled (s_nU s) (@pzero R (NumR eps))).
Proof.
  intros Hok. unfold polesU. rewrite nPolesU_ok, nPolesV_ok by auto. cbn [bind]. destruct Hok as (_ & _ & L).
  rewrite Nat.ltb_irrefl, L, Nat.mul_comm, Nat.eqb_refl. reflexivity.
Qed.
Lemma polesU_beyond eps (s : surf R) j : surface_ok s -> (s_nV s < j)%nat -> @polesU R (NumR eps) s j = Undef BadIterator.
Proof.
  intros Hok Hj. unfold polesU. rewrite nPolesU_ok, nPolesV_ok by auto. cbn [bind]. destruct Hok as ((_ & Hn & _) & _ & L).
  destruct (Nat.ltb_spec j (s_nV s)); [lia|]. rewrite L. destruct (Nat.eqb_spec (j * s_nU s) (s_nU s * s_nV s)); [nia|reflexivity].
Qed.
Lemma blocked_empty {A} (z : A) bs : transpose_poles z [] = Ok [] /\ transpose_poles_blocked z [] bs = Undef BadIndex.
Proof. split; reflexivity. Qed.

Require Import QArith.
Definition qgrid (k : nat) : list (pt Q) := map (fun i (c : nat) => inject_Z (Z.of_nat i)) (seq 0 k).
Lemma wrapped_counts : exists s, @mk_surf Q NumQ (qgrid 9) [0;1;2]%Q [0;1;2]%Q 5 5 = Ok s /\
  @surf_value Q NumQ s 1%Q 1%Q 0 0 = Undef BadIndex.
Proof. eexists. split; [vm_compute; reflexivity|]. vm_compute. reflexivity. Qed.
Lemma trim_swapped : exists s s', @mk_surf Q NumQ (qgrid 8) [0;0;0;1;2;2;2]%Q [0;0;1;1]%Q 2 1 = Ok s /\
  @trimU Q NumQ s (3#2) (1#2) = Ok s' /\ s_u1 s' = (3#2)%Q /\ s_u2 s' = (1#2)%Q /\
  @surf_value Q NumQ s' 1%Q (1#2)%Q 0 0 = Throw OutOfBoundsEval.
Proof. eexists. eexists. split; [vm_compute; reflexivity|]. split; [vm_compute; reflexivity|]. vm_compute. auto. Qed.
