(** The poles of a loft with several conditions per section. *)
From Coq Require Import List Arith ZArith Reals Lia Lra Bool.
From Verif Require Import Model_Base Model_Knots Model_Math Model_Basis Model_Curve Model_Interp Model_Surface Model_Unify Model_Skin
  Spec_Base Spec_Basis Spec_Eval Spec_Knots Spec_Interp Spec_Surface Spec_Unify Spec_Skin Proof_Base Proof_Eval Proof_Builders
  Proof_Interp Proof_Interp3 Proof_Interp4 Proof_Surface Proof_Tfi Proof_Skin1 Proof_Skin2.
Import ListNotations.
Local Open Scope R_scope.

Section AtR.
Variable eps : R.
Local Hint Extern 0 (Num R) => exact (NumR eps) : typeclass_instances.

Lemma loft_core_ok lu dim nc nu cols (ku kv v : list R) p q P : exact_solver lu -> (0 < dim)%nat -> (1 <= nc)%nat ->
  knots_ok ku nu p -> knots_ok kv (nc * length v) q -> evaluable2 eps ku nu p kv (nc * length v) q ->
  (forall x, In x v -> kn kv q <= x <= kn kv (nc * length v)) -> length cols = (nu * dim)%nat ->
  loft_core lu dim nc nu cols kv v q = Ok P ->
  length P = (nu * (nc * length v))%nat /\
  forall j r u du, (j < length v)%nat -> (r < nc)%nat -> kn ku p <= u <= kn ku nu ->
    exists z, surf_eval u (nth j v 0) ku kv P p q du r = Ok z /\
      forall d, (d < dim)%nat -> z d = sumn nu (fun i => rv eps ku nu p u du i * nth (nc * j + r) (nth (i * dim + d) cols []) 0).
Proof.
  intros Hex Hdim Hnc Hku Hkv Hev Hv Lcols E. unfold loft_core in E. set (nv := (nc * length v)%nat) in *.
  destruct (matrix_ok eps kv nv q Hkv nc v nv Hnc (ev2_2 _ _ _ _ _ _ _ Hev) Hv (le_n _)) as (N & EN & RN & CN & VN & _).
  rewrite EN in E. cbn [bind] in E. apply bind_inv in E as (X & EX & E). injection E as <-.
  assert (Hnu : (0 < nu)%nat) by (destruct Hku as (_ & H & _); lia).
  destruct (mapM_nth _ _ _ EX) as (LX & HXs).
  assert (HX : forall i d, (i < nu)%nat -> (d < dim)%nat ->
    solves nv nv (m_cell N) (nth (i * dim + d) X []) (nth (i * dim + d) cols [])).
  { intros i d Hi Hd. assert (Hix : (i * dim + d < length cols)%nat) by nia.
    destruct (HXs _ _ (nth_error_nth' cols [] Hix)) as (x & Hx & Ex). rewrite (nth_error_nth _ _ [] Hx). cbv beta in Ex.
    destruct (Nat.eqb_spec (length (nth (i * dim + d) cols [])) nv) as [Eq|]; [|discriminate].
    pose proof (Hex _ _ _ Ex ltac:(congruence)) as S. rewrite RN, CN in S. exact S. }
  assert (LP : forall (f : nat -> pt R), length (map f (seq 0 (nv * nu))) = (nu * nv)%nat).
  { intros f. rewrite map_length, seq_length. lia. }
  split; [apply LP|]. intros j r u du Hj Hr Hu.
  set (P := map _ _).
  destruct (surf_rv eps ku kv nu nv p q Hku Hkv Hev P u (nth j v 0) du r) as (z & Ez & Vz).
  { apply LP. } { split; [exact Hu|]. apply Hv, nth_In. exact Hj. }
  exists z. split; [exact Ez|]. intros d Hd. rewrite Vz.
  rewrite (sumn_ext nv _ (fun j' => sumn nu (fun i => rv eps ku nu p u du i * (rv eps kv nv q (nth j v 0) r j' * pole P d (i + nu * j'))))).
  2:{ intros j' Hj'. rewrite <- sumn_scal. apply sumn_ext. intros i Hi. ring. }
  rewrite sumn_swap. apply sumn_ext. intros i Hi. rewrite sumn_scal. f_equal.
  assert (Hjr : (nc * j + r < nv)%nat) by (unfold nv; clear - Hj Hr; nia).
  destruct (HX i d Hi Hd) as (Lx & _ & S). rewrite <- S by exact Hjr.
  apply sumn_ext. intros j' Hj'. rewrite (VN j r j' Hj Hr). f_equal.
  unfold P, pole. rewrite nth_map_seq by nia. destruct (Nat.ltb_spec d dim); [|lia].
  replace ((i + nu * j') mod nu)%nat with i by (rewrite Nat.mul_comm, Nat.mod_add, Nat.mod_small; lia).
  replace ((i + nu * j') / nu)%nat with j' by (rewrite Nat.mul_comm, Nat.div_add, Nat.div_small; lia).
  rewrite (nth_error_nth' X []) by nia. rewrite (nth_error_nth' _ 0) by lia. reflexivity.
Qed.

(** The knots between two bounds. *)
Lemma range_knots a b n p k : (p < n)%nat -> a < b -> build_simple_mult_flat_knots_range a b n p = Ok k ->
  knots_ok k n p /\ kn k p = a /\ kn k n = b /\ kn k 0 = a /\ kn k (length k - 1) = b /\ end_clamped k n p /\
  forall j, (0 <= j < n - p)%nat -> kn k (j + p) = a + (b - a) * INR j / INR (n - p + 1).
Proof.
  intros Hn Hab E. destruct (build_range_spec eps a b n p Hn Hab) as (k' & E' & C & V). rewrite E in E'. injection E' as <-.
  destruct C as (L & Nd & A & B & C).
  split. { split; [exact L|]. split; [exact Hn|]. split; [exact Nd|]. rewrite (B n) by lia.
    destruct (Nat.eq_dec (n - 1) p) as [->|]; [rewrite A by lia; exact Hab|]. apply C. lia. }
  split; [apply A; lia|]. split; [apply B; lia|]. split; [apply A; lia|]. split; [apply B; lia|].
  split; [intros i Hi; rewrite !B by lia; reflexivity|exact V].
Qed.

(** The sum of the j-th entries of lists. *)
Lemma fold_entries j (ps : list (list R)) : (forall l, In l ps -> (j < length l)%nat) -> forall a,
  foldM (fun s par => let* x := get par j in Ok (nadd s x)) a ps = Ok (a + sumn (length ps) (fun i => kn (nth i ps []) j)).
Proof.
  intros Hj. induction ps as [|l ps IH] using rev_ind; intros a; [cbn; f_equal; ring|].
  assert (G : forall (f : R -> list R -> result R) (x y : list (list R)) (b : R), foldM f b (x ++ y) = (let* c := foldM f b x in foldM f c y)).
  { intros f x y. induction x as [|z x IHx]; intros b; [reflexivity|]. cbn [app foldM]. destruct (f b z); cbn [bind]; auto. }
  rewrite G, IH by (intros l' Hl'; apply Hj, in_or_app; left; exact Hl'). cbn [bind foldM].
  rewrite (get_nth l j 0) by (apply Hj, in_or_app; right; left; reflexivity). cbn [bind]. f_equal. rewrite app_length, Nat.add_1_r. cbn [sumn].
  rewrite app_nth2, Nat.sub_diag by lia. cbn [nth].
  rewrite (sumn_ext (length ps) (fun i => kn (nth i (ps ++ [l]) []) j) (fun i => kn (nth i ps []) j)) by (intros i Hi; rewrite app_nth1 by exact Hi; reflexivity).
  nsimp. unfold kn. ring.
Qed.
End AtR.
