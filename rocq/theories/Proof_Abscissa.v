(** Proofs about the derivatives with respect to the curvilinear abscissa. *)
From Coq Require Import Reals List Arith Lia Lra.
From Verif Require Import Model_Base Model_Vec Model_Wrap Model_Abscissa Spec_Base Spec_Build Spec_Motion Spec_Abscissa
  Proof_Base Proof_Build Proof_Analysis4 Proof_Motion.
Import ListNotations.
Local Open Scope R_scope.

Section AtR.
Variable eps : R.
Local Hint Extern 0 (Num R) => exact (NumR eps) : typeclass_instances.

Lemma norm_is dim (a : pt R) : norm sqrt dim a = len dim a.
Proof. unfold norm. rewrite sq_norm_R. reflexivity. Qed.
Definition dir (dim : nat) (a : vec) : vec := fun i => 1 / len dim a * a i.
Definition bend (dim : nat) (a b : vec) : vec := fun i => 1 / (sqlen dim a * sqlen dim a) * (sqlen dim a * b i - dot dim a b * a i).
Lemma dm_ok dim (g : gcurve R) u (t : vec) : g_value g u 1 = Ok t -> nonzero dim t -> d_dm sqrt dim g u = Ok (dir dim t).
Proof. intros E N. destruct (len_pos dim t N) as (_ & P). unfold d_dm. rewrite E. cbn [bind]. rewrite norm_is. rewrite pdiv_ok by lra. reflexivity. Qed.
Lemma dm2_ok dim (g : gcurve R) u (c t n : vec) : g_value g u 0 = Ok c -> g_value g u 1 = Ok t -> g_value g u 2 = Ok n -> nonzero dim t -> d_dm2 dim g u = Ok (bend dim t n).
Proof.
  intros E0 E1 E2 N. destruct (len_pos dim t N) as (P & _). unfold d_dm2. rewrite E0, E1, E2. cbn [bind]. rewrite !sq_norm_R. rewrite pdiv_ok by (nsimp; nra). reflexivity.
Qed.
Lemma dot_is_sq dim (a : pt R) : dot dim a a = sqlen dim a.
Proof. apply sq_norm_R. Qed.
Lemma dot_lin dim (a b : pt R) (x y z : R) : dot dim a (fun i => x * (y * b i - z * a i)) = x * (y * dot dim a b - z * sqlen dim a).
Proof. induction dim as [|m IH]; cbn [dot sqlen]; nsimp; [ring|]. rewrite IH. ring. Qed.
Lemma inner_is dim (a b : vec) : inner_product dim a b = dot dim a b.
Proof. induction dim as [|m IH]; cbn [dot inner_product]; nsimp; [reflexivity|]. now rewrite IH. Qed.

Lemma dir_derivable dim (C1 : R -> vec) (n : vec) x i : nonzero dim (C1 x) -> (i < dim)%nat ->
  (forall i, (i < dim)%nat -> derivable_pt_lim (fun x => C1 x i) x (n i)) ->
  derivable_pt_lim (fun x => dir dim (C1 x) i) x (len dim (C1 x) * bend dim (C1 x) n i).
Proof.
  intros N Hi H. destruct (len_pos dim _ N) as (P & PL). pose proof (len_sq dim (C1 x)) as Q.
  apply (derivable_pt_lim_ext (fun x => C1 x i / len dim (C1 x))). { intros y. unfold dir. unfold Rdiv. ring. }
  replace (len dim (C1 x) * bend dim (C1 x) n i) with ((n i * len dim (C1 x) - (dot dim (C1 x) n / sqrt (sqlen dim (C1 x))) * C1 x i) / Rsqr (len dim (C1 x))).
  2:{ unfold bend. change (sqrt (sqlen dim (C1 x))) with (len dim (C1 x)). rewrite <- Q. unfold Rsqr. field. lra. }
  apply (derivable_pt_lim_div (fun x => C1 x i) (fun x => len dim (C1 x))); [apply H; exact Hi| |lra].
  apply (speed_derivable eps dim C1 n x P). exact H.
Qed.
Lemma abscissa_prop dim a b c d (g : gcurve R) (C0 C1 C2 : R -> vec) phi :
  (forall x, a < x < b -> g_value g x 0 = Ok (C0 x) /\ g_value g x 1 = Ok (C1 x) /\ g_value g x 2 = Ok (C2 x)) ->
  regular dim a b C0 C1 C2 -> by_length dim a b c d C1 phi ->
  exists T N, (forall s, c < s < d -> d_dm sqrt dim g (phi s) = Ok (T s) /\ d_dm2 dim g (phi s) = Ok (N s)) /\
  derivatives_of dim c d (fun s => C0 (phi s)) T N.
Proof.
  intros Hg HR HB. exists (fun s => dir dim (C1 (phi s))), (fun s => bend dim (C1 (phi s)) (C2 (phi s))). split.
  - intros s Hs. destruct (HB s Hs) as (I & _). destruct (Hg _ I) as (E0 & E1 & E2). destruct (HR _ I) as (N & _).
    split; [apply dm_ok; auto|apply (dm2_ok dim g (phi s) (C0 (phi s))); auto].
  - intros s i Hs Hi. destruct (HB s Hs) as (I & DP). destruct (HR _ I) as (N & HD). destruct (len_pos dim _ N) as (P & PL). split.
    + replace (dir dim (C1 (phi s)) i) with (C1 (phi s) i * (1 / len dim (C1 (phi s)))) by (unfold dir; ring).
      apply (derivable_pt_lim_comp phi (fun x => C0 x i) s); [exact DP|]. apply HD; exact Hi.
    + replace (bend dim (C1 (phi s)) (C2 (phi s)) i) with (len dim (C1 (phi s)) * bend dim (C1 (phi s)) (C2 (phi s)) i * (1 / len dim (C1 (phi s)))) by (field; lra).
      apply (derivable_pt_lim_comp phi (fun x => dir dim (C1 x) i) s); [exact DP|]. apply dir_derivable; auto. intros j Hj. apply HD; exact Hj.
Qed.
Lemma abscissa_unit dim (g : gcurve R) u (c t n : vec) : g_value g u 0 = Ok c -> g_value g u 1 = Ok t -> g_value g u 2 = Ok n -> nonzero dim t ->
  exists T N, d_dm sqrt dim g u = Ok T /\ d_dm2 dim g u = Ok N /\ sqlen dim T = 1 /\ inner_product dim T N = 0.
Proof.
  intros E0 E1 E2 HN. destruct (len_pos dim t HN) as (P & PL). pose proof (len_sq dim t) as Q.
  exists (dir dim t), (bend dim t n). split; [apply dm_ok; auto|]. split; [apply (dm2_ok dim g u c); auto|]. split.
  - unfold dir. rewrite sqlen_scal. rewrite <- Q. field. lra.
  - rewrite inner_is. replace (dot dim (dir dim t) (bend dim t n)) with (1 / len dim t * dot dim t (bend dim t n)).
    2:{ unfold dir. generalize (bend dim t n). intros w. generalize (1 / len dim t). intros k. clear. induction dim as [|m IH]; cbn [dot]; nsimp; [ring|]. rewrite <- IH. ring. }
    unfold bend. rewrite dot_lin. ring.
Qed.

(** ** Surfaces, along their parameter lines *)
Definition line_u (s : gsurf R) (v : R) : gcurve R := mkg 0 0 (fun u d => s u v d 0%nat).
Definition line_v (s : gsurf R) (u : R) : gcurve R := mkg 0 0 (fun v d => s u v 0%nat d).
Lemma abscissa_u dim a b c d (s : gsurf R) (v : R) (C0 C1 C2 : R -> vec) phi :
  (forall x, a < x < b -> s x v 0%nat 0%nat = Ok (C0 x) /\ s x v 1%nat 0%nat = Ok (C1 x) /\ s x v 2%nat 0%nat = Ok (C2 x)) ->
  regular dim a b C0 C1 C2 -> by_length dim a b c d C1 phi ->
  exists T N, (forall t, c < t < d -> d_dmu sqrt dim s (phi t) v = Ok (T t) /\ d_dmu2 dim s (phi t) v = Ok (N t)) /\
  derivatives_of dim c d (fun t => C0 (phi t)) T N.
Proof. intros Hg. apply (abscissa_prop dim a b c d (line_u s v)). exact Hg. Qed.
Lemma abscissa_v dim a b c d (s : gsurf R) (u : R) (C0 C1 C2 : R -> vec) phi :
  (forall x, a < x < b -> s u x 0%nat 0%nat = Ok (C0 x) /\ s u x 0%nat 1%nat = Ok (C1 x) /\ s u x 0%nat 2%nat = Ok (C2 x)) ->
  regular dim a b C0 C1 C2 -> by_length dim a b c d C1 phi ->
  exists T N, (forall t, c < t < d -> d_dmv sqrt dim s u (phi t) = Ok (T t) /\ d_dmv2 dim s u (phi t) = Ok (N t)) /\
  derivatives_of dim c d (fun t => C0 (phi t)) T N.
Proof. intros Hg. apply (abscissa_prop dim a b c d (line_v s u)). exact Hg. Qed.

Lemma abscissa_lists dim (g : gcurve R) (us : list R) :
  (forall u, In u us -> exists c t n, g_value g u 0 = Ok c /\ g_value g u 1 = Ok t /\ g_value g u 2 = Ok n /\ nonzero dim t) ->
  exists Ts Ns, d_dms sqrt dim g us = Ok Ts /\ d_dm2s dim g us = Ok Ns /\
    Forall2 (fun u T => d_dm sqrt dim g u = Ok T) us Ts /\ Forall2 (fun u N => d_dm2 dim g u = Ok N) us Ns.
Proof.
  unfold d_dms, d_dm2s. induction us as [|u us IH]; intros H.
  - exists [], []. repeat split; constructor.
  - destruct IH as (Ts & Ns & E1 & E2 & F1 & F2). { intros; apply H; cbn; auto. }
    destruct (H u (or_introl eq_refl)) as (c & t & n & A0 & A1 & A2 & A3).
    pose proof (dm_ok dim g u t A1 A3) as D1. pose proof (dm2_ok dim g u c t n A0 A1 A2 A3) as D2.
    exists (dir dim t :: Ts), (bend dim t n :: Ns). cbn [mapM]. rewrite D1, D2. cbn [bind]. rewrite E1, E2. cbn [bind].
    split; [reflexivity|]. split; [reflexivity|]. split; constructor; auto.
Qed.
Lemma abscissa_case : exists a b c d C0 C1 C2 phi, regular 3 a b C0 C1 C2 /\ by_length 3 a b c d C1 phi /\ c < d /\ len 3 (C1 (phi c)) <> len 3 (C1 (phi d)).
Proof.
  set (C0 := fun (x : R) (i : nat) => match i with 0%nat => x * x / 2 | _ => 0 end). set (C1 := fun (x : R) (i : nat) => match i with 0%nat => x | _ => 0 end).
  set (C2 := fun (x : R) (i : nat) => match i with 0%nat => 1 | _ => 0 end).
  assert (L : forall x, 0 < x -> len 3 (C1 x) = x). { intros x Hx. unfold len, C1. rewrite sqlen3. unfold dot3. replace (x * x + 0 * 0 + 0 * 0) with (x * x) by ring. apply sqrt_square. lra. }
  exists 0, 3, 1, 2, C0, C1, C2, (fun s => sqrt (2 * s)). split; [|split; [|split]].
  - intros x Hx. split. { exists 0%nat. split; [lia|]. cbn. lra. } intros i Hi. destruct i as [|[|[|]]]; try lia; unfold C0, C1, C2; cbn.
    + split; [|apply derivable_pt_lim_id].
      replace x with (1 * (1 * x + x * 1) / 2) at 2 by field.
      apply (derivable_pt_lim_ext (fun y => (1 / 2) * (y * y))); [intros; field|]. replace (1 * (1 * x + x * 1) / 2) with ((1 / 2) * (1 * x + x * 1)) by field.
      apply (derivable_pt_lim_scal (fun y => y * y)). apply (derivable_pt_lim_mult (fun y => y) (fun y => y)); apply derivable_pt_lim_id.
    + split; apply derivable_pt_lim_const.
    + split; apply derivable_pt_lim_const.
  - intros s Hs. assert (P : 0 < sqrt (2 * s)) by (apply sqrt_lt_R0; lra). split.
    { split; [exact P|]. rewrite <- (sqrt_square 3) by lra. apply sqrt_lt_1_alt. lra. }
    rewrite (L _ P). replace (1 / sqrt (2 * s)) with (/ (2 * sqrt (2 * s)) * (2 * 1)) by (field; lra).
    apply (derivable_pt_lim_comp (fun s => 2 * s) sqrt s); [apply (derivable_pt_lim_scal (fun s => s)); apply derivable_pt_lim_id|apply derivable_pt_lim_sqrt; lra].
  - lra.
  - assert (A : 0 < sqrt (2 * 1)) by (apply sqrt_lt_R0; lra). assert (B : sqrt (2 * 1) < sqrt (2 * 2)) by (apply sqrt_lt_1_alt; lra). rewrite !L by lra. lra.
Qed.
End AtR.
