(** Proofs about the IGES export. *)
From Coq Require Import List Arith Lia Bool Reals Lra.
From Verif Require Import Spec_Transform Proof_Transform Model_Base Model_Vec Model_Rational Model_Curve Model_Surface Model_Motion Model_Wrap Model_Iges Spec_Base Spec_Basis Spec_Build Spec_Class Spec_Eval
  Spec_Surface Spec_Motion Spec_Wrap Spec_Iges Proof_Base Proof_Basis Proof_Ctor Proof_Curve Proof_Surface Proof_SurfEdit Proof_Boehm Proof_PropBasis Proof_PropSurface Proof_Motion Proof_Wrap3 Proof_Wrap4 Proof_Basis2.
Import ListNotations.
Local Open Scope R_scope.

Section AtR.
Variable eps : R.
Local Hint Extern 0 (Num R) => exact (NumR eps) : typeclass_instances.

Lemma flat_length w (P : list (pt R)) : length (flat_map (fun q => map q (seq 0 w)) P) = (w * length P)%nat.
Proof. induction P as [|q P IH]; cbn [flat_map length]; [lia|]. rewrite app_length, map_length, seq_length, IH. lia. Qed.
Lemma flat_read w c : (c < w)%nat -> forall (P : list (pt R)) i, (i < length P)%nat -> read w (flat_map (fun q : pt R => map q (seq 0 w)) P) c i = polec P c i.
Proof.
  intros Hc. induction P as [|q P IH]; intros i Hi; [cbn in Hi; lia|]. unfold read in *. cbn [flat_map]. destruct i as [|i].
  - rewrite Nat.mul_0_r, Nat.add_0_l, app_nth1 by (rewrite map_length, seq_length; lia).
    rewrite (nth_indep _ 0 (q 0%nat)) by (rewrite map_length, seq_length; lia). rewrite map_nth, seq_nth by lia. reflexivity.
  - rewrite app_nth2 by (rewrite map_length, seq_length; lia). rewrite map_length, seq_length.
    replace (w * S i + c - w)%nat with (w * i + c)%nat by lia. rewrite IH by (cbn in Hi; lia). reflexivity.
Qed.
Lemma coords_ok dim (rat : bool) (P : list (pt R)) : P <> [] -> let w := (dim + if rat then 1 else 0)%nat in
  exists k, coords_of dim rat P = Ok k /\ length k = (w * length P)%nat /\ forall c i, (c < w)%nat -> (i < length P)%nat -> read w k c i = polec P c i.
Proof.
  intros N w. exists (flat_map (fun q : pt R => map q (seq 0 w)) P). split; [destruct P; [easy|reflexivity]|]. split; [apply flat_length|].
  intros c i Hc Hi. now apply flat_read.
Qed.

Lemma export_curve_ok dim (rat : bool) (c : curve R) : c_poles c <> [] -> let w := (dim + if rat then 1 else 0)%nat in
  exists e, export_curve dim rat c = Ok e /\ cn_n e = length (c_poles c) /\ cn_order e = (c_deg c + 1)%nat /\ cn_knots e = c_knots c /\
    cn_rational e = rat /\ cn_lo e = c_lo c /\ cn_hi e = c_hi c /\ length (cn_coefs e) = (w * cn_n e)%nat /\
    forall j i, (j < w)%nat -> (i < cn_n e)%nat -> read w (cn_coefs e) j i = polec (c_poles c) j i.
Proof.
  intros N w. destruct (coords_ok dim (rat : bool) (c_poles c) N) as (k & E & L & V). unfold export_curve. rewrite E. cbn [bind].
  eexists. split; [reflexivity|]. cbn. repeat split; auto.
Qed.
Lemma export_surf_ok dim (rat : bool) (s : surf R) : surface_ok s -> let w := (dim + if rat then 1 else 0)%nat in
  exists e, export_surf dim rat s = Ok e /\ sn_nu e = s_nU s /\ sn_nv e = s_nV s /\ sn_orderu e = (s_degU s + 1)%nat /\
    sn_orderv e = (s_degV s + 1)%nat /\ sn_ku e = s_ku s /\ sn_kv e = s_kv s /\ sn_rational e = rat /\
    sn_u1 e = s_u1 s /\ sn_u2 e = s_u2 s /\ sn_v1 e = s_v1 s /\ sn_v2 e = s_v2 s /\ length (sn_coefs e) = (w * (sn_nu e * sn_nv e))%nat /\
    forall c i j, (c < w)%nat -> (i < sn_nu e)%nat -> (j < sn_nv e)%nat ->
      read w (sn_coefs e) c (i + sn_nu e * j) = polec (s_poles s) c (i + s_nU s * j).
Proof.
  intros S w. pose proof S as (Ku & Kv & L).
  assert (N : s_poles s <> []).
  { intros Z. rewrite Z in L. cbn in L. destruct Ku as (_ & A & _), Kv as (_ & B & _). nia. }
  destruct (coords_ok dim (rat : bool) (s_poles s) N) as (k & E & Lk & V). unfold export_surf. rewrite (nPolesU_ok _ S), (nPolesV_ok _ S), E. cbn [bind].
  eexists. split; [reflexivity|]. cbn. repeat (split; [reflexivity|]). split; [rewrite Lk; f_equal; exact L|].
  intros c i j Hc Hi Hj. apply V; auto. rewrite L. nia.
Qed.

Lemma export_space (c : curve R) : 0 <= eps -> well_formed c -> natural_bounds c -> evaluable_curve eps c ->
  exists e, export_curve 3 false c = Ok e /\ cn_lo e = c_lo c /\ cn_hi e = c_hi c /\
    forall u, in_domain c u -> exists q, value c u 0 = Ok q /\ same 3 q (point126 e u).
Proof.
  intros He Hw Hn Hev. pose proof (wf_knots c Hw) as (_ & Hp & _).
  destruct (export_curve_ok 3 false c) as (e & E & N & O & K & _ & L1 & L2 & _ & V). { intros Z. unfold c_n in Hp. rewrite Z in Hp. cbn in Hp. lia. }
  exists e. split; auto. split; auto. split; auto. intros u Hu. destruct (value_spline eps c u He Hw Hn Hev Hu) as (q & Eq & Vq).
  exists q. split; auto. intros i Hi. rewrite Vq. unfold point126, spline. rewrite N, O, K. replace (c_deg c + 1 - 1)%nat with (c_deg c) by lia.
  apply sumn_ext. intros r Hr. f_equal. symmetry. apply V; [cbn; lia|rewrite N; exact Hr].
Qed.
Lemma export_space_surf (s : surf R) : 0 <= eps -> surface_ok s -> natural_surface s -> evaluable_surface eps s ->
  exists e, export_surf 3 false s = Ok e /\ (sn_u1 e, sn_u2 e, sn_v1 e, sn_v2 e) = (s_u1 s, s_u2 s, s_v1 s, s_v2 s) /\
    forall u v, in_surface s u v -> exists q, surf_value s u v 0 0 = Ok q /\ same 3 q (point128 e u v).
Proof.
  intros He Hw Hn Hev.
  destruct (export_surf_ok 3 false s Hw) as (e & E & N & M & O & O' & K & K' & _ & B1 & B2 & B3 & B4 & _ & V).
  exists e. split; auto. split; [congruence|]. intros u v Hu. destruct (surface_value eps s u v He Hw Hn Hev Hu) as (q & Eq & Vq).
  exists q. split; auto. intros i Hi. rewrite Vq. unfold point128, tensor. rewrite N, M, O, O', K, K' in *.
  replace (s_degU s + 1 - 1)%nat with (s_degU s) by lia. replace (s_degV s + 1 - 1)%nat with (s_degV s) by lia.
  apply sumn_ext. intros j Hj. apply sumn_ext. intros r Hr. f_equal. symmetry. apply V; [cbn; lia|auto|auto].
Qed.
Lemma export_space_rational (c : curve R) : 0 <= eps -> well_formed c -> natural_bounds c -> evaluable_curve eps c ->
  exists e, export_curve 3 true c = Ok e /\ cn_lo e = c_lo c /\ cn_hi e = c_hi c /\
    (positive_weights 3 (c_poles c) -> forall u, in_domain c u -> 0 < hom126 e u 3) /\
    forall u, in_domain c u -> hom126 e u 3 <> 0 ->
      exists q, rational_value 3 c u 0 = Ok q /\ same 3 q (fun i => hom126 e u i / hom126 e u 3).
Proof.
  intros He Hw Hn Hev. pose proof (wf_knots c Hw) as (_ & Hp & _).
  destruct (export_curve_ok 3 true c) as (e & E & N & O & K & _ & L1 & L2 & _ & V). { intros Z. unfold c_n in Hp. rewrite Z in Hp. cbn in Hp. lia. }
  assert (Hh : forall u i, (i < 4)%nat -> hom126 e u i = spline (kn (c_knots c)) (c_n c) (c_deg c) (polec (c_poles c) i) u).
  { intros u i Hi. unfold hom126, spline. rewrite N, O, K. replace (c_deg c + 1 - 1)%nat with (c_deg c) by lia.
    apply sumn_ext. intros r Hr. f_equal. apply V; [cbn; lia|rewrite N; exact Hr]. }
  exists e. split; auto. split; auto. split; auto. split.
  { intros HW u Hu. rewrite Hh by lia. apply (comb_pos (c_n c) (fun j => Nbas (kn (c_knots c)) (c_n c) (c_deg c) j u)).
    - intros l Hl. apply (Nbas_nonneg eps); [apply wf_knots; exact Hw|exact Hu|exact Hl].
    - apply (Nbas_sum eps); [apply wf_knots; exact Hw|exact Hu].
    - intros l Hl. apply HW, nth_In. exact Hl. }
  intros u Hu Hz. destruct (value_spline eps c u He Hw Hn Hev Hu) as (q & Eq & Vq).
  assert (Hh' : forall i, (i < 4)%nat -> hom126 e u i = q i) by (intros i Hi; rewrite Vq; apply Hh; exact Hi). clear Hh. rename Hh' into Hh.
  rewrite Hh in Hz by lia. unfold value in Eq. unfold rational_value. destruct (out_of_bounds c u); [discriminate|].
  unfold eval_rational_value, eval_rational_rec. cbn [Nat.eqb]. rewrite Eq. cbn [bind].
  eexists. split; [reflexivity|]. intros i Hi. unfold weight_projection.
  assert (Z : neqb (q 3%nat) n0 = false) by (apply (neqb_R_false eps); exact Hz). rewrite Z. rewrite !Hh by lia. reflexivity.
Qed.
Lemma export_space_rational_surf (s : surf R) : 0 <= eps -> surface_ok s -> natural_surface s -> evaluable_surface eps s ->
  exists e, export_surf 3 true s = Ok e /\ (sn_u1 e, sn_u2 e, sn_v1 e, sn_v2 e) = (s_u1 s, s_u2 s, s_v1 s, s_v2 s) /\
    (positive_weights 3 (s_poles s) -> forall u v, in_surface s u v -> 0 < hom128 e u v 3) /\
    forall u v, in_surface s u v -> hom128 e u v 3 <> 0 ->
      exists q, surf_rational_value 3 s u v 0 0 = Ok q /\ same 3 q (fun i => hom128 e u v i / hom128 e u v 3).
Proof.
  intros He Hw Hn Hev.
  destruct (export_surf_ok 3 true s Hw) as (e & E & N & M & O & O' & K & K' & _ & B1 & B2 & B3 & B4 & _ & V).
  assert (Hh : forall u v i, (i < 4)%nat -> hom128 e u v i = tensor (s_ku s) (s_nU s) (s_degU s) (s_kv s) (s_nV s) (s_degV s) (s_poles s) i u v).
  { intros u v i Hi. unfold hom128, tensor. rewrite N, M, O, O', K, K' in *.
    replace (s_degU s + 1 - 1)%nat with (s_degU s) by lia. replace (s_degV s + 1 - 1)%nat with (s_degV s) by lia.
    apply sumn_ext. intros j Hj. apply sumn_ext. intros r Hr. f_equal. apply V; [cbn; lia|auto|auto]. }
  exists e. split; auto. split; [congruence|]. split.
  { intros HW u v Hu. rewrite Hh by lia. rewrite tensor_comb by exact Hw. apply comb_pos.
    - intros l Hl. apply (tB_nonneg eps); assumption.
    - apply (tB_sum eps); assumption.
    - intros l Hl. apply HW, nth_In. destruct Hw as (_ & _ & ->). exact Hl. }
  intros u v Hu Hz.
  rewrite Hh in Hz by lia. destruct (surface_rational_value eps 3 s u v He Hw Hn Hev Hu Hz) as (q & Eq & Vq).
  exists q. split; auto. intros i Hi. rewrite !Hh by lia. apply Vq. exact Hi.
Qed.
Lemma export_plane (c : curve R) e : export_curve 2 false c = Ok e ->
  exists i j, (i < cn_n e)%nat /\ (j < 3)%nat /\ get (cn_coefs e) (3 * i + j) = Undef BadIndex.
Proof.
  intros E. assert (N : c_poles c <> []) by (intros Z; unfold export_curve in E; rewrite Z in E; discriminate).
  destruct (export_curve_ok 2 false c N) as (e' & E' & L & _ & _ & _ & _ & _ & Lk & _). rewrite E in E'. injection E' as <-.
  assert (0 < cn_n e)%nat by (rewrite L; destruct (c_poles c); [easy|cbn; lia]).
  exists (cn_n e - 1)%nat, 2%nat. split; [lia|]. split; [lia|]. unfold get. rewrite (proj2 (nth_error_None _ _)); [reflexivity|]. rewrite Lk. cbn. lia.
Qed.

(** ** Revolution *)
Lemma unit_of_unit (a : vec) : nonzero 3 a -> same 3 (unit 3 (unit 3 a)) (unit 3 a).
Proof.
  intros N i Hi. unfold unit at 1. assert (L : len 3 (unit 3 a) = 1). { unfold len. rewrite unit_len by exact N. apply sqrt_1. } rewrite L. field.
Qed.
Lemma len_ext a b : same 3 a b -> len 3 a = len 3 b.
Proof. intros S. unfold len. cbn [sqlen]. rewrite !(S 0%nat), !(S 1%nat), !(S 2%nat) by lia. reflexivity. Qed.

Lemma export_rev (c : curve R) F a1 a2 : well_formed c -> nonzero 3 (f_z F) -> nonzero 3 (f_x F) ->
  exists e, export_revolution sqrt c F a1 a2 = Ok e /\ rv_a1 e = a1 /\ rv_a2 e = a2 /\
    cn_lo (rv_gen e) = kn (c_knots c) 0 /\ cn_hi (rv_gen e) = kn (c_knots c) (length (c_knots c) - 1) /\
    forall u v, in_domain c u -> same 3 (point120 e u v) (fun i => f_o F i + rot (unit 3 (f_z F)) v (profile_point c F u) i).
Proof.
  intros Hw Hz Hx. pose proof (wf_knots c Hw) as Hk. pose proof Hk as (Hlen & Hp & Hnd & _).
  destruct (pdiv_unit eps _ Hz) as (axz & Ea & Va). destruct (rev_matrix eps F Hz Hx) as (LM & EM & VM).
  unfold export_revolution. rewrite Ea. cbn [bind]. rewrite EM. cbn [bind].
  set (P := map (fun q => transform (p3 (q 0%nat) (q 1%nat) n0) LM) (c_poles c)).
  assert (LP : length P = c_n c) by (unfold P; now rewrite map_length).
  rewrite (mk_curve_accepts eps) by (unfold c_n in *; rewrite ?LP; auto; lia). cbn [bind]. unfold export_revolved.
  set (g := mk (c_deg c) P (c_knots c) (kn (c_knots c) 0) (kn (c_knots c) (length (c_knots c) - 1))).
  destruct (export_curve_ok 3 false g) as (e & E & N & O & K & _ & L1 & L2 & _ & V). { cbn. intros Z. rewrite Z in LP. cbn in LP. unfold c_n in *. lia. }
  rewrite E. cbn [bind]. eexists. split; [reflexivity|]. cbn [rv_a1 rv_a2 rv_gen]. repeat (split; [auto|]).
  intros u v Hu i Hi. unfold point120. cbn [rv_from rv_to rv_gen]. f_equal.
  assert (PG : forall j, (j < 3)%nat -> point126 e u j - f_o F j = profile_point c F u j).
  { intros j Hj. unfold point126. rewrite N, O, K. cbn [c_poles c_deg c_knots g]. replace (c_deg c + 1 - 1)%nat with (c_deg c) by lia.
    unfold spline. rewrite LP.
    assert (S1 : sumn (c_n c) (fun r => Nbas (kn (c_knots c)) (c_n c) (c_deg c) r u) = 1) by (apply (Nbas_sum eps); auto).
    rewrite (sumn_ext (c_n c) _ (fun r => f_o F j * Nbas (kn (c_knots c)) (c_n c) (c_deg c) r u +
       (unit 3 (f_z F) j * (Nbas (kn (c_knots c)) (c_n c) (c_deg c) r u * polec (c_poles c) 0 r) +
        unit 3 (f_x F) j * (Nbas (kn (c_knots c)) (c_n c) (c_deg c) r u * polec (c_poles c) 1 r)))).
    - rewrite !sumn_plus, !sumn_scal, S1. unfold profile_point, spline. ring.
    - intros r Hr. rewrite V by (cbn; rewrite ?N; cbn; rewrite ?LP; lia). unfold polec at 1. cbn [c_poles g]. unfold P.
      assert (Q : polec (map (fun q => transform (p3 (q 0%nat) (q 1%nat) n0) LM) (c_poles c)) j r =
                  f_o F j + polec (c_poles c) 0 r * unit 3 (f_z F) j + polec (c_poles c) 1 r * unit 3 (f_x F) j).
      { unfold polec. rewrite (nth_indep _ _ (transform (p3 0 0 n0) LM)) by (rewrite map_length; exact Hr).
        change (transform (p3 0 0 n0) LM) with ((fun q : pt R => transform (p3 (q 0%nat) (q 1%nat) n0) LM) (fun _ => 0)). rewrite map_nth. apply VM. exact Hj. }
      unfold polec in Q. rewrite Q. unfold polec. ring. }
  rewrite (rot_ext _ _ _ (profile_point c F u) i (fun j Hj => PG j Hj) Hi). apply rot_ext_n; auto.
  intros j Hj.
  assert (D : same 3 (fun i => padd (f_o F) axz i - f_o F i) (unit 3 (f_z F))).
  { intros l Hl. unfold padd. nsimp. rewrite (Va l) by exact Hl. ring. }
  unfold unit at 1. rewrite (len_ext _ _ D), (D j Hj). exact (unit_of_unit _ Hz j Hj).
Qed.
Lemma of_curve_rep (c : curve R) : 0 <= eps -> well_formed c -> natural_bounds c -> evaluable_curve eps c ->
  represents (of_curve c) (fun _ i u => spline (kn (c_knots c)) (c_n c) (c_deg c) (polec (c_poles c) i) u) (kn (c_knots c) (c_deg c)) (kn (c_knots c) (c_n c)) 0.
Proof.
  intros He Hw Hn Hev. split; [|intros; lia]. intros u d Hu Hd. replace d with 0%nat by lia. exact (value_spline eps c u He Hw Hn Hev Hu).
Qed.
Lemma export_rev_value fm (c : curve R) F a1 a2 lam : is_fmod fm -> 0 <= eps -> well_formed c -> natural_bounds c -> evaluable_curve eps c ->
  nonzero 3 (f_z F) -> nonzero 3 (f_x F) -> same 3 (f_o F) (fun j => lam * f_z F j) ->
  exists e s, export_revolution sqrt c F a1 a2 = Ok e /\ revolution sqrt cos sin PI fm (of_curve c) F = Ok s /\
    rv_a1 e = a1 /\ rv_a2 e = a2 /\ cn_lo (rv_gen e) = c_lo c /\ cn_hi (rv_gen e) = c_hi c /\
    forall u v, in_domain c u -> exists q, s u v 0%nat 0%nat = Ok q /\ same 3 q (point120 e u v).
Proof.
  intros Hf He Hw Hn Hev Hz Hx HO. destruct (export_rev c F a1 a2 Hw Hz Hx) as (e & E & A1 & A2 & L1 & L2 & V).
  destruct (revolution_axis eps fm (of_curve c) F _ 0 _ _ lam Hf Hz Hx (of_curve_rep c He Hw Hn Hev) HO) as (s & S & Es & Vs & Ss & _).
  exists e, s. do 4 (split; [assumption|]). destruct Hn as (N1 & N2).
  split; [congruence|]. split; [rewrite L2, N2; f_equal; pose proof (wf_knots c Hw) as (Hl & _); unfold c_n in *; lia|].
  intros u v Hu. destruct (Vs u v 0%nat Hu) as (q & Eq & Q). exists q. split; auto. intros i Hi. rewrite (Q i Hi), (Ss u v i Hi), (V u v Hu i Hi). reflexivity.
Qed.
End AtR.

(** ** Cases *)
Definition seg_profile (lo hi : R) : curve R :=
  mk 1 [(fun i => match i with O => 0 | _ => 1 end); (fun _ => 1)] [0; 0; 1; 1] lo hi.
Lemma seg_wf (eps lo hi : R) : well_formed (seg_profile lo hi) /\ evaluable_curve eps (seg_profile lo hi).
Proof.
  split; [|left; cbn; lia]. split; [|unfold kn, c_n; cbn; lra]. split; [reflexivity|]. split; [unfold c_n; cbn; lia|].
  apply succ_nondecreasing. intros i Hi. unfold seg_profile, c_knots in *. repeat (destruct i as [|i]; [unfold kn; simpl; lra|]). simpl in Hi; lia.
Qed.
Lemma seg_second (eps lo hi u : R) : 0 <= u <= 1 -> let c := seg_profile lo hi in spline (kn (c_knots c)) (c_n c) (c_deg c) (polec (c_poles c) 1) u = 1.
Proof.
  intros Hu c. destruct (seg_wf eps lo hi) as (W & _). unfold spline.
  rewrite (sumn_ext _ _ (fun r => Nbas (kn (c_knots c)) (c_n c) (c_deg c) r u)).
  - apply (Nbas_sum eps); [exact (wf_knots _ W)|]. unfold c, kn, c_n. cbn. lra.
  - intros r Hr. cbn in Hr. destruct r as [|[|r]]; [| |lia]; unfold polec; cbn; ring.
Qed.
Lemma export_off eps fm : is_fmod fm -> 0 <= eps -> exists (c : curve R) F e s,
  well_formed c /\ natural_bounds c /\ evaluable_curve eps c /\ nonzero 3 (f_z F) /\ nonzero 3 (f_x F) /\
  @export_revolution R (NumR eps) sqrt c F 0 PI = Ok e /\ @revolution R (NumR eps) sqrt cos sin PI fm (@of_curve R (NumR eps) c) F = Ok s /\
  forall u, 0 <= u <= 1 -> exists q, s u PI 0%nat 0%nat = Ok q /\ q 0%nat = -2 /\ point120 e u PI 0%nat = 0.
Proof.
  intros Hf He. set (c := seg_profile 0 1). destruct (seg_wf eps 0 1) as (W & Ev). assert (Nb : natural_bounds c) by (split; reflexivity).
  destruct (zaxis_unit eps (@p3 R (NumR eps) 1 0 0)) as (Uz & Ux & Hz & Hx). set (F := @zaxis eps (@p3 R (NumR eps) 1 0 0)) in *.
  destruct (export_rev eps c F 0 PI W Hz Hx) as (e & E & _ & _ & _ & _ & V).
  destruct (revolution_general eps fm (@of_curve R (NumR eps) c) F _ 0 _ _ Hf Hz Hx (of_curve_rep eps c He W Nb Ev)) as (s & Es & Vs).
  exists c, F, e, s. repeat (split; [assumption|]). intros u Hu.
  assert (D : in_domain c u) by (unfold in_domain, kn, c_n; cbn; lra).
  destruct (Vs u PI 0%nat 0%nat D ltac:(lia)) as (q & Eq & Q). exists q. split; auto. rewrite (Q 0%nat) by lia. rewrite (V u PI D 0%nat) by lia.
  pose proof (seg_second eps 0 1 u Hu) as S1. fold c in S1. cbv zeta in S1.
  unfold profile_point, rot, dot3. rewrite S1. rewrite cos_PI, sin_PI. 
  rewrite !(Uz 0%nat), !(Uz 1%nat), !(Uz 2%nat), !(Ux 0%nat), !(Ux 1%nat), !(Ux 2%nat) by lia. cbn. split; ring.
Qed.
Lemma export_trim eps : exists (c : curve R) F e, well_formed c /\ evaluable_curve eps c /\ nonzero 3 (f_z F) /\ nonzero 3 (f_x F) /\
  @export_revolution R (NumR eps) sqrt c F 0 PI = Ok e /\ bounds c = (0, 1/2) /\ cn_lo (rv_gen e) = 0 /\ cn_hi (rv_gen e) = 1.
Proof.
  set (c := seg_profile 0 (1/2)). destruct (seg_wf eps 0 (1/2)) as (W & Ev).
  destruct (zaxis_unit eps (@p3 R (NumR eps) 1 0 0)) as (Uz & Ux & Hz & Hx). set (F := @zaxis eps (@p3 R (NumR eps) 1 0 0)) in *.
  destruct (export_rev eps c F 0 PI W Hz Hx) as (e & E & _ & _ & L1 & L2 & _).
  exists c, F, e. repeat (split; [assumption|]). split; [reflexivity|]. split; [rewrite L1; reflexivity|rewrite L2; reflexivity].
Qed.
Lemma export_axis_case eps : exists (c : curve R) F lam, well_formed c /\ natural_bounds c /\ evaluable_curve eps c /\ nonzero 3 (f_z F) /\ nonzero 3 (f_x F) /\
  same 3 (f_o F) (fun j => lam * f_z F j) /\ lam = 2 /\ in_domain c (1/2).
Proof.
  destruct (seg_wf eps 0 1) as (W & Ev). destruct (zaxis_unit eps (@p3 R (NumR eps) 0 0 2)) as (Uz & Ux & Hz & Hx).
  exists (seg_profile 0 1), (@zaxis eps (@p3 R (NumR eps) 0 0 2)), 2. split; auto. split; [split; reflexivity|]. split; auto. split; auto. split; auto.
  split; [|split; [reflexivity|unfold in_domain, kn, c_n; cbn; lra]]. intros i Hi. destruct i as [|[|[|i]]]; [| | |lia]; cbn; ring.
Qed.
