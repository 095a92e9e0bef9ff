(** Interpolation with conditions at the two ends only returns. *)
From Coq Require Import List Arith ZArith Reals Lia Lra Bool Permutation.
From Verif Require Import Model_Base Model_Knots Model_Basis Model_Curve Model_Interp Model_Math
  Spec_Base Spec_Basis Spec_Eval Spec_Knots Spec_Interp Spec_Solve Proof_Base Proof_Blossom Proof_Basis Proof_Ders Proof_Eval
  Proof_PropBasis Proof_Ctor Proof_Builders Proof_Band Proof_Interp Proof_Interp2 Proof_Interp3 Proof_Interp4 Proof_Invariant Proof_Skin3 Proof_SW2 Proof_Connect1.
Import ListNotations.
Local Open Scope R_scope.

Section AtR.
Variable eps : R.
Local Hint Extern 0 (Num R) => exact (NumR eps) : typeclass_instances.

(** A sorted list of two values. *)
Lemma two_values (x y : R) (u : list R) : x < y -> nondecreasing u -> (forall z, In z u -> z = x \/ z = y) ->
  u = repeat x (count_occ Req_EM_T u x) ++ repeat y (count_occ Req_EM_T u y).
Proof.
  intros Hxy. induction u as [|z t IH]; intros Hn Hv; [reflexivity|].
  assert (Hnt : nondecreasing t).
  { intros i j Hij Hj. apply (Hn (S i) (S j)); simpl in *; lia. }
  specialize (IH Hnt (fun w Hw => Hv w (or_intror Hw))).
  destruct (Hv z (or_introl eq_refl)) as [-> | ->].
  - rewrite count_occ_cons_eq by reflexivity. rewrite count_occ_cons_neq by (intros E; lra). cbn [repeat app]. congruence.
  - rewrite count_occ_cons_neq by (intros E; lra). rewrite count_occ_cons_eq by reflexivity.
    assert (C : count_occ Req_EM_T t x = 0%nat).
    { apply count_occ_not_In. intros Hx. destruct (In_nth t x 0 Hx) as (i & Hi & E).
      specialize (Hn 0%nat (S i) ltac:(lia) ltac:(simpl; lia)). unfold kn in Hn. simpl in Hn. rewrite E in Hn. lra. }
    rewrite C in *. cbn [repeat app] in *. congruence.
Qed.

Lemma count_repeat (x y : R) n : count_occ Req_EM_T (repeat x n) y = if Req_EM_T x y then n else 0%nat.
Proof.
  induction n as [|n IH]; [simpl; destruct (Req_EM_T x y); reflexivity|]. cbn [repeat count_occ]. rewrite IH.
  destruct (Req_EM_T x y); reflexivity.
Qed.

Lemma two_perm (x y : R) (u : list R) A B : x < y -> nondecreasing u -> Permutation u (repeat x A ++ repeat y B) ->
  u = repeat x A ++ repeat y B.
Proof.
  intros Hxy Hn Hp. rewrite (two_values x y u Hxy Hn) at 1.
  - rewrite (proj1 (Permutation_count_occ Req_EM_T _ _) Hp x), (proj1 (Permutation_count_occ Req_EM_T _ _) Hp y).
    rewrite !count_occ_app, !count_repeat.
    destruct (Req_EM_T x x), (Req_EM_T y x), (Req_EM_T x y), (Req_EM_T y y); try lra; try congruence.
    rewrite Nat.add_0_r. reflexivity.
  - intros z Hz. apply (Permutation_in _ Hp) in Hz. apply in_app_or in Hz as [Hz|Hz]; apply repeat_spec in Hz; auto.
Qed.

Lemma kn_two (x y : R) A B i : (i < A + B)%nat -> kn (repeat x A ++ repeat y B) i = if (i <? A)%nat then x else y.
Proof.
  intros Hi. unfold kn. destruct (Nat.ltb_spec i A) as [H|H].
  - rewrite app_nth1 by (rewrite repeat_length; exact H). apply nth_repeat_lt. exact H.
  - rewrite app_nth2, repeat_length by (rewrite repeat_length; lia). apply nth_repeat_lt. lia.
Qed.

Lemma sumn_ge_one n f j : (j < n)%nat -> (forall i, (i < n)%nat -> 0 <= f i) -> f j <= sumn n f.
Proof.
  intros Hl Hf. apply Rle_trans with (sumn n (fun i => if Nat.eqb i j then f j else 0)).
  - rewrite (sumn_single n _ j); [rewrite Nat.eqb_refl; lra|exact Hl|].
    intros i Hi Hij. destruct (Nat.eqb_spec i j); [contradiction|reflexivity].
  - apply sumn_le. intros i Hi. destruct (Nat.eqb_spec i j) as [->|]; [lra|apply Hf; exact Hi].
Qed.

(** The averaged knots of parameters at two places. *)
Lemma two_knots (x y : R) A B p : x < y -> (1 <= A)%nat -> (1 <= B)%nat -> (1 <= p)%nat -> (p + 1 <= A + B)%nat ->
  (A + B = p + 1)%nat \/ (A <= p /\ B <= p)%nat ->
  exists k, build_simple_mult_flat_knots (repeat x A ++ repeat y B) p = Ok k /\ clamped_vector k (A + B) p x y /\
    forall i, (p < i < A + B)%nat -> x + (y - x) / INR p <= kn k i <= y - (y - x) / INR p.
Proof.
  intros Hxy HA HB Hp Hn Hc. set (u := repeat x A ++ repeat y B).
  assert (Lu : length u = (A + B)%nat) by (unfold u; rewrite app_length, !repeat_length; reflexivity).
  destruct (build_simple_vals eps u p Hp ltac:(lia)) as (k & Ek & Lk & K0 & K1 & Kav). rewrite Lu in *.
  exists k. split; [exact Ek|].
  assert (U0 : kn u 0 = x) by (unfold u; rewrite kn_two by lia; destruct (Nat.ltb_spec 0 A); [reflexivity|lia]).
  assert (U1 : kn u (A + B - 1) = y) by (unfold u; rewrite kn_two by lia; destruct (Nat.ltb_spec (A + B - 1) A); [lia|reflexivity]).
  rewrite U0 in K0. rewrite U1 in K1.
  assert (Ub : forall i, (i < A + B)%nat -> x <= kn u i <= y).
  { intros i Hi. unfold u. rewrite kn_two by exact Hi. destruct (i <? A)%nat; lra. }
  assert (Um : forall i j, (i <= j)%nat -> (j < A + B)%nat -> kn u i <= kn u j).
  { intros i j Hij Hj. unfold u. rewrite !kn_two by lia. destruct (Nat.ltb_spec i A), (Nat.ltb_spec j A); try lia; lra. }
  assert (Pp : 0 < INR p) by (apply lt_0_INR; lia).
  assert (Hcst : forall c, sumn p (fun _ => c) / INR p = c) by (intros c; rewrite sumn_const; field; lra).
  assert (Hlt : forall f g j, (forall i, (i < p)%nat -> f i <= g i) -> (j < p)%nat -> f j < g j -> sumn p f / INR p < sumn p g / INR p).
  { intros f g j Hfg Hj Hs. apply Rmult_lt_compat_r; [apply Rinv_0_lt_compat; auto|]. apply (sumn_lt p f g j); assumption. }
  assert (Kin : forall i, (p < i < A + B)%nat -> x < kn k i < y).
  { intros i Hi. destruct Hc as [Hc|(Hc1 & Hc2)]; [lia|]. rewrite Kav by exact Hi. unfold avg. split.
    - rewrite <- (Hcst x) at 1. apply (Hlt _ _ (p - 1)%nat); [|lia|].
      + intros j Hj. apply Ub. lia.
      + unfold u. rewrite kn_two by lia. destruct (Nat.ltb_spec (i - p + (p - 1)) A); [lia|lra].
    - rewrite <- (Hcst y). apply (Hlt _ _ 0%nat); [|lia|].
      + intros j Hj. apply Ub. lia.
      + unfold u. rewrite kn_two by lia. destruct (Nat.ltb_spec (i - p + 0) A); [lra|lia]. }
  split.
  2:{ intros i Hi. destruct Hc as [Hc|(Hc1 & Hc2)]; [lia|]. rewrite Kav by exact Hi. unfold avg. split.
    - assert (G : y - x <= sumn p (fun j => kn u (i - p + j) - x)).
      { replace (y - x) with (kn u (i - p + (p - 1)) - x)
          by (unfold u; rewrite kn_two by lia; destruct (Nat.ltb_spec (i - p + (p - 1)) A); [lia|ring]).
        apply (sumn_ge_one p (fun j => kn u (i - p + j) - x) (p - 1)); [lia|]. intros j Hj. specialize (Ub (i - p + j)%nat ltac:(lia)). lra. }
      rewrite sumn_minus, sumn_const in G. apply (Rmult_le_compat_r (/ INR p)) in G; [|left; apply Rinv_0_lt_compat; auto].
      unfold Rdiv. replace ((sumn p (fun j => kn u (i - p + j)) - INR p * x) * / INR p) with (sumn p (fun j => kn u (i - p + j)) * / INR p - x) in G by (field; lra). lra.
    - assert (G : y - x <= sumn p (fun j => y - kn u (i - p + j))).
      { replace (y - x) with (y - kn u (i - p + 0))
          by (unfold u; rewrite kn_two by lia; destruct (Nat.ltb_spec (i - p + 0) A); [ring|lia]).
        apply (sumn_ge_one p (fun j => y - kn u (i - p + j)) 0); [lia|]. intros j Hj. specialize (Ub (i - p + j)%nat ltac:(lia)). lra. }
      rewrite sumn_minus, sumn_const in G. apply (Rmult_le_compat_r (/ INR p)) in G; [|left; apply Rinv_0_lt_compat; auto].
      unfold Rdiv. replace ((INR p * y - sumn p (fun j => kn u (i - p + j))) * / INR p) with (y - sumn p (fun j => kn u (i - p + j)) * / INR p) in G by (field; lra). lra. }
  split; [exact Lk|]. split; [|auto].
  assert (Kst : forall i, (S i < length k)%nat -> kn k i <= kn k (S i)).
  { intros i Hi. destruct (Nat.le_gt_cases (S i) p) as [H1|H1]; [rewrite !K0 by lia; lra|].
    destruct (Nat.le_gt_cases (A + B) i) as [H2|H2]; [rewrite !K1 by lia; lra|].
    destruct (Nat.eq_dec i p) as [->|Hip].
    { rewrite (K0 p) by lia. destruct (Nat.eq_dec (S p) (A + B)) as [E|E]; [rewrite (K1 (S p)) by lia; lra|].
      left. apply Kin. lia. }
    destruct (Nat.eq_dec (S i) (A + B)) as [E|E]; [rewrite (K1 (S i)) by lia; left; apply Kin; lia|].
    rewrite !Kav by lia. unfold avg. apply Rmult_le_compat_r; [left; apply Rinv_0_lt_compat; auto|].
    apply sumn_le. intros j Hj. apply Um; lia. }
  intros i j Hij Hj. induction j as [|j IH]; [replace i with 0%nat by lia; lra|].
  destruct (Nat.eq_dec i (S j)) as [->|]; [lra|]. pose proof (IH ltac:(lia) ltac:(lia)). pose proof (Kst j Hj). lra.
Qed.

Lemma clamped_ok k n p a b : clamped_vector k n p a b -> a < b -> (p < n)%nat -> knots_ok k n p.
Proof.
  intros Hc Hab Hp. destruct Hc as (L & Hnd & Ha & Hb & Hi).
  split; [exact L|]. split; [exact Hp|]. split; [exact Hnd|]. rewrite (Hb n) by lia.
  destruct (Nat.eq_dec (n - 1) p) as [->|H]; [rewrite Ha by lia; exact Hab|]. apply Hi. lia.
Qed.

(** interpolate_constraints returns when its matrix is nonsingular. *)
Lemma icons_returns lu dim (ub : R) qb ue qe (cstr : list (@cpoint R)) p k :
  let n := (length cstr + 2)%nat in
  complete_solver lu -> (p + 1 <= n)%nat ->
  build_simple_mult_flat_knots (fold_left (fun u c => insert_ordered u (cp_u c)) cstr [ub; ue]) p = Ok k ->
  knots_ok k n p -> evaluable eps k n p ->
  inside k n p ub -> inside k n p ue -> (forall q, In q cstr -> inside k n p (cp_u q)) ->
  (forall x, sumn n (fun j => rv eps k n p ub 0 j * x j) = 0 -> sumn n (fun j => rv eps k n p ue 0 j * x j) = 0 ->
     (forall q, In q cstr -> sumn n (fun j => rv eps k n p (cp_u q) (cp_d q) j * x j) = 0) -> forall j, (j < n)%nat -> x j = 0) ->
  exists X, interpolate_constraints lu dim ub qb ue qe cstr p = Ok (mk p (poles_of_columns n X) k (kn k 0) (kn k (length k - 1))) /\
    length X = dim.
Proof.
  intros n (Hex & Hco) Hnp Ek Hk Hev Hi1 Hi2 Hi3 Hns. unfold interpolate_constraints. fold n.
  destruct (Nat.ltb_spec n (p + 1)) as [|_]; [lia|]. rewrite Ek. cbn [bind].
  destruct (fill_row_ok eps k n p Hk (mzero n n) 0 ub 0) as (N1 & E1 & R1 & C1 & V1);
    [exact Hi1|exact Hev|simpl; unfold n; lia|reflexivity|reflexivity|].
  cbn [m_rows mzero] in R1. rewrite E1. cbn [bind].
  set (q0 := mkcp qb 0 0%nat).
  destruct (for_inv (fun m N => m_rows N = n /\ m_cols N = n /\
      forall a b, m_cell N a b = if (a =? 0)%nat then rv eps k n p ub 0 b else
        if (a <? m + 1)%nat then rv eps k n p (cp_u (nth (a - 1) cstr q0)) (cp_d (nth (a - 1) cstr q0)) b else 0)
     (fun i N => let* c := get cstr i in fill_basis_row N (i + 1) (cp_u c) k p (cp_d c)) 0 (length cstr) N1)
    as (N2 & E2 & R2 & C2 & V2).
  - split; [exact R1|]. split; [exact C1|]. intros a b. rewrite V1. destruct (Nat.eqb_spec a 0) as [->|].
    + reflexivity.
    + destruct (Nat.ltb_spec a (0 + 1)); [lia|]. reflexivity.
  - intros i N Hi (R' & C' & V'). rewrite (get_nth _ _ q0) by lia. cbn [bind].
    set (q := nth i cstr q0).
    destruct (fill_row_ok eps k n p Hk N (i + 1) (cp_u q) (cp_d q)) as (N' & E' & R'' & C'' & V'');
      [apply Hi3, nth_In; lia|exact Hev|unfold n in *; lia|exact C'| |].
    { intros b. rewrite V'. destruct (Nat.eqb_spec (i + 1) 0); [lia|]. destruct (Nat.ltb_spec (i + 1) (i + 1)); [lia|reflexivity]. }
    exists N'. split; [exact E'|]. split; [congruence|]. split; [exact C''|]. intros a b. rewrite V'', V'.
    destruct (Nat.eqb_spec a (i + 1)) as [->|].
    + destruct (Nat.eqb_spec (i + 1) 0); [lia|]. destruct (Nat.ltb_spec (i + 1) (S i + 1)); [|lia].
      replace (i + 1 - 1)%nat with i by lia. reflexivity.
    + destruct (Nat.eqb_spec a 0); [reflexivity|]. destruct (Nat.ltb_spec a (i + 1)), (Nat.ltb_spec a (S i + 1)); try lia; reflexivity.
  - rewrite E2. cbn [bind].
    destruct (fill_row_ok eps k n p Hk N2 (n - 1) ue 0) as (N3 & E3 & R3 & C3 & V3);
      [exact Hi2|exact Hev|unfold n in *; lia|exact C2| |].
    { intros b. rewrite V2. destruct (Nat.eqb_spec (n - 1) 0); [unfold n in *; lia|].
      destruct (Nat.ltb_spec (n - 1) (0 + length cstr + 1)); [unfold n in *; lia|reflexivity]. }
    rewrite E3. cbn [bind].
    destruct (mapM_all_ok (fun d => lu N3 (qb d :: map (fun c => cp_v c d) cstr ++ [qe d])) (seq 0 dim)) as (X & EX).
    { intros d _. apply Hco.
      - congruence.
      - rewrite R3, R2. cbn [length]. rewrite app_length, map_length. unfold n. cbn [length]. lia.
      - rewrite R3, R2. intros x Hx. apply Hns.
        + rewrite <- (Hx 0%nat ltac:(unfold n; lia)). apply sumn_ext. intros j Hj. rewrite V3, V2.
          destruct (Nat.eqb_spec 0 (n - 1)); [unfold n in *; lia|reflexivity].
        + rewrite <- (Hx (n - 1)%nat ltac:(unfold n; lia)). apply sumn_ext. intros j Hj. rewrite V3, Nat.eqb_refl. reflexivity.
        + intros q Hq. destruct (In_nth cstr q q0 Hq) as (i & Hi & <-).
          rewrite <- (Hx (i + 1)%nat ltac:(unfold n; lia)). apply sumn_ext. intros j Hj. rewrite V3, V2.
          destruct (Nat.eqb_spec (i + 1) (n - 1)); [unfold n in *; lia|]. destruct (Nat.eqb_spec (i + 1) 0); [lia|].
          destruct (Nat.ltb_spec (i + 1) (0 + length cstr + 1)); [|lia]. replace (i + 1 - 1)%nat with i by lia. reflexivity. }
    rewrite EX. cbn [bind]. exists X. split.
    + destruct Hk as (Lk & Hp & Hnd & _). apply (mk_curve_accepts eps); rewrite ?poles_length; auto; lia.
    + apply mapM_nth in EX as (LX & _). rewrite LX, seq_length. reflexivity.
Qed.

(** hermite interpolation at two places *)
Lemma hermite_returns sparse dim nc (qa qb : list (pt R)) (x y : R) : complete_solver sparse -> 0 <= eps ->
  (1 <= nc <= 12)%nat -> length qa = nc -> length qb = nc -> x < y ->
  exists c, interpolate_hermite sparse dim nc [qa; qb] [x; y] = Ok c.
Proof.
  intros (_ & Hco) He Hnc La Lb Hxy. unfold interpolate_hermite. cbn [length]. set (p := (2 * nc - 1)%nat).
  assert (Hs : strictly_increasing [x; y]).
  { intros i j Hij Hj. simpl in Hj. destruct i as [|[|i]], j as [|[|j]]; try lia; unfold kn; simpl; lra. }
  destruct (build_mult_spec [x; y] p nc ltac:(simpl; lia) Hs) as (k & Ek & Hc & _).
  unfold build_mult_flat_knots in Ek. cbn [length] in Ek. rewrite Ek. cbn [bind].
  cbn [length] in Hc. set (n := (p + 1 + nc * (2 - 2))%nat) in *. unfold kn in Hc at 1 2. simpl in Hc.
  assert (Hn : n = (2 * nc)%nat) by (unfold n, p; lia).
  assert (Hk : knots_ok k n p) by (apply (clamped_ok k n p x y Hc Hxy); unfold n; lia).
  assert (Hd : eval_dom eps k n p) by (left; unfold stack_max, p; lia).
  pose proof (inside_a k n p Hk x y Hc Hxy) as Hia. pose proof (inside_b k n p Hk x y Hc Hxy) as Hib.
  unfold build_poles. cbn [length].
  assert (Hcol : forall b, In b (map (rhs_column [qa; qb]) (seq 0 dim)) -> length b = n).
  { intros b Hb. apply in_map_iff in Hb as (c & <- & _). unfold rhs_column. rewrite map_length. cbn [concat].
    rewrite !app_length, La, Lb. simpl. lia. }
  replace (2 * nc)%nat with n by lia.
  assert (EP : exists X, collocation_solve sparse k [x; y] p nc n (map (rhs_column [qa; qb]) (seq 0 dim)) = Ok X).
  { assert (Hin : forall z, In z [x; y] -> inside k n p z) by (intros z [<-|[<-|[]]]; assumption).
    destruct (collocation_cases eps k n p Hk sparse nc [x; y] (map (rhs_column [qa; qb]) (seq 0 dim)) He ltac:(lia) Hd ltac:(simpl; lia) Hin Hcol)
      as [(X & EX)|(N & EN & HR & HC & HV)]; [eauto|].
    rewrite EN. apply mapM_all_ok. intros b Hb. apply Hco; [congruence|rewrite HR; auto|]. rewrite HR.
    intros z Hz j Hj.
    destruct (Nat.lt_ge_cases j nc) as [H|H].
    - apply (first_determines eps k n p Hk x y Hc Hxy nc z); [unfold p; lia| |exact H].
      intros d Hd'. rewrite <- (Hz d ltac:(lia)). apply sumn_ext. intros i Hi. f_equal.
      specialize (HV 0%nat d i ltac:(simpl; lia) Hd'). rewrite Nat.mul_0_r, Nat.add_0_l in HV. symmetry; exact HV.
    - apply (last_determines eps k n p Hk x y Hc Hxy nc z); [unfold p; lia| |exact Hj|lia].
      intros d Hd'. rewrite <- (Hz (nc * 1 + d)%nat ltac:(lia)). apply sumn_ext. intros i Hi. f_equal.
      specialize (HV 1%nat d i ltac:(simpl; lia) Hd'). symmetry; exact HV. }
  destruct EP as (X & ->). cbn [bind].
  destruct Hk as (Lk & Hp & Hnd & _). rewrite (mk_curve_accepts eps) by (rewrite ?poles_length; auto; lia). eexists; reflexivity.
Qed.
End AtR.
