(** Transfinite interpolation. *)
From Coq Require Import List Arith Reals Lia Lra Bool.
From Verif Require Import Model_Base Model_Curve Model_Interp Model_Wrap Model_Tfi
  Spec_Base Spec_Basis Spec_Knots Spec_Interp Spec_Tfi Proof_Base Proof_Interp Proof_Interp2.
Import ListNotations.
Local Open Scope R_scope.

Lemma for_post {S : Type} (P : nat -> S -> Prop) body :
  (forall i s s', body i s = Ok s' -> P i s -> P (Datatypes.S i) s') ->
  forall n lo s s', for_ lo n body s = Ok s' -> P lo s -> P (lo + n)%nat s'.
Proof.
  intros Hb. induction n as [|n IH]; intros lo s s' E H; cbn [for_] in E.
  - injection E as <-. rewrite Nat.add_0_r. exact H.
  - apply bind_inv in E as (s1 & E1 & E2). rewrite <- Nat.add_succ_comm. apply (IH _ _ _ E2). exact (Hb _ _ _ E1 H).
Qed.
Lemma for_postR {S : Type} (P : nat -> S -> Prop) body n0 lo s s' :
  (forall i s s', (lo <= i < lo + n0)%nat -> body i s = Ok s' -> P i s -> P (Datatypes.S i) s') ->
  for_ lo n0 body s = Ok s' -> P lo s -> P (lo + n0)%nat s'.
Proof.
  revert lo s. induction n0 as [|n IH]; intros lo s Hb E H; cbn [for_] in E.
  - injection E as <-. rewrite Nat.add_0_r. exact H.
  - apply bind_inv in E as (s1 & E1 & E2). rewrite <- Nat.add_succ_comm. apply (IH _ s1).
    + intros i a b Hi. apply Hb. lia.
    + exact E2.
    + apply (Hb lo s s1); [lia|exact E1|exact H].
Qed.

Lemma get_ok_nth {A} (l : list A) i a : get l i = Ok a -> nth_error l i = Some a.
Proof. unfold get. destruct (nth_error l i); congruence. Qed.
Lemma get_of_nth {A} (l : list A) i a : nth_error l i = Some a -> get l i = Ok a.
Proof. unfold get. intros ->. reflexivity. Qed.
Lemma get_kn_inv (l : list R) i a : get l i = Ok a -> (i < length l)%nat /\ a = kn l i.
Proof.
  intros E. apply get_ok_nth in E. split; [apply nth_error_Some; congruence|].
  unfold kn. symmetry. apply (nth_error_nth l i 0 E).
Qed.

(** ** Hard indices *)
Lemma hard_0 l : hard l 0 = 0%nat.
Proof. destruct l; reflexivity. Qed.
Lemma hard_S l : forall i n, nth_error l i = Some n -> hard l (S i) = (hard l i + (n - 1))%nat.
Proof.
  induction l as [|a l IH]; intros [|i] n E; try discriminate.
  - injection E as ->. cbn [hard]. rewrite hard_0. lia.
  - change (hard (a :: l) (S (S i))) with ((a - 1) + hard l (S i))%nat. cbn [hard].
    rewrite (IH i n E). lia.
Qed.
Lemma hard_mono l i j : (i <= j)%nat -> (hard l i <= hard l j)%nat.
Proof.
  revert i j; induction l as [|a l IH]; intros i j Hij; [destruct i, j; simpl; lia|].
  destruct i as [|i]; [rewrite hard_0; lia|]. destruct j as [|j]; [lia|].
  cbn [hard]. specialize (IH i j ltac:(lia)). lia.
Qed.
Lemma hard_lt l i j : (forall n, In n l -> (2 <= n)%nat) -> (i < j)%nat -> (j <= length l)%nat -> (hard l i < hard l j)%nat.
Proof.
  intros Hl Hij Hj. destruct (nth_error l i) as [n|] eqn:E; [|apply nth_error_None in E; lia].
  pose proof (hard_S l i n E). pose proof (hard_mono l (S i) j ltac:(lia)).
  specialize (Hl n (nth_error_In _ _ E)). lia.
Qed.

(** ** Sorted lists *)
Lemma nondecreasing_app l l' x : nondecreasing l -> nondecreasing l' -> (forall y, In y l -> y <= x) ->
  (forall y, In y l' -> x <= y) -> nondecreasing (l ++ l').
Proof.
  intros A B C D i j Hij Hj. rewrite app_length in Hj. unfold kn.
  destruct (le_lt_dec (length l) i) as [Hi|Hi].
  - rewrite !app_nth2 by lia. apply (B (i - length l)%nat (j - length l)%nat); lia.
  - rewrite (app_nth1 l l' 0) by lia. destruct (le_lt_dec (length l) j) as [Hj2|Hj2].
    + rewrite app_nth2 by lia. apply Rle_trans with x; [apply C, nth_In; lia|apply D, nth_In; lia].
    + rewrite app_nth1 by lia. apply A; lia.
Qed.

Section AtR.
Variable eps : R.
Local Hint Extern 0 (Num R) => exact (NumR eps) : typeclass_instances.

Lemma is_sorted_nd (l : list R) : is_sorted l = true -> nondecreasing l.
Proof.
  induction l as [|x l IH]; intros E; [intros i j _ Hj; simpl in Hj; lia|].
  destruct l as [|y l].
  - intros i j Hij Hj. simpl in Hj. assert (i = 0%nat) as -> by lia. assert (j = 0%nat) as -> by lia. lra.
  - cbn [is_sorted] in E. apply andb_true_iff in E as (E1 & E2). specialize (IH E2).
    assert (x <= y) as Hxy by (revert E1; nsimp; destruct (Rltb_spec y x); [discriminate|lra]).
    intros i j Hij Hj. destruct j as [|j]; [assert (i = 0%nat) as -> by lia; lra|].
    destruct i as [|i]; [|apply (IH i j); simpl in *; lia].
    change (x <= kn (y :: l) j). apply Rle_trans with y; [exact Hxy|]. apply (IH 0%nat j); simpl in *; lia.
Qed.

Variable abs_curv : gcurve R -> R -> R -> result (R * (R -> result R)).

Lemma uniform_inv crv u1 u2 n l : uniform_distrib_params abs_curv crv u1 u2 n = Ok l ->
  (2 <= n)%nat /\ length l = n /\ nondecreasing l /\ exists mid, l = u1 :: mid ++ [u2].
Proof.
  unfold uniform_distrib_params. destruct n as [|[|m]]; try discriminate. intros E.
  apply bind_inv in E as ((len & f) & E1 & E). apply bind_inv in E as (dm & E2 & E).
  apply bind_inv in E as ((mid & z) & E3 & E).
  destruct (is_sorted (u1 :: mid ++ [u2])) eqn:Es; [|discriminate]. injection E as <-.
  assert (HL : length (fst (mid, z)) = m).
  { refine (for_post (fun i (st : list R * R) => length (fst st) = i) _ _ _ _ _ _ E3 eq_refl).
    intros i [a b] st' Eb Hl. apply bind_inv in Eb as (v & Ev & Eb). injection Eb as <-. cbn [fst] in *.
    rewrite app_length. cbn [length]. lia. }
  cbn [fst] in HL.
  split; [lia|]. split; [cbn [length]; rewrite app_length; cbn [length]; lia|].
  split; [apply is_sorted_nd; exact Es|]. exists mid. reflexivity.
Qed.

Lemma curve_params_inv crv nui u l : (2 <= length u)%nat -> (length nui + 1 = length u)%nat ->
  curve_params abs_curv crv nui u = Ok l -> distribution nui u l.
Proof.
  intros HL HN E. unfold curve_params in E.
  set (P := fun i (acc : list R) => (i <= length u - 1)%nat /\
    nondecreasing acc /\ (forall y, In y acc -> y <= kn u i) /\
    length acc = (hard nui i + (if i =? length u - 1 then 1 else 0))%nat /\
    (forall j, (j < i)%nat -> kn acc (hard nui j) = kn u j) /\
    (i = (length u - 1)%nat -> kn acc (hard nui i) = kn u i) /\
    (forall j n, (j < i)%nat -> nth_error nui j = Some n -> (2 <= n)%nat)).
  assert (H : P (0 + (length u - 1))%nat l).
  { refine (for_postR P _ _ _ _ _ _ E _).
    2:{ unfold P. split; [lia|]. split; [intros i j _ Hj; simpl in Hj; lia|]. split; [intros y []|].
        split; [rewrite hard_0; destruct (Nat.eqb_spec 0 (length u - 1)); [lia|reflexivity]|].
        split; [intros; lia|]. split; [lia|intros; lia]. }
    intros i acc acc' Hi Eb (Hle & ND & UB & LA & KJ & _ & N2).
    apply bind_inv in Eb as (u1 & E1 & Eb). apply bind_inv in Eb as (u2 & E2 & Eb).
    apply bind_inv in Eb as (n & E3 & Eb). apply bind_inv in Eb as (seg & E4 & Eb).
    apply get_kn_inv in E1 as (L1 & ->). apply get_kn_inv in E2 as (L2 & ->). apply get_ok_nth in E3.
    apply uniform_inv in E4 as (Hn & LS & NS & mid & ->).
    rewrite (Nat.add_comm i 1) in *. change (1 + i)%nat with (S i) in *.
    assert (Hacc : length acc = hard nui i).
    { destruct (Nat.eqb_spec i (length u - 1)); lia. }
    pose proof (hard_S nui i n E3) as HS.
    set (seg := (kn u i :: mid ++ [kn u (S i)]) : list R) in *.
    assert (HB : forall y, In y seg -> kn u i <= y <= kn u (S i)).
    { intros y Hy. destruct (In_nth seg y 0 Hy) as (q & Hq & <-). split.
      - change (kn u i) with (kn seg 0). apply NS; [lia|exact Hq].
      - assert (kn seg (length seg - 1) = kn u (S i)) as <-.
        { unfold kn, seg. cbn [length]. rewrite app_length. cbn [length].
          replace (S (length mid + 1) - 1)%nat with (S (length mid)) by lia. cbn [nth].
          rewrite app_nth2 by lia. rewrite Nat.sub_diag. reflexivity. }
        apply NS; lia. }
    assert (Hrl : removelast seg = kn u i :: mid).
    { unfold seg. change (kn u i :: mid ++ [kn u (S i)]) with ((kn u i :: mid) ++ [kn u (S i)]). apply removelast_last. }
    assert (Hseg : seg = removelast seg ++ [kn u (S i)]) by (rewrite Hrl; reflexivity).
    assert (NR : nondecreasing (removelast seg)).
    { intros a b Hab Hb. assert (Hb' : (b < length seg)%nat) by (rewrite Hseg, app_length; lia).
      specialize (NS a b Hab Hb'). unfold kn in *. rewrite Hseg in NS. rewrite !app_nth1 in NS by lia. exact NS. }
    assert (LR : length (removelast seg) = (n - 1)%nat).
    { rewrite Hrl. cbn [length]. unfold seg in LS. cbn [length] in LS. rewrite app_length in LS. cbn [length] in LS. lia. }
    set (sg := if (i =? length u - 2)%nat then seg else removelast seg) in *.
    assert (HSg : nondecreasing sg /\ (forall y, In y sg -> In y seg) /\ (exists rest, sg = kn u i :: rest) /\
       length sg = (n - 1 + (if S i =? length u - 1 then 1 else 0))%nat /\
       (S i = (length u - 1)%nat -> kn sg (n - 1) = kn u (S i))).
    { unfold sg. destruct (Nat.eqb_spec i (length u - 2)) as [Ei|Ei]; destruct (Nat.eqb_spec (S i) (length u - 1)) as [Ej|Ej]; try lia.
      - split; [exact NS|]. split; [auto|]. split; [exists (mid ++ [kn u (S i)]); reflexivity|]. split; [lia|].
        intros _. unfold kn. rewrite Hseg, app_nth2 by lia. rewrite LR, Nat.sub_diag. reflexivity.
      - split; [exact NR|]. split; [intros y Hy; rewrite Hseg; apply in_or_app; left; exact Hy|].
        split; [exists mid; exact Hrl|]. split; [lia|lia]. }
    destruct HSg as (S1 & S2 & (rest & S3) & S4 & S5).
    assert (acc' = acc ++ sg) as -> by congruence.
    split; [lia|]. split.
    { apply (nondecreasing_app _ _ (kn u i)); [exact ND|exact S1|exact UB|]. intros y Hy. apply HB, S2, Hy. }
    split.
    { intros y Hy. apply in_app_or in Hy as [Hy|Hy]; [|apply HB, S2, Hy].
      apply Rle_trans with (kn u i); [apply UB, Hy|]. destruct (HB (kn u i)); [left; reflexivity|lra]. }
    split; [rewrite app_length, Hacc, S4, HS; lia|]. split; [|split].
    - intros j Hj. unfold kn. destruct (Nat.eq_dec j i) as [->|Nji].
      + rewrite app_nth2 by lia. rewrite Hacc, Nat.sub_diag, S3. reflexivity.
      + rewrite app_nth1; [apply KJ; lia|]. rewrite Hacc.
        destruct (nth_error nui j) as [nj|] eqn:En; [|apply nth_error_None in En; lia].
        pose proof (hard_S nui j nj En). pose proof (hard_mono nui (S j) i ltac:(lia)). specialize (N2 j nj ltac:(lia) En). lia.
    - intros Hend. rewrite <- (S5 Hend). unfold kn. rewrite app_nth2 by lia. f_equal. lia.
    - intros j q Hj Eq. destruct (Nat.eq_dec j i) as [Eji|Nji]; [subst j; congruence|apply (N2 j q); [lia|exact Eq]]. }
  destruct H as (_ & ND & _ & LA & KJ & KE & _). change (0 + (length u - 1))%nat with (length u - 1)%nat in *.
  rewrite Nat.eqb_refl in LA. assert (HE : length nui = (length u - 1)%nat) by lia. unfold distribution. rewrite HE.
  split; [exact LA|]. split; [exact ND|]. intros j Hj.
  destruct (Nat.eq_dec j (length u - 1)) as [Ej|Nj]; [rewrite Ej; apply KE; reflexivity|apply KJ; lia].
Qed.

Lemma curve_params_sizes crv nui u l : (length nui + 1 = length u)%nat ->
  curve_params abs_curv crv nui u = Ok l -> forall n, In n nui -> (2 <= n)%nat.
Proof.
  intros HN E.
  assert (H : forall j n, (j < length u - 1)%nat -> nth_error nui j = Some n -> (2 <= n)%nat).
  { refine (for_post (fun i (_ : list R) => forall j n, (j < i)%nat -> nth_error nui j = Some n -> (2 <= n)%nat) _ _ _ _ _ _ E _); [|intros; lia].
    intros i acc acc' Eb IH j n Hj En.
    apply bind_inv in Eb as (u1 & E1 & Eb). apply bind_inv in Eb as (u2 & E2 & Eb).
    apply bind_inv in Eb as (n' & E3 & Eb). apply bind_inv in Eb as (seg & E4 & Eb).
    destruct (Nat.eq_dec j i) as [Eji|Nji]; [|apply (IH j n); [lia|exact En]].
    apply get_ok_nth in E3. apply uniform_inv in E4 as (Hn & _). subst j. congruence. }
  intros n Hn. destruct (In_nth_error _ _ Hn) as (j & Ej). apply (H j n); [|exact Ej].
  assert (j < length nui)%nat by (apply nth_error_Some; congruence). lia.
Qed.

Lemma seq_nth_error a n i : (i < n)%nat -> nth_error (seq a n) i = Some (a + i)%nat.
Proof. intros H. rewrite (nth_error_nth' _ 0%nat) by (rewrite seq_length; exact H). rewrite seq_nth by exact H. reflexivity. Qed.

Lemma mapM_seq {B} (f : nat -> result B) n r : mapM f (seq 0 n) = Ok r ->
  length r = n /\ forall i, (i < n)%nat -> exists b, nth_error r i = Some b /\ f i = Ok b.
Proof.
  intros E. destruct (mapM_nth _ _ _ E) as (L & H). rewrite seq_length in L. split; [exact L|].
  intros i Hi. destruct (H i i (seq_nth_error 0 n i Hi)) as (b & A & B'). eauto.
Qed.

Lemma msh_set_inv P crvs nui u X : (2 <= length u)%nat -> msh_curves_set abs_curv P crvs nui u = Ok X ->
  exists ts, length ts = length crvs /\ (1 <= length crvs)%nat /\ length X = (hard nui (length nui) + 1)%nat /\
    (length nui + 1 = length u)%nat /\ (forall n, In n nui -> (2 <= n)%nat) /\
    (forall i t, nth_error ts i = Some t -> distribution nui u t) /\
    forall i crv t j_ n, nth_error crvs i = Some crv -> nth_error ts i = Some t ->
      (j_ < length X)%nat -> (n < P)%nat ->
      exists v, at3 X j_ i n = Ok v /\ g_value crv (kn t j_) n = Ok v.
Proof.
  intros HU E. unfold msh_curves_set in E.
  destruct (Nat.eqb_spec (length nui + 1) (length u)) as [HN|]; [|discriminate]. cbn [negb] in E.
  apply bind_inv in E as (ok & E1 & E). destruct ok; [|discriminate]. cbn [negb] in E.
  apply bind_inv in E as (ts & E2 & E). apply bind_inv in E as (p0 & E3 & E).
  destruct (mapM_nth _ _ _ E2) as (LT & HT). exists ts. split; [exact LT|].
  apply get_ok_nth in E3.
  assert (HT2 : forall i t, nth_error ts i = Some t -> exists crv, nth_error crvs i = Some crv /\ curve_params abs_curv crv nui u = Ok t).
  { intros i t Ht. assert (i < length ts)%nat by (apply nth_error_Some; congruence).
    destruct (nth_error crvs i) as [crv|] eqn:Ec; [|apply nth_error_None in Ec; lia].
    destruct (HT i crv Ec) as (b & Hb & Eb). exists crv. split; [reflexivity|congruence]. }
  assert (HD : forall i t, nth_error ts i = Some t -> distribution nui u t).
  { intros i t Ht. destruct (HT2 i t Ht) as (crv & _ & Ec). exact (curve_params_inv _ _ _ _ HU HN Ec). }
  destruct (mapM_seq _ _ _ E) as (LX & HX).
  split. { assert (0 < length ts)%nat by (apply nth_error_Some; congruence). lia. }
  split. { rewrite LX. exact (proj1 (HD 0%nat p0 E3)). }
  split; [exact HN|]. split.
  { destruct (HT2 0%nat p0 E3) as (crv & _ & Ec). exact (curve_params_sizes _ _ _ _ HN Ec). }
  split; [exact HD|].
  intros i crv t j_ n Hc Ht Hj Hn. rewrite LX in Hj.
  destruct (HX j_ Hj) as (row & Hrow & Erow).
  destruct (mapM_seq _ _ _ Erow) as (Lr & Hr).
  assert (Hi : (i < length crvs)%nat) by (apply nth_error_Some; congruence).
  destruct (Hr i Hi) as (ders & Hd & Ed).
  rewrite (get_of_nth _ _ _ Hc) in Ed. cbn [bind] in Ed. rewrite (get_of_nth _ _ _ Ht) in Ed. cbn [bind] in Ed.
  destruct (mapM_seq _ _ _ Ed) as (Ld & Hdd). destruct (Hdd n Hn) as (v & Hv & Ev).
  apply bind_inv in Ev as (x & Ex & Ev). apply get_kn_inv in Ex as (_ & ->).
  exists v. split; [|exact Ev]. unfold at3.
  rewrite (get_of_nth _ _ _ Hrow). cbn [bind]. rewrite (get_of_nth _ _ _ Hd). cbn [bind]. apply get_of_nth, Hv.
Qed.

(** ** Blend functions *)
Lemma fvalue_passes f x d q : passes eps 1 f x 0 q -> d = q 0%nat -> fvalue f x = Ok d.
Proof. intros (v & E & H) ->. unfold fvalue. rewrite E. cbn [bind]. rewrite (H 0%nat) by lia. reflexivity. Qed.

Lemma blend_kronecker sparse P sc ksi fs : exact_solver sparse -> 0 <= eps -> (1 <= P)%nat -> (P + sc <= 12)%nat ->
  (2 <= length ksi)%nat -> strictly_increasing ksi -> build_tfi_blend sparse P sc ksi = Ok fs ->
  forall i n, (i < length ksi)%nat -> (n < P)%nat -> exists l f, nth_error fs i = Some l /\ nth_error l n = Some f /\
    forall i', (i' < length ksi)%nat -> fvalue f (kn ksi i') = Ok (if ((i' =? i) && (n =? 0))%nat then 1 else 0).
Proof.
  intros Hex He HP Hnc HL Hs E i n Hi Hn. unfold build_tfi_blend in E.
  destruct (mapM_seq _ _ _ E) as (_ & H). destruct (H i Hi) as (l & El & Em).
  destruct (mapM_seq _ _ _ Em) as (_ & H'). destruct (H' n Hn) as (f & Ef & Eh).
  exists l, f. split; [exact El|]. split; [exact Ef|]. intros i' Hi'.
  assert (LB : length (@blend_data R (NumR eps) (length ksi) (P + sc) i n) = length ksi).
  { unfold blend_data. rewrite map_length, seq_length. reflexivity. }
  destruct (hermite_ok eps sparse 1 (P + sc) (blend_data (length ksi) (P + sc) i n) ksi f Hex He ltac:(lia) ltac:(lia) ltac:(lia)) as (_ & _ & HV).
  - intros q Hq. unfold blend_data in Hq. apply in_map_iff in Hq as (a & <- & _). rewrite map_length, seq_length. reflexivity.
  - exact Hs.
  - exact Eh.
  - left. lia.
  - apply (fvalue_passes f _ _ _ (HV i' 0%nat ltac:(lia) ltac:(lia))).
    unfold blend_data.
    rewrite (nth_indep _ [] ((fun a => map (fun b => if ((a =? i) && (b =? n))%nat then (fun _ => 1) else (fun _ : nat => 0)) (seq 0 (P + sc))) 0%nat)) by (rewrite map_length, seq_length; exact Hi').
    rewrite (map_nth (fun a => map (fun b => if ((a =? i) && (b =? n))%nat then (fun _ => 1) else (fun _ : nat => 0)) (seq 0 (P + sc)))).
    rewrite seq_nth by exact Hi'. change (0 + i')%nat with i'.
    destruct (P + sc)%nat as [|m] eqn:Em'; [lia|]. cbn [seq map nth].
    rewrite (Nat.eqb_sym 0 n). destruct ((i' =? i) && (n =? 0))%nat; reflexivity.
Qed.

(** ** Sums *)
Definition tv {A} (d : A) (r : result A) : A := match r with Ok v => v | _ => d end.
Lemma acc_inv (d : nat -> nat -> R) body n : forall lo (s s' : pt R),
  (forall i a b, body i a = Ok b -> forall c, b c = a c + d i c) ->
  for_ lo n body s = Ok s' -> forall c, s' c = s c + sumn n (fun i => d (lo + i)%nat c).
Proof.
  induction n as [|n IH]; intros lo s s' Hb E c; cbn [for_] in E.
  - injection E as <-. cbn [sumn]. ring.
  - apply bind_inv in E as (s1 & E1 & E2). rewrite (IH _ _ _ Hb E2 c), (Hb _ _ _ E1 c).
    rewrite sumn_shift. rewrite Nat.add_0_r.
    rewrite (sumn_ext n _ (fun i => d (lo + S i)%nat c)); [ring|]. intros i _. rewrite Nat.add_succ_comm. reflexivity.
Qed.

Definition blendv (fs : list (list (curve R))) (i n : nat) (t : R) : result R :=
  let* l := get fs i in let* f := get l n in fvalue f t.
Lemma node_value P Q alpha beta XK XE X4 L M ksi eth i_ j_ v :
  tfi_node P Q alpha beta XK XE X4 L M ksi eth i_ j_ = Ok v ->
  exists x y, fvalue ksi (INR i_) = Ok x /\ fvalue eth (INR j_) = Ok y /\ forall c,
    let A i n := tv 0 (blendv alpha i n x) in
    let B j m := tv 0 (blendv beta j m y) in
    let z : pt R := fun _ => 0 in
    v c = sumn L (fun i => sumn P (fun n => A i n * tv z (at3 XK j_ i n) c))
        + sumn M (fun j => sumn Q (fun m => B j m * tv z (at3 XE i_ j m) c))
        - sumn L (fun i => sumn M (fun j => sumn P (fun n => sumn Q (fun m =>
            A i n * B j m * tv z (at4 X4 i j n m) c)))).
Proof.
  intros E. unfold tfi_node in E. rewrite !nofnat_R in E.
  apply bind_inv in E as (x & Ex & E). apply bind_inv in E as (y & Ey & E).
  apply bind_inv in E as (U & EU & E). apply bind_inv in E as (V & EV & E). apply bind_inv in E as (W & EW & E).
  injection E as <-. exists x, y. split; [exact Ex|]. split; [exact Ey|]. intros c A B z.
  assert (HU : U c = 0 + sumn L (fun i => sumn P (fun n => A i n * tv z (at3 XK j_ i n) c))).
  { refine (acc_inv (fun i c => sumn P (fun n => A i n * tv z (at3 XK j_ i n) c)) _ _ _ _ _ _ EU c).
    intros i a b Eb c'. refine (acc_inv (fun n c => A i n * tv z (at3 XK j_ i n) c) _ _ _ _ _ _ Eb c').
    intros n a' b' Eb' c2. apply bind_inv in Eb' as (va & Ea & Eb'). apply bind_inv in Eb' as (vx & Evx & Eb').
    injection Eb' as <-. unfold A, blendv. rewrite Ea, Evx. cbn [tv]. unfold padd, pscal. nsimp. reflexivity. }
  assert (HV : V c = 0 + sumn M (fun j => sumn Q (fun m => B j m * tv z (at3 XE i_ j m) c))).
  { refine (acc_inv (fun j c => sumn Q (fun m => B j m * tv z (at3 XE i_ j m) c)) _ _ _ _ _ _ EV c).
    intros i a b Eb c'. refine (acc_inv (fun n c => B i n * tv z (at3 XE i_ i n) c) _ _ _ _ _ _ Eb c').
    intros n a' b' Eb' c2. apply bind_inv in Eb' as (va & Ea & Eb'). apply bind_inv in Eb' as (vx & Evx & Eb').
    injection Eb' as <-. unfold B, blendv. rewrite Ea, Evx. cbn [tv]. unfold padd, pscal. nsimp. reflexivity. }
  assert (HW : W c = 0 + sumn L (fun i => sumn M (fun j => sumn P (fun n => sumn Q (fun m =>
            A i n * B j m * tv z (at4 X4 i j n m) c))))).
  { refine (acc_inv (fun i c => sumn M (fun j => sumn P (fun n => sumn Q (fun m => A i n * B j m * tv z (at4 X4 i j n m) c)))) _ _ _ _ _ _ EW c).
    intros i a b Eb c'. refine (acc_inv (fun j c => sumn P (fun n => sumn Q (fun m => A i n * B j m * tv z (at4 X4 i j n m) c))) _ _ _ _ _ _ Eb c').
    clear a b Eb c'. intros j a b Eb c'. refine (acc_inv (fun n c => sumn Q (fun m => A i n * B j m * tv z (at4 X4 i j n m) c)) _ _ _ _ _ _ Eb c').
    clear a b Eb c'. intros n a b Eb c'. refine (acc_inv (fun m c => A i n * B j m * tv z (at4 X4 i j n m) c) _ _ _ _ _ _ Eb c').
    intros m a' b' Eb' c2. apply bind_inv in Eb' as (va & Ea & Eb'). apply bind_inv in Eb' as (vb & Evb & Eb'). apply bind_inv in Eb' as (vx & Evx & Eb').
    injection Eb' as <-. unfold A, B, blendv. rewrite Ea, Evb, Evx. cbn [tv]. unfold padd, pscal. nsimp. reflexivity. }
  unfold psub, padd. nsimp. rewrite HU, HV, HW. ring.
Qed.

Definition dl (i i' n : nat) : R := if ((i' =? i) && (n =? 0))%nat then 1 else 0.
Lemma dl_i i i' n : i' <> i -> dl i i' n = 0.
Proof. unfold dl. destruct (Nat.eqb_spec i' i); [contradiction|reflexivity]. Qed.
Lemma dl_n i i' n : n <> 0%nat -> dl i i' n = 0.
Proof. unfold dl. destruct (Nat.eqb_spec n 0); [contradiction|rewrite andb_false_r; reflexivity]. Qed.
Lemma dl_1 i : dl i i 0 = 1.
Proof. unfold dl. rewrite !Nat.eqb_refl. reflexivity. Qed.

Lemma sum_delta2 L P i (f : nat -> nat -> R) : (i < L)%nat -> (1 <= P)%nat ->
  sumn L (fun i' => sumn P (fun n => dl i i' n * f i' n)) = f i 0%nat.
Proof.
  intros Hi HP. rewrite (sumn_single L _ i Hi).
  - rewrite (sumn_single P _ 0%nat ltac:(lia)); [rewrite dl_1; ring|]. intros n _ Hn. rewrite dl_n by exact Hn. ring.
  - intros i' _ Hi'. apply sumn_zero. intros n _. rewrite dl_i by exact Hi'. ring.
Qed.

(** A node on a hard line: the two other terms cancel. *)
Lemma hard_ksi L P M Q i (XK : nat -> nat -> R) (B XE : nat -> nat -> R) (X4 : nat -> nat -> nat -> nat -> R) :
  (i < L)%nat -> (1 <= P)%nat ->
  (forall j m, (j < M)%nat -> (m < Q)%nat -> X4 i j 0%nat m = XE j m) ->
  sumn L (fun i' => sumn P (fun n => dl i i' n * XK i' n)) + sumn M (fun j => sumn Q (fun m => B j m * XE j m))
  - sumn L (fun i' => sumn M (fun j => sumn P (fun n => sumn Q (fun m => dl i i' n * B j m * X4 i' j n m))))
  = XK i 0%nat.
Proof.
  intros Hi HP HX. rewrite sum_delta2 by assumption. rewrite (sumn_single L _ i Hi).
  - rewrite (sumn_ext M (fun j => sumn P _) (fun j => sumn Q (fun m => B j m * XE j m))); [ring|].
    intros j Hj. rewrite (sumn_single P _ 0%nat ltac:(lia)).
    + apply sumn_ext. intros m Hm. rewrite dl_1, HX by assumption. ring.
    + intros n _ Hn. apply sumn_zero. intros m _. rewrite dl_n by exact Hn. ring.
  - intros i' _ Hi'. apply sumn_zero. intros j _. apply sumn_zero. intros n _. apply sumn_zero. intros m _.
    rewrite dl_i by exact Hi'. ring.
Qed.
Lemma hard_eth L P M Q j (XE : nat -> nat -> R) (A XK : nat -> nat -> R) (X4 : nat -> nat -> nat -> nat -> R) :
  (j < M)%nat -> (1 <= Q)%nat ->
  (forall i n, (i < L)%nat -> (n < P)%nat -> X4 i j n 0%nat = XK i n) ->
  sumn L (fun i => sumn P (fun n => A i n * XK i n)) + sumn M (fun j' => sumn Q (fun m => dl j j' m * XE j' m))
  - sumn L (fun i => sumn M (fun j' => sumn P (fun n => sumn Q (fun m => A i n * dl j j' m * X4 i j' n m))))
  = XE j 0%nat.
Proof.
  intros Hj HQ HX. rewrite sum_delta2 by assumption.
  rewrite (sumn_ext L (fun i => sumn M _) (fun i => sumn P (fun n => A i n * XK i n))); [ring|].
  intros i Hi. rewrite (sumn_single M _ j Hj).
  - apply sumn_ext. intros n Hn. rewrite (sumn_single Q _ 0%nat ltac:(lia)).
    + rewrite dl_1, HX by assumption. ring.
    + intros m _ Hm. rewrite dl_n by exact Hm. ring.
  - intros j' _ Hj'. apply sumn_zero. intros n _. apply sumn_zero. intros m _. rewrite dl_i by exact Hj'. ring.
Qed.
End AtR.
