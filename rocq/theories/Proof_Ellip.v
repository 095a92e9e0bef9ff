(** Proofs about the smoothing of structured grids. *)
From Coq Require Import Reals List Arith Bool Lia Lra Psatz.
From Verif Require Import Model_Base Model_Mesh Model_Geom Model_Ellip Spec_Ellip Proof_Base.
Import ListNotations.
Local Open Scope R_scope.

Lemma for_ok {St : Type} (P : nat -> St -> Prop) body : forall n lo st st',
  (forall i s s', (lo <= i < lo + n)%nat -> P i s -> body i s = Ok s' -> P (S i) s') ->
  P lo st -> for_ lo n body st = Ok st' -> P (lo + n)%nat st'.
Proof.
  induction n as [|n IH]; intros lo st st' Hb P0 E; cbn [for_] in E.
  - injection E as <-. now rewrite Nat.add_0_r.
  - apply bind_inv in E as (s & E1 & E2). apply (Hb lo st s) in E1; [|lia|auto].
    apply (IH (S lo) s st') in E2; auto.
    + now replace (lo + S n)%nat with (S lo + n)%nat by lia.
    + intros i s1 s2 Hi. apply Hb. lia.
Qed.
Definition fine {A} (P : A -> Prop) (r : result A) := (exists a, r = Ok a /\ P a) \/ r = Undef DivByZero.
Lemma fine_bind {A B} (P : A -> Prop) (Q : B -> Prop) r f : fine P r -> (forall a, P a -> fine Q (f a)) -> fine Q (let* a := r in f a).
Proof. intros [(a & -> & Pa)| ->] Hf; cbn [bind]; auto. now right. Qed.
Lemma fine_for {S : Type} (P : S -> Prop) body : forall n lo st,
  (forall i s, (lo <= i < lo + n)%nat -> P s -> fine P (body i s)) -> P st -> fine P (for_ lo n body st).
Proof.
  induction n as [|n IH]; intros lo st Hb P0; cbn [for_].
  - left; eauto.
  - apply (fine_bind P P); [apply Hb; [lia|auto]|]. intros s Ps. apply IH; auto. intros i s' Hi. apply Hb. lia.
Qed.
Lemma for_map {S S' : Type} (f : S -> S') (b : nat -> S -> result S) (b' : nat -> S' -> result S') : forall n lo st,
  (forall i s, (lo <= i < lo + n)%nat -> b' i (f s) = (let* s1 := b i s in Ok (f s1))) ->
  for_ lo n b' (f st) = (let* s1 := for_ lo n b st in Ok (f s1)).
Proof.
  induction n as [|n IH]; intros lo st Hb; cbn [for_]; auto.
  rewrite Hb by lia. destruct (b lo st) as [s| | |]; cbn [bind]; auto. apply IH. intros i s1 Hi. apply Hb. lia.
Qed.

Section AtR.
Variable eps : R.
Local Hint Extern 0 (Num R) => exact (NumR eps) : typeclass_instances.

Lemma divc_inv (a b x : R) : divc a b = Ok x -> b <> 0 /\ x = a / b.
Proof.
  intros E. destruct (Req_dec b 0) as [->|N]; [rewrite (divc_zero eps) in E; discriminate|].
  rewrite (divc_ok eps) in E by auto. injection E as <-. auto.
Qed.
Lemma divc_good (a b : R) : b <> 0 -> divc a b = Ok (a / b).
Proof. exact (divc_ok eps a b). Qed.
Lemma divc_fine (a b : R) : fine (fun _ => True) (divc a b).
Proof. unfold divc. destruct (neqb b n0); [right|left]; eauto. Qed.
Lemma two_R : @nadd R (NumR eps) n1 n1 = 2. Proof. cbn. lra. Qed.

Lemma relax_inv a b c dk de ip im jp jm pp pm mm mp x : 0 <= a -> 0 <= c ->
  relax a b c dk de ip im jp jm pp pm mm mp = Ok x -> dk <> 0 /\ de <> 0 /\ 0 < a + c /\
  a * second ip x im dk - 2 * b * mixed pp pm mp mm dk de + c * second jp x jm de = 0.
Proof.
  intros Ha Hc E. unfold relax in E. rewrite two_R in E.
  apply bind_inv in E as (a1 & E1 & E). apply divc_inv in E1 as (K & ->).
  apply bind_inv in E as (a2 & E1 & E). apply divc_inv in E1 as (_ & ->).
  apply bind_inv in E as (c1 & E1 & E). apply divc_inv in E1 as (L & ->).
  apply bind_inv in E as (c2 & E1 & E). apply divc_inv in E1 as (_ & ->).
  apply bind_inv in E as (b1 & E1 & E). apply divc_inv in E1 as (_ & ->).
  apply bind_inv in E as (b2 & E1 & E). apply divc_inv in E1 as (_ & ->).
  apply bind_inv in E as (b3 & E1 & E). apply divc_inv in E1 as (_ & ->).
  apply bind_inv in E as (s1 & E1 & E). apply divc_inv in E1 as (_ & ->).
  apply divc_inv in E as (N & ->). cbn in N |- *. split; [auto|]. split; [auto|]. split.
  - destruct (Rle_lt_dec (a + c) 0); [|auto]. exfalso. apply N. assert (a = 0) by lra. assert (c = 0) by lra. subst. unfold Rdiv. ring.
  - unfold second, mixed. field. repeat split; auto. intros Z. apply N.
    replace (a / dk / dk + c / de / de) with ((c * dk * dk + a * de * de) / (dk * dk * (de * de))) by (field; auto).
    replace (c * dk * dk + a * de * de) with 0; [unfold Rdiv; ring|]. rewrite <- Z. ring.
Qed.
Lemma relax_ok a b c dk de ip im jp jm pp pm mm mp x : 0 <= a -> 0 <= c -> dk <> 0 -> de <> 0 -> 0 < a + c ->
  a * second ip x im dk - 2 * b * mixed pp pm mp mm dk de + c * second jp x jm de = 0 ->
  relax a b c dk de ip im jp jm pp pm mm mp = Ok x.
Proof.
  intros Ha Hc K L P E. unfold relax. rewrite two_R.
  assert (N : a / dk / dk + c / de / de <> 0).
  { replace (a / dk / dk + c / de / de) with (a * (/ dk * / dk) + c * (/ de * / de)) by (field; auto).
    assert (0 < / dk * / dk) by (assert (/ dk <> 0) by (now apply Rinv_neq_0_compat); nra).
    assert (0 < / de * / de) by (assert (/ de <> 0) by (now apply Rinv_neq_0_compat); nra).
    destruct (Rle_lt_dec a 0); [assert (a = 0) by lra; subst; nra|nra]. }
  repeat (rewrite divc_good by (first [assumption|exact N|lra]); cbn [bind]). apply (f_equal (@Ok R)). cbn. unfold second, mixed in E.
  apply (Rmult_eq_reg_r (a / dk / dk + c / de / de)); [|auto]. unfold Rdiv at 1. rewrite Rmult_assoc, (Rinv_l _ N), Rmult_1_r.
  transitivity (x * (a / dk / dk + c / de / de) + (a * ((ip - 2 * x + im) / (dk * dk)) - 2 * b * ((pp - pm - mp + mm) / (4 * dk * de)) + c * ((jp - 2 * x + jm) / (de * de))) / 2).
  - field; auto.
  - rewrite E. lra.
Qed.
Lemma relax_fine (a b c dk de ip im jp jm pp pm mm mp : R) : fine (fun _ => True) (relax a b c dk de ip im jp jm pp pm mm mp).
Proof. unfold relax. repeat (apply (fine_bind (fun _ => True)); [apply divc_fine|intros ? _]). apply divc_fine. Qed.
Lemma relax_shift t a b c dk de ip im jp jm pp pm mm mp :
  relax a b c dk de (ip + t) (im + t) (jp + t) (jm + t) (pp + t) (pm + t) (mm + t) (mp + t) =
  (let* x := relax a b c dk de ip im jp jm pp pm mm mp in Ok (x + t)).
Proof.
  unfold relax. rewrite two_R.
  repeat match goal with |- context [divc ?x ?y] => first [ rewrite (divc_good x y) by lra; cbn [bind]
    | let E := fresh in destruct (divc x y) eqn:E; cbn [bind]; [apply divc_inv in E as (? & ->)|reflexivity|reflexivity|reflexivity]] end.
  destruct (Req_dec (a / dk / dk + c / de / de) 0) as [Z|N].
  - change (nadd (a / dk / dk) (c / de / de)) with (a / dk / dk + c / de / de). rewrite Z, !(divc_zero eps). reflexivity.
  - rewrite !divc_good by exact N. cbn [bind]. apply (f_equal (@Ok R)). cbn. field. repeat split; auto. intros Z. apply N.
    replace (a / dk / dk + c / de / de) with ((c * dk * dk + a * de * de) / (dk * dk * (de * de))) by (field; auto).
    replace (c * dk * dk + a * de * de) with 0; [unfold Rdiv; ring|]. rewrite <- Z. ring.
Qed.

Lemma get_node g nj i j p : node_at g nj i j = Ok p <-> node g nj i j p.
Proof. unfold node_at, node. apply get_some. Qed.
Lemma nn (x y : R) : 0 <= x * x + y * y. Proof. nra. Qed.
Lemma step_R n : nsub (nofnat n) n1 = INR n - 1.
Proof. cbn. rewrite (nofnat_R eps). reflexivity. Qed.
Lemma step_ne n : (2 <= n)%nat -> INR n - 1 <> 0.
Proof. intros Hn. apply le_INR in Hn. cbn in Hn. lra. Qed.
Lemma moved_inv g ni nj i j q : moved g ni nj i j = Ok q -> elliptic_at g ni nj i j q.
Proof.
  unfold moved. intros E. rewrite !step_R, two_R in E.
  apply bind_inv in E as (dk & E1 & E). apply divc_inv in E1 as (K & ->).
  apply bind_inv in E as (de & E1 & E). apply divc_inv in E1 as (L & ->).
  apply bind_inv in E as (ip & E1 & E). apply get_node in E1.
  apply bind_inv in E as (im & E2 & E). apply get_node in E2.
  apply bind_inv in E as (jp & E3 & E). apply get_node in E3.
  apply bind_inv in E as (jm & E4 & E). apply get_node in E4.
  apply bind_inv in E as (xk & F & E). apply divc_inv in F as (_ & ->).
  apply bind_inv in E as (yk & F & E). apply divc_inv in F as (_ & ->).
  apply bind_inv in E as (xe & F & E). apply divc_inv in F as (_ & ->).
  apply bind_inv in E as (ye & F & E). apply divc_inv in F as (_ & ->).
  apply bind_inv in E as (pp & E5 & E). apply get_node in E5.
  apply bind_inv in E as (pm & E6 & E). apply get_node in E6.
  apply bind_inv in E as (mm & E7 & E). apply get_node in E7.
  apply bind_inv in E as (mp & E8 & E). apply get_node in E8.
  apply bind_inv in E as (x & F & E). apply relax_inv in F as (_ & _ & P & F); [|apply nn|apply nn].
  apply bind_inv in E as (y & G & E). apply relax_inv in G as (_ & _ & _ & G); [|apply nn|apply nn].
  injection E as <-. exists ip, im, jp, jm, pp, pm, mp, mm. do 8 (split; [assumption|]).
  cbv zeta. split; [exact P|]. split; [exact F|exact G].
Qed.
Lemma moved_ok g ni nj i j q : (2 <= ni)%nat -> (2 <= nj)%nat -> elliptic_at g ni nj i j q -> moved g ni nj i j = Ok q.
Proof.
  intros N1 N2 (ip & im & jp & jm & pp & pm & mp & mm & E1 & E2 & E3 & E4 & E5 & E6 & E7 & E8 & P & F & G).
  apply step_ne in N1. apply step_ne in N2. unfold moved. rewrite !step_R, two_R.
  assert (K : 1 / (INR ni - 1) <> 0) by (unfold Rdiv; rewrite Rmult_1_l; now apply Rinv_neq_0_compat).
  assert (L : 1 / (INR nj - 1) <> 0) by (unfold Rdiv; rewrite Rmult_1_l; now apply Rinv_neq_0_compat).
  change (@n1 R (NumR eps)) with 1. repeat (rewrite divc_good by auto; cbn [bind]).
  apply get_node in E1, E2, E3, E4, E5, E6, E7, E8. rewrite E1, E2, E3, E4. cbn [bind].
  set (dk := 1 / (INR ni - 1)) in *. set (de := 1 / (INR nj - 1)) in *.
  change (@nmul R (NumR eps) 2 dk) with (2 * dk). change (@nmul R (NumR eps) 2 de) with (2 * de).
  repeat (rewrite divc_good by lra; cbn [bind]). rewrite E5, E6, E7, E8. cbn [bind].
  erewrite relax_ok; [|apply nn|apply nn|exact K|exact L|exact P|exact F]. cbn [bind].
  erewrite relax_ok; [|apply nn|apply nn|exact K|exact L|exact P|exact G]. cbn [bind].
  now destruct q.
Qed.

(** What a pass has done once the nodes of [D] have been moved. *)
Definition Done (g g0 : list (R * R)) (ni nj : nat) (D : nat -> nat -> Prop) (st : list (R * R) * R) : Prop :=
  length (fst st) = length g0 /\
  (forall i j, (j < nj)%nat -> ~ D i j -> nth_error (fst st) (j + nj * i) = nth_error g0 (j + nj * i)) /\
  (forall i j, D i j -> exists q, node (fst st) nj i j q /\ elliptic_at g ni nj i j q) /\
  0 <= snd st /\
  (forall i j p q, D i j -> node g nj i j p -> node (fst st) nj i j q -> move_of p q <= snd st) /\
  (snd st = 0 \/ exists i j p q, D i j /\ node g nj i j p /\ node (fst st) nj i j q /\ move_of p q = snd st).
Lemma flat_inj nj i j i' j' : (j < nj)%nat -> (j' < nj)%nat -> (j + nj * i = j' + nj * i')%nat -> i = i' /\ j = j'.
Proof.
  intros A B E. assert (i = i') by nia. subst. lia.
Qed.
Lemma Done_ext g g0 ni nj (D D' : nat -> nat -> Prop) st : (forall i j, D i j <-> D' i j) -> Done g g0 ni nj D st -> Done g g0 ni nj D' st.
Proof.
  intros X (A & B & C & E & F & G). repeat split; auto.
  - intros i j Hj N. apply B; auto. now rewrite X.
  - intros i j Hd. apply C. now apply X.
  - intros i j p q Hd. apply F. now apply X.
  - destruct G as [G|(i & j & p & q & Hd & G)]; [auto|right]. exists i, j, p, q. split; [now apply X|auto].
Qed.
Lemma nmax_R (x y : R) : nmax x y = Rmax x y.
Proof. unfold nmax. cbn. destruct (Rltb_spec x y); unfold Rmax; destruct (Rle_dec x y); lra. Qed.
Lemma nth_upd_same {A} (l : list A) i a : (i < length l)%nat -> nth_error (upd l i a) i = Some a.
Proof. intros Hi. apply get_some. now apply get_upd_same. Qed.
Lemma nth_upd_other {A} (l : list A) i j a : i <> j -> nth_error (upd l i a) j = nth_error l j.
Proof.
  intros N. pose proof (get_upd_other l i j a N) as E. unfold get in E.
  destruct (nth_error (upd l i a) j), (nth_error l j); congruence.
Qed.
Lemma move_node_done g g0 ni nj (D : nat -> nat -> Prop) i j st st' : (forall i j, D i j -> (j < nj)%nat) -> (j < nj)%nat -> ~ D i j ->
  Done g g0 ni nj D st -> move_node g ni nj i j st = Ok st' -> Done g g0 ni nj (fun i' j' => D i' j' \/ (i' = i /\ j' = j)) st'.
Proof.
  intros DJ Hj ND (A & B & C & P & F & G) E. unfold move_node in E.
  apply bind_inv in E as (q & E1 & E). apply moved_inv in E1.
  apply bind_inv in E as (g1 & E2 & E). apply set_inv in E2 as (L & ->).
  apply bind_inv in E as (p & E3 & E). apply get_node in E3. injection E as <-. rewrite nmax_R. unfold Done. cbn [fst snd].
  rewrite !(nabs_R eps). fold (move_of p q). set (err := move_of p q). assert (ER : err = move_of p q) by reflexivity. clearbody err.
  assert (S0 : node (upd (fst st) (j + nj * i) q) nj i j q) by (unfold node; now apply nth_upd_same).
  assert (SO : forall i' j' r, D i' j' -> node (upd (fst st) (j + nj * i) q) nj i' j' r <-> node (fst st) nj i' j' r).
  { intros i' j' r Hd. unfold node. rewrite nth_upd_other; [tauto|]. intros X. apply flat_inj in X as (-> & ->); auto. now apply DJ in Hd. }
  assert (NE : 0 <= err) by (rewrite ER; unfold move_of; pose proof (Rabs_pos (fst q - fst p)); pose proof (Rabs_pos (snd q - snd p)); lra).
  pose proof (Rmax_l (snd st) err) as M1. pose proof (Rmax_r (snd st) err) as M2. repeat split.
  - now rewrite upd_length.
  - intros i' j' Hj' N. rewrite nth_upd_other; [apply B; auto|]. intros X. apply flat_inj in X as (-> & ->); auto.
  - intros i' j' [Hd|(-> & ->)]; [|eauto]. destruct (C i' j' Hd) as (r & R1 & R2). exists r. split; [now apply SO|auto].
  - lra.
  - intros i' j' p' q' [Hd|(-> & ->)] N1 N2.
    + apply SO in N2; auto. pose proof (F i' j' p' q' Hd N1 N2). lra.
    + unfold node in *. assert (p' = p) by congruence. assert (q' = q) by congruence. subst. lra.
  - destruct (Rle_lt_dec err (snd st)) as [LE|LT].
    + rewrite Rmax_left by auto. destruct G as [G|(i' & j' & p' & q' & Hd & N1 & N2 & G)]; [auto|right].
      exists i', j', p', q'. repeat split; auto. now apply SO.
    + rewrite Rmax_right by lra. right. exists i, j, p, q. repeat split; auto.
Qed.
Lemma sweep_done g g0 ni nj i1 i2 j1 j2 st : (j2 <= nj)%nat -> length g0 = length g -> sweep g ni nj i1 i2 j1 j2 g0 = Ok st ->
  Done g g0 ni nj (inside i1 i2 j1 j2) st.
Proof.
  intros J2 LG E. unfold sweep in E.
  pose (DI := fun k i j : nat => (i1 < i < k)%nat /\ (i < i2)%nat /\ (j1 < j < j2)%nat).
  assert (Z : Done g g0 ni nj (DI (i1 + 1)%nat) (g0, n0)).
  { repeat split; cbn [fst snd]; auto; unfold DI; intros; try lia. apply Rle_refl. }
  eapply (for_ok (fun k st => Done g g0 ni nj (DI k) st)) in E; [|intros i s s' Hi HP Eb|exact Z].
  - eapply Done_ext; [|exact E]. unfold DI, inside. intros; lia.
  - pose (DJ := fun k i' j : nat => DI i i' j \/ (i' = i /\ (j1 < j < k)%nat /\ (j < j2)%nat)).
    eapply (for_ok (fun k st => Done g g0 ni nj (DJ k) st)) in Eb; [|intros j t t' Hj HQ Ec|].
    + eapply Done_ext; [|exact Eb]. unfold DJ, DI. intros; lia.
    + apply (move_node_done g g0 ni nj (DJ j)) in Ec; auto.
      * eapply Done_ext; [|exact Ec]. unfold DJ, DI. intros; lia.
      * unfold DJ, DI. intros; lia.
      * lia.
      * unfold DJ, DI. lia.
    + eapply Done_ext; [|exact HP]. unfold DJ, DI. intros; lia.
Qed.
(** The other array agrees with the grid outside the window. *)
Definition buffer (nj i1 i2 j1 j2 : nat) (g g0 : list (R * R)) : Prop :=
  length g0 = length g /\
  forall i j, (j < nj)%nat -> ~ inside i1 i2 j1 j2 i j -> nth_error g0 (j + nj * i) = nth_error g (j + nj * i).
Lemma sweep_relaxed g g0 ni nj i1 i2 j1 j2 g' e : (j2 <= nj)%nat -> buffer nj i1 i2 j1 j2 g g0 ->
  sweep g ni nj i1 i2 j1 j2 g0 = Ok (g', e) ->
  relaxed ni nj i1 i2 j1 j2 g g' /\ largest_move nj i1 i2 j1 j2 g g' e /\ buffer nj i1 i2 j1 j2 g' g.
Proof.
  intros J2 (B1 & B2) E. apply sweep_done in E as (A & B & C & P & F & G); auto. cbn [fst snd] in *.
  assert (AG : forall i j, (j < nj)%nat -> ~ inside i1 i2 j1 j2 i j -> nth_error g' (j + nj * i) = nth_error g (j + nj * i)).
  { intros i j Hj N. rewrite B by auto. now apply B2. }
  split; [|split].
  - split; [congruence|]. split; auto.
  - split; [auto|]. split; auto.
  - split; [congruence|]. intros i j Hj N. symmetry. now apply AG.
Qed.
Lemma sweeps_spec ni nj i1 i2 j1 j2 tol : (j2 <= nj)%nat -> forall more g g0 it g' it' e, buffer nj i1 i2 j1 j2 g g0 ->
  sweeps more g g0 ni nj i1 i2 j1 j2 tol it = Ok (g', it', e) ->
  exists n, it' = (it + n)%nat /\ (1 <= n <= S more)%nat /\ passes_to ni nj i1 i2 j1 j2 tol n g g' e /\ ((n < S more)%nat -> e <= tol).
Proof.
  intros J2. induction more as [|more IH]; intros g g0 it g' it' e B E; cbn [sweeps] in E; apply bind_inv in E as ((g1 & e1) & E1 & E);
    apply sweep_relaxed in E1 as (R1 & L1 & B1); auto.
  - injection E as <- <- <-. exists 1%nat. repeat split; try lia. now constructor.
  - cbn in E. destruct (Rltb_spec tol e1) as [LT|GE].
    + apply IH in E as (n & -> & Hn & P & Q); auto. exists (S n). split; [lia|]. split; [lia|]. split; [now apply (more_passes _ _ _ _ _ _ _ n g g1 g' e1)|].
      intros. apply Q. lia.
    + injection E as <- <- <-. exists 1%nat. repeat split; try lia; [now constructor|]. intros. lra.
Qed.
Lemma smoothing_spec g nj i1 i2 j1 j2 n_it tol g' it e : (j2 <= nj)%nat ->
  elliptic_structured_smoothing g nj i1 i2 j1 j2 n_it tol = Ok (g', it, e) ->
  (1 <= it <= Nat.max 1 n_it)%nat /\ passes_to (length g / nj) nj i1 i2 j1 j2 tol it g g' e /\ ((it < n_it)%nat -> e <= tol).
Proof.
  intros J2 E. unfold elliptic_structured_smoothing in E. destruct (Nat.eqb_spec nj 0); [discriminate|].
  apply sweeps_spec in E as (k & -> & Hk & P & Q); auto.
  - cbn [Nat.add]. split; [lia|]. split; [auto|]. intros. apply Q. lia.
  - split; auto.
Qed.
Lemma passes_frame ni nj i1 i2 j1 j2 tol n g g' e : passes_to ni nj i1 i2 j1 j2 tol n g g' e ->
  length g' = length g /\ forall i j, (j < nj)%nat -> ~ inside i1 i2 j1 j2 i j -> nth_error g' (j + nj * i) = nth_error g (j + nj * i).
Proof.
  induction 1 as [g g' e (A & B & _)|n g g1 g' e1 e (A & B & _) _ _ _ (C & D)]; [auto|]. split; [congruence|].
  intros i j Hj N. rewrite D by auto. now apply B.
Qed.
Lemma smoothing_frame (g : list (R * R)) nj i1 i2 j1 j2 n_it (tol : R) g' it e : (j2 <= nj)%nat ->
  elliptic_structured_smoothing g nj i1 i2 j1 j2 n_it tol = Ok (g', it, e) ->
  length g' = length g /\ forall i j, (j < nj)%nat -> ~ inside i1 i2 j1 j2 i j -> nth_error g' (j + nj * i) = nth_error g (j + nj * i).
Proof. intros J E. apply smoothing_spec in E as (_ & P & _); auto. now apply passes_frame in P. Qed.

Lemma upd_self {A} (l : list A) i a : nth_error l i = Some a -> upd l i a = l.
Proof.
  revert i. induction l as [|x l IH]; intros [|i] E; cbn in *; auto; try congruence. now rewrite IH.
Qed.
Lemma smoothing_fixed g nj i1 i2 j1 j2 n_it tol : (2 <= length g / nj)%nat -> (2 <= nj)%nat -> 0 <= tol ->
  (forall i j, inside i1 i2 j1 j2 i j -> exists p, node g nj i j p /\ elliptic_at g (length g / nj) nj i j p) ->
  elliptic_structured_smoothing g nj i1 i2 j1 j2 n_it tol = Ok (g, 1%nat, 0).
Proof.
  intros N1 N2 T0 HF. unfold elliptic_structured_smoothing. destruct (Nat.eqb_spec nj 0); [lia|]. set (ni := (length g / nj)%nat) in *.
  assert (SW : sweep g ni nj i1 i2 j1 j2 g = Ok (g, 0)).
  { unfold sweep. destruct (for_inv (fun _ st => st = (g, 0)) (fun i st => for_ (j1 + 1) (j2 - (j1 + 1)) (fun j st => move_node g ni nj i j st) st)
      (i1 + 1) (i2 - (i1 + 1)) (g, n0)) as (s & E & ->); auto. intros i s Hi ->.
    destruct (for_inv (fun _ st => st = (g, 0)) (fun j st => move_node g ni nj i j st) (j1 + 1) (j2 - (j1 + 1)) (g, 0)) as (s & E & ->); eauto.
    intros j s Hj ->. exists (g, 0). split; auto. destruct (HF i j) as (p & P1 & P2); [unfold inside; lia|].
    unfold move_node. rewrite (moved_ok g ni nj i j p); auto. cbn [bind fst snd]. unfold node in P1.
    rewrite set_ok by (apply nth_error_Some; congruence). cbn [bind]. rewrite upd_self by auto.
    assert (E1 : node_at g nj i j = Ok p) by (now apply get_node). rewrite E1. cbn [bind]. rewrite nmax_R, !(nabs_R eps). cbn.
    rewrite !Rminus_diag_eq, Rabs_R0, Rplus_0_r, Rmax_left by lra. reflexivity. }
  destruct (n_it - 1)%nat; cbn [sweeps]; rewrite SW; cbn [bind]; auto.
  cbn. destruct (Rltb_spec tol 0); [lra|]. reflexivity.
Qed.

Lemma node_fine (g : list (R * R)) nj i j : (j + nj * i < length g)%nat -> fine (fun _ => True) (node_at g nj i j).
Proof. intros Hl. left. unfold node_at. rewrite (get_nth g _ (0, 0)) by auto. eauto. Qed.
Lemma moved_fine (g : list (R * R)) ni nj i j : length g = (ni * nj)%nat -> (1 <= i)%nat -> (i + 1 < ni)%nat -> (1 <= j)%nat -> (j + 1 < nj)%nat -> fine (fun _ => True) (moved g ni nj i j).
Proof.
  intros LG I1 I2 J1 J2. unfold moved.
  assert (NF : forall a b, (a < ni)%nat -> (b < nj)%nat -> fine (fun _ => True) (node_at g nj a b)) by (intros a b Ha Hb; apply node_fine; nia).
  repeat (apply (fine_bind (fun _ => True)); [first [apply divc_fine|apply relax_fine|apply NF; lia]|intros ? _]).
  left. eauto.
Qed.
Lemma smoothing_fine (g : list (R * R)) ni nj i1 i2 j1 j2 n_it (tol : R) : length g = (ni * nj)%nat -> (1 <= nj)%nat -> (i2 < ni)%nat -> (j2 < nj)%nat ->
  (exists r, elliptic_structured_smoothing g nj i1 i2 j1 j2 n_it tol = Ok r) \/
  elliptic_structured_smoothing g nj i1 i2 j1 j2 n_it tol = Undef DivByZero.
Proof.
  intros LG J I2 J2. unfold elliptic_structured_smoothing. destruct (Nat.eqb_spec nj 0); [lia|].
  assert (EN : (length g / nj = ni)%nat) by (rewrite LG; now apply Nat.div_mul). rewrite EN. clear EN.
  assert (SW : forall g g0 : list (R * R), length g = (ni * nj)%nat -> length g0 = (ni * nj)%nat -> fine (fun st => length (fst st) = (ni * nj)%nat) (sweep g ni nj i1 i2 j1 j2 g0)).
  { clear g LG. intros g g0 LG L0. unfold sweep. apply fine_for; [|exact L0]. intros i s Hi Ls. apply fine_for; [|exact Ls]. intros j t Hj Lt.
    unfold move_node. apply (fine_bind (fun _ => True)); [apply moved_fine; auto; lia|]. intros q _. rewrite set_ok by (rewrite Lt; nia). cbn [bind].
    apply (fine_bind (fun _ => True)); [apply node_fine; rewrite LG; nia|]. intros p _. left. eexists. split; [reflexivity|]. cbn [fst]. now rewrite upd_length. }
  assert (LP : forall more (g g0 : list (R * R)) it, length g = (ni * nj)%nat -> length g0 = (ni * nj)%nat -> fine (fun _ => True) (sweeps more g g0 ni nj i1 i2 j1 j2 tol it)).
  { induction more as [|more IH]; intros h h0 it Lg L0; cbn [sweeps]; (eapply fine_bind; [apply SW; auto|]); intros (q & e) Lq; cbn [fst] in Lq.
    - left. eauto.
    - destruct (nltb tol e); [auto|left; eauto]. }
  destruct (LP (n_it - 1)%nat g g 0%nat LG LG) as [(r & -> & _)| ->]; eauto.
Qed.
End AtR.
