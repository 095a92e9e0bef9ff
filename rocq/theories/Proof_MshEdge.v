(** Lemmas on the points of an edge (C93). *)
From Coq Require Import List Arith Reals Lia Lra Bool.
From Verif Require Import Model_Base Model_Knots Model_Curve Model_Vec Model_Math Model_Wrap Model_Interp Model_Analysis Model_Tfi Model_MshEdge
  Spec_Base Spec_Basis Spec_Build Spec_Knots Spec_Eval Spec_Class Spec_Interp Spec_Solve Spec_Analysis Spec_MshEdge
  Proof_Base Proof_Build Proof_Builders Proof_Curve Proof_Interp Proof_Interp2 Proof_Interp3 Proof_SW2 Proof_Analysis Proof_Analysis2 Proof_Analysis4.
Import ListNotations.
Local Open Scope R_scope.

Section AtR.
Variable eps : R.
Local Hint Extern 0 (Num R) => exact (NumR eps) : typeclass_instances.
Variable sparse : @solver R.

(** ** The state of an edge made from [g] with the law [f] *)
Definition made (g : gcurve R) (f : curve R) (e : @medge R) (n : nat) : Prop :=
  e_crv e = reparametrized g (of_curve f) /\ e_len e = c_hi f /\ e_n e = n /\ (2 <= n)%nat /\
  (length (e_pts e) = n \/ e_pts e = []).

Lemma new_made len g u1 u2 e : new_edge_between sparse len g u1 u2 = Ok e ->
  exists f, abs_curv_law sparse len u1 u2 30 3 = Ok f /\ made g f e 2.
Proof.
  unfold new_edge_between. intros E. apply bind_inv in E as (f & Ef & E). apply bind_inv in E as (w & _ & E). injection E as <-.
  exists f. split; [exact Ef|]. unfold made. cbn [e_crv e_len e_n e_pts]. repeat split; auto.
Qed.

Lemma set_made g f e n k : made g f e n -> made g f (set_n_points e k) (if k <? 2 then 2 else k)%nat.
Proof.
  intros (A & B & C & D & P). unfold made, set_n_points. cbn [e_crv e_len e_n e_pts]. rewrite repeat_length.
  assert (E : Nat.max 2 k = (if k <? 2 then 2 else k)%nat) by (destruct (Nat.ltb_spec k 2); lia). rewrite E.
  split; [exact A|]. split; [exact B|]. split; [reflexivity|]. split; [destruct (Nat.ltb_spec k 2); lia|left; reflexivity].
Qed.
Lemma law_made g f e n h1 h2 e' : made g f e n -> update_law sparse e h1 h2 = Ok e' -> made g f e' n.
Proof.
  intros H E. unfold update_law in E. apply bind_inv in E as (a & _ & E). apply bind_inv in E as (b & _ & E).
  apply bind_inv in E as (s & _ & E). apply bind_inv in E as (w & _ & E). injection E as <-. exact H.
Qed.
Lemma law4_made g f e n h1 h2 a1 a2 e' : made g f e n -> update_law4 sparse e h1 h2 a1 a2 = Ok e' -> made g f e' n.
Proof.
  intros H E. unfold update_law4 in E. apply bind_inv in E as (a & _ & E). apply bind_inv in E as (b & _ & E).
  apply bind_inv in E as (a' & _ & E). apply bind_inv in E as (b' & _ & E).
  apply bind_inv in E as (s & _ & E). apply bind_inv in E as (s2 & _ & E). apply bind_inv in E as (w & _ & E). injection E as <-. exact H.
Qed.

(** ** The points *)
Lemma inner_inv e ksi m : forall lo pts pts', (lo + m <= length ksi)%nat ->
  for_ lo m (fun i st => let* x := get ksi i in let* y := fvalue (e_law e) x in
    let* p := g_value (e_crv e) (nmul y (e_len e)) 0 in set st i p) pts = Ok pts' ->
  length pts' = length pts /\
  (forall i, (lo <= i < lo + m)%nat -> exists y q, fvalue (e_law e) (kn ksi i) = Ok y /\ g_value (e_crv e) (y * e_len e) 0%nat = Ok q /\
     nth_error pts' i = Some q) /\
  (forall i, (i < lo \/ lo + m <= i)%nat -> nth_error pts' i = nth_error pts i).
Proof.
  induction m as [|m IH]; intros lo pts pts' Hl E; cbn [for_] in E.
  - injection E as <-. split; [reflexivity|]. split; [intros; lia|reflexivity].
  - apply bind_inv in E as (p1 & E1 & E). apply bind_inv in E1 as (x & Ex & E1). apply bind_inv in E1 as (y & Ey & E1). apply bind_inv in E1 as (q & Eq & E1).
    apply set_inv in E1 as (Hlo & ->). apply IH in E as (L & HA & HB); [|lia]. rewrite upd_length in L. split; [exact L|].
    assert (Kx : kn ksi lo = x) by (unfold get in Ex; unfold kn; destruct (nth_error ksi lo) eqn:En; [|discriminate]; injection Ex as ->; apply nth_error_nth; exact En).
    split.
    + intros i Hi. destruct (Nat.eq_dec i lo) as [->|Hne]; [|apply HA; lia]. exists y, q. rewrite Kx. split; [exact Ey|]. split; [exact Eq|].
      rewrite HB by lia. rewrite nth_error_upd, Nat.eqb_refl. apply Nat.ltb_lt in Hlo. rewrite Hlo. reflexivity.
    + intros i Hi. rewrite HB by lia. rewrite nth_error_upd. destruct (Nat.eqb_spec lo i); [lia|]. reflexivity.
Qed.

Lemma reparam0 g f s q : g_value (reparametrized g (of_curve f)) s 0%nat = Ok q -> at_length eps g f s q.
Proof.
  unfold reparametrized, of_curve. cbn [g_value]. intros E. apply bind_inv in E as (u & Eu & E). exists u. split; [exact Eu|exact E].
Qed.
Lemma reparam0_ok g f s q : at_length eps g f s q -> g_value (reparametrized g (of_curve f)) s 0%nat = Ok q.
Proof. intros (u & Eu & E). unfold reparametrized, of_curve. cbn [g_value]. unfold fvalue in Eu. rewrite Eu. cbn [bind]. exact E. Qed.

Lemma compute_ok g f e n e' : made g f e n -> compute_pnts e = Ok e' ->
  made g f e' n /\ length (edge_points e') = n /\
  stands eps g f e' 0 (c_lo f) /\ stands eps g f e' (n - 1) (c_hi f) /\
  forall i, (0 < i < n - 1)%nat -> exists y, fvalue (e_law e) (INR i / INR (n - 1)) = Ok y /\ stands eps g f e' i (y * c_hi f).
Proof.
  intros (A & B & C & D & P) E. unfold compute_pnts in E. rewrite C in E.
  destruct (range_spec eps 0 1 n) as (_ & Hr). destruct (Hr D) as (ksi & Er & Lr & _ & _ & Kr & _). clear Hr.
  change (@make_range R _ n0 n1 n) with (@make_range R (NumR eps) 0 1 n) in E. rewrite Er in E. cbn [bind] in E.
  apply bind_inv in E as (p & Ep & E). apply bind_inv in E as (q0 & Eq0 & E). apply bind_inv in E as (p0 & Ep0 & E).
  apply bind_inv in E as (q1 & Eq1 & E). apply bind_inv in E as (p1 & Ep1 & E). apply bind_inv in E as (p2 & Ep2 & E). injection E as <-.
  assert (Ln : length (e_pts e) = n) by (destruct P as [P|P]; [exact P|rewrite P in Ep; discriminate]). clear P Ep.
  apply set_inv in Ep0 as (H0 & ->). apply set_inv in Ep1 as (H1 & ->). rewrite upd_length, Ln in *.
  unfold inner_points in Ep2. rewrite Lr in Ep2. apply inner_inv in Ep2 as (L2 & HA & HB); [|lia]. rewrite !upd_length, Ln in L2.
  unfold made, edge_points, stands. cbn [e_crv e_len e_n e_pts]. rewrite A in *. cbn [reparametrized of_curve g_lo g_hi] in Eq0, Eq1.
  split; [split; [reflexivity|split; [exact B|split; [reflexivity|split; [exact D|left; exact L2]]]]|]. split; [exact L2|].
  split; [|split].
  - exists q0. split; [|apply reparam0; exact Eq0]. rewrite HB by lia. rewrite !nth_error_upd, !upd_length, Ln.
    destruct (Nat.eqb_spec (n - 1) 0); [lia|]. cbn [Nat.eqb]. apply Nat.ltb_lt in H0. rewrite H0. reflexivity.
  - exists q1. split; [|apply reparam0; exact Eq1]. rewrite HB by lia. rewrite !nth_error_upd, !upd_length, Ln, Nat.eqb_refl.
    destruct (Nat.ltb_spec (n - 1) n); [reflexivity|lia].
  - intros i Hi. destruct (HA i ltac:(lia)) as (y & q & Ey & Eq & En). exists y. split.
    + rewrite Kr in Ey by lia. replace (0 + INR i * ((1 - 0) / INR (n - 1))) with (INR i / INR (n - 1)) in Ey; [exact Ey|]. unfold Rdiv. ring.
    + exists q. split; [exact En|]. apply reparam0. rewrite B in Eq. exact Eq.
Qed.

Lemma obey_made g f os : forall e n e', made g f e n -> obey_all eps sparse e os = Ok e' -> made g f e' (asked os n).
Proof.
  induction os as [|o os IH]; intros e n e' H E; cbn [obey_all] in E.
  - injection E as <-. exact H.
  - apply bind_inv in E as (e1 & E1 & E). destruct o as [k|h1 h2|h1 h2 a1 a2|]; cbn [obey] in E1; cbn [asked].
    + injection E1 as <-. apply (IH _ _ _ (set_made g f e n k H) E).
    + apply (IH _ _ _ (law_made g f e n h1 h2 e1 H E1) E).
    + apply (IH _ _ _ (law4_made g f e n h1 h2 a1 a2 e1 H E1) E).
    + apply (IH _ _ _ (proj1 (compute_ok g f e n e1 H E1)) E).
Qed.

(** ** The laws *)
Lemma interp_fn (m ksi : list R) : complete_solver sparse -> 0 <= eps -> length m = length ksi -> (2 < length m)%nat -> strictly_increasing ksi ->
  exists c, interpolate sparse 1 (map (fun x (_ : nat) => x) m) ksi 2 = Ok c /\
    forall i, (i < length m)%nat -> fvalue c (kn ksi i) = Ok (kn m i).
Proof.
  intros Hs He L H2 Inc. set (Q := map (fun x (_ : nat) => x) m : list (pt R)). assert (LQ : length Q = length m) by apply map_length.
  destruct (interpolate_returns eps sparse 1 Q ksi 2 Hs He ltac:(lia) ltac:(lia) ltac:(lia) Inc) as (c & Ec). exists c. split; [exact Ec|].
  assert (Hev : evaluable eps (c_knots c) (length Q) 2) by (left; lia).
  destruct (interpolate_ok eps sparse 1 Q ksi 2 c (proj1 Hs) He ltac:(lia) ltac:(lia) ltac:(lia) Inc Ec Hev) as (_ & _ & _ & Hp).
  intros i Hi. destruct (Hp i ltac:(lia)) as (v & Ev & Hv). unfold fvalue. fold (kn ksi i) in Ev. rewrite Ev. cbn [bind]. f_equal.
  rewrite Hv by lia. unfold Q, kn. rewrite (nth_indep _ (fun _ => 0) ((fun x (_ : nat) => x) 0)) by (rewrite map_length; exact Hi). rewrite (map_nth (fun x (_ : nat) => x)). reflexivity.
Qed.

Lemma sorted4 a b c d : a < b -> b < c -> c < d -> strictly_increasing [a; b; c; d].
Proof. intros H1 H2 H3 i j Hij Hj. cbn [length] in Hj. destruct i as [|[|[|i]]]; destruct j as [|[|[|[|j]]]]; try lia; unfold kn; cbn [nth]; lra. Qed.
Lemma sorted6 a b c d e f : a < b -> b < c -> c < d -> d < e -> e < f -> strictly_increasing [a; b; c; d; e; f].
Proof.
  intros H1 H2 H3 H4 H5 i j Hij Hj. cbn [length] in Hj. destruct i as [|[|[|[|[|i]]]]]; destruct j as [|[|[|[|[|[|j]]]]]]; try lia; unfold kn; cbn [nth]; lra.
Qed.

Lemma law_values g f e n h1 h2 : complete_solver sparse -> 0 <= eps -> made g f e n -> (4 <= n)%nat -> 0 < c_hi f ->
  exists e', update_law sparse e h1 h2 = Ok e' /\ made g f e' n /\
    (e_pts e' = e_pts e) /\
    fvalue (e_law e') (INR 1 / INR (n - 1)) = Ok (h1 / c_hi f) /\ fvalue (e_law e') (INR (n - 2) / INR (n - 1)) = Ok (1 - h2 / c_hi f).
Proof.
  intros Hs He Hm Hn Hl. pose proof Hm as (A & B & C & D & P). unfold update_law. rewrite B, C.
  rewrite !(divc_ok eps) by lra. cbn [bind]. rewrite (nofnat_R eps).
  assert (Hn1 : @nsub R (NumR eps) (INR n) n1 = INR (n - 1)) by (rewrite minus_INR by lia; reflexivity). rewrite Hn1.
  assert (I3 : 3 <= INR (n - 1)) by (replace 3 with (INR 3) by (simpl; ring); apply le_INR; lia).
  rewrite (divc_ok eps) by lra. cbn [bind].
  assert (S1 : 0 < 1 / INR (n - 1)) by (apply Rdiv_lt_0_compat; lra).
  assert (S2 : 3 * (1 / INR (n - 1)) <= 1) by (apply Rmult_le_reg_r with (INR (n - 1)); [lra|]; field_simplify; lra).
  destruct (interp_fn [n0; h1 / c_hi f; nsub n1 (h2 / c_hi f); n1] [n0; 1 / INR (n - 1); nsub n1 (1 / INR (n - 1)); n1] Hs He eq_refl) as (c & Ec & Hc).
  { cbn; lia. } { nsimp. apply sorted4; lra. }
  unfold ndiv, n1 in Ec |- *. cbn in Ec |- *. rewrite Ec. cbn [bind]. eexists. split; [reflexivity|].
  split; [unfold made; cbn [e_crv e_len e_n e_pts]; rewrite A; split; [reflexivity|]; split; [reflexivity|]; split; [reflexivity|]; split; [exact D|exact P]|].
  cbn [e_law e_pts]. split; [reflexivity|]. split.
  - exact (Hc 1%nat ltac:(cbn; lia)).
  - pose proof (Hc 2%nat ltac:(cbn; lia)) as H. unfold kn in H. cbn in H.
    replace (INR (n - 2) / INR (n - 1)) with (1 - 1 / INR (n - 1)); [exact H|].
    replace (INR (n - 2)) with (INR (n - 1) - 1) by (rewrite !minus_INR by lia; simpl; lra). field. lra.
Qed.

Lemma law4_values g f e n h1 h2 a1 a2 : complete_solver sparse -> 0 <= eps -> made g f e n -> (6 <= n)%nat -> 0 < c_hi f ->
  exists e', update_law4 sparse e h1 h2 a1 a2 = Ok e' /\ made g f e' n /\
    (e_pts e' = e_pts e) /\
    fvalue (e_law e') (INR 1 / INR (n - 1)) = Ok (h1 / c_hi f) /\ fvalue (e_law e') (INR (n - 2) / INR (n - 1)) = Ok (1 - h2 / c_hi f) /\
    fvalue (e_law e') (INR 2 / INR (n - 1)) = Ok (h1 / c_hi f + a1 * h1 / c_hi f) /\
    fvalue (e_law e') (INR (n - 3) / INR (n - 1)) = Ok (1 - h2 / c_hi f - a2 * h2 / c_hi f).
Proof.
  intros Hs He Hm Hn Hl. pose proof Hm as (A & B & C & D & P). unfold update_law4. rewrite B, C.
  rewrite !(divc_ok eps) by lra. cbn [bind]. rewrite !(nofnat_R eps).
  assert (Hn1 : @nsub R (NumR eps) (INR n) n1 = INR (n - 1)) by (rewrite minus_INR by lia; reflexivity). rewrite Hn1.
  assert (I3 : 5 <= INR (n - 1)) by (replace 5 with (INR 5) by (simpl; ring); apply le_INR; lia).
  rewrite !(divc_ok eps) by lra. cbn [bind].
  assert (S1 : 0 < 1 / INR (n - 1)) by (apply Rdiv_lt_0_compat; lra).
  assert (S2 : 5 * (1 / INR (n - 1)) <= 1) by (apply Rmult_le_reg_r with (INR (n - 1)); [lra|]; field_simplify; lra).
  assert (S3 : INR 2 / INR (n - 1) = 2 * (1 / INR (n - 1))) by (simpl; field; lra).
  destruct (interp_fn [n0; h1 / c_hi f; nadd (h1 / c_hi f) (nmul a1 h1 / c_hi f); nsub (nsub n1 (h2 / c_hi f)) (nmul a2 h2 / c_hi f); nsub n1 (h2 / c_hi f); n1]
    [n0; 1 / INR (n - 1); INR 2 / INR (n - 1); nsub n1 (INR 2 / INR (n - 1)); nsub n1 (1 / INR (n - 1)); n1] Hs He eq_refl) as (c & Ec & Hc).
  { cbn; lia. } { nsimp. rewrite S3. apply sorted6; lra. }
  cbn [n0 n1 nadd nsub nmul ndiv NumR map] in Ec |- *. rewrite Ec. cbn [bind]. eexists. split; [reflexivity|].
  split; [unfold made; cbn [e_crv e_len e_n e_pts]; rewrite A; split; [reflexivity|]; split; [reflexivity|]; split; [reflexivity|]; split; [exact D|exact P]|].
  cbn [e_law e_pts]. split; [reflexivity|]. split; [|split; [|split]].
  - exact (Hc 1%nat ltac:(cbn; lia)).
  - pose proof (Hc 4%nat ltac:(cbn; lia)) as H. unfold kn in H. cbn [nth n0 n1 nadd nsub nmul ndiv NumR] in H.
    replace (INR (n - 2) / INR (n - 1)) with (1 - 1 / INR (n - 1)); [exact H|].
    replace (INR (n - 2)) with (INR (n - 1) - 1) by (rewrite !minus_INR by lia; simpl; lra). field. lra.
  - exact (Hc 2%nat ltac:(cbn; lia)).
  - pose proof (Hc 3%nat ltac:(cbn; lia)) as H. unfold kn in H. cbn [nth n0 n1 nadd nsub nmul ndiv NumR] in H.
    replace (INR (n - 3) / INR (n - 1)) with (1 - INR 2 / INR (n - 1)); [exact H|].
    replace (INR (n - 3)) with (INR (n - 1) - INR 2) by (rewrite !minus_INR by lia; simpl; lra). field. lra.
Qed.

Lemma first_law len g u1 u2 e : 0 <= eps -> new_edge_between sparse len g u1 u2 = Ok e -> forall x, 0 <= x <= 1 -> fvalue (e_law e) x = Ok x.
Proof.
  intros He E x Hx. unfold new_edge_between in E. apply bind_inv in E as (f & Ef & E). apply bind_inv in E as (w & Ew & E). injection E as <-. cbn [e_law].
  destruct (segment_gen eps (fun _ => 0) (fun _ => 1) 1 He ltac:(lra)) as (c & Ec & _ & Hv & _).
  cbn [n0 n1 NumR] in Ew. assert (Ecw : Ok c = Ok w) by (rewrite <- Ec; exact Ew). injection Ecw as <-. destruct (Hv x Hx) as (q & Eq & Hq). unfold fvalue. rewrite Eq. cbn [bind]. rewrite Hq. f_equal. field.
Qed.

(** With two or three points the parameters of the law are not distinct. *)
Lemma law_short g f e n h1 h2 : exact_solver sparse -> 0 <= eps -> made g f e n -> (n <= 3)%nat -> 0 < h1 -> 0 < h2 -> h1 + h2 < c_hi f ->
  forall e', update_law sparse e h1 h2 <> Ok e'.
Proof.
  intros Hs He Hm Hn H1 H2 H12 e' E. pose proof Hm as (A & B & C & D & P). unfold update_law in E. rewrite B, C in E.
  rewrite !(divc_ok eps) in E by lra. cbn [bind] in E. rewrite (nofnat_R eps) in E.
  assert (Hn1 : @nsub R (NumR eps) (INR n) n1 = INR (n - 1)) by (rewrite minus_INR by lia; reflexivity). rewrite Hn1 in E.
  assert (I1 : 1 <= INR (n - 1)) by (replace 1 with (INR 1) by (simpl; ring); apply le_INR; lia).
  rewrite (divc_ok eps) in E by lra. cbn [bind] in E. apply bind_inv in E as (w & E & _). unfold interpolate in E.
  cbn [n0 n1 nsub NumR map] in E. set (s := 1 / INR (n - 1)) in *. set (a := h1 / c_hi f) in *. set (b := h2 / c_hi f) in *.
  assert (Ss : 0 <= s <= 1) by (unfold s; split; [left; apply Rdiv_lt_0_compat; lra|apply Rmult_le_reg_r with (INR (n - 1)); [lra|]; field_simplify; lra]).
  apply bind_inv in E as (k & Ek & E). apply bind_inv in E as (poles & Ep & _).
  destruct (build_simple_vals eps [0; s; 1 - s; 1] 2 ltac:(lia) ltac:(cbn; lia)) as (k' & Ek' & Lk & K0 & K1 & K2).
  rewrite Ek in Ek'. injection Ek' as <-. cbn [length] in Lk, K1, K2.
  assert (K3 : kn k 3 = 1 / 2). { rewrite K2 by lia. unfold avg. cbn [sumn]. unfold kn. cbn. field. }
  assert (KA : forall i, (i <= 2)%nat -> kn k i = 0) by (intros i Hi; rewrite K0 by exact Hi; reflexivity).
  assert (KB : forall i, (4 <= i <= 6)%nat -> kn k i = 1) by (intros i Hi; rewrite K1 by lia; reflexivity).
  assert (Hk : knots_ok k 4 2).
  { split; [cbn in Lk; lia|]. split; [lia|]. split; [|change (kn k 3 < kn k 4); rewrite (KB 4%nat), K3 by lia; lra].
    intros i j Hij Hj. rewrite Lk in Hj. cbn in Hj.
    assert (Ci : kn k i = if (i <=? 2)%nat then 0 else if (i =? 3)%nat then 1 / 2 else 1).
    { destruct (Nat.leb_spec i 2); [apply KA; lia|]. destruct (Nat.eqb_spec i 3); [subst; exact K3|apply KB; lia]. }
    assert (Cj : kn k j = if (j <=? 2)%nat then 0 else if (j =? 3)%nat then 1 / 2 else 1).
    { destruct (Nat.leb_spec j 2); [apply KA; lia|]. destruct (Nat.eqb_spec j 3); [subst; exact K3|apply KB; lia]. }
    rewrite Ci, Cj. destruct (Nat.leb_spec i 2); destruct (Nat.leb_spec j 2); destruct (Nat.eqb_spec i 3); destruct (Nat.eqb_spec j 3); try lia; lra. }
  assert (HQ : forall q : list (pt R), In q (map (fun q => [q]) [(fun _ : nat => 0); (fun _ => a); (fun _ => 1 - b); (fun _ => 1)]) -> length q = 1%nat).
  { intros q Hq. apply in_map_iff in Hq as (z & <- & _). reflexivity. }
  assert (HU : forall x, In x [0; s; 1 - s; 1] -> inside k 4 2 x).
  { intros x Hx. unfold inside. rewrite (KA 2%nat), (KB 4%nat) by lia. clearbody s. cbn in Hx. destruct Hx as [<- | [<- | [<- | [<- | []]]]]; lra. }
  assert (Hd : evaluable eps k 4 2) by (left; lia).
  destruct (build_poles_ok eps k 4 2 Hk sparse 1 1 (map (fun q => [q]) [(fun _ : nat => 0); (fun _ => a); (fun _ => 1 - b); (fun _ => 1)]) [0; s; 1 - s; 1] poles Hs He (le_n 1) Hd eq_refl eq_refl HQ HU Ep) as (_ & HV).
  destruct (HV 1%nat 0%nat ltac:(cbn; lia) ltac:(lia)) as (q1 & E1 & V1). destruct (HV 2%nat 0%nat ltac:(cbn; lia) ltac:(lia)) as (q2 & E2 & V2).
  destruct (HV 3%nat 0%nat ltac:(cbn; lia) ltac:(lia)) as (q3 & E3 & V3).
  cbn [nth] in E1, E2, E3. specialize (V1 0%nat ltac:(lia)). specialize (V2 0%nat ltac:(lia)). specialize (V3 0%nat ltac:(lia)). cbn in V1, V2, V3.
  assert (Hab : a + b < 1) by (unfold a, b; apply Rmult_lt_reg_r with (c_hi f); [lra|]; field_simplify; lra).
  assert (Hb : 0 < b) by (apply Rdiv_lt_0_compat; lra).
  assert (Cs : n = 2%nat \/ n = 3%nat) by lia. destruct Cs as [-> | ->].
  - replace s with 1 in E1 by (unfold s; simpl; field). rewrite E1 in E3. injection E3 as <-. lra.
  - replace (1 - s) with s in E2 by (unfold s; simpl; field). rewrite E1 in E2. injection E2 as <-. lra.
Qed.

End AtR.
