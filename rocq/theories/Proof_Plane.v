(** Plane geometry: triangles, crossings of a vertical ray, points in general position. *)
From Coq Require Import Reals Lra Lia List ZArith.
From Verif Require Import Spec_Geom.
Import ListNotations.
Local Open Scope R_scope.

Definition orr (a b c : R * R) : R := (fst a - fst c) * (snd b - snd c) - (snd a - snd c) * (fst b - fst c).
Lemma orr_area a b c : orr a b c = area2 a b c.
Proof. unfold orr, area2. ring. Qed.
Lemma orr_swap a b q : orr b a q = - orr a b q.
Proof. unfold orr. ring. Qed.
Lemma orr_rot a b c : orr b c a = orr a b c.
Proof. unfold orr. ring. Qed.
Lemma orr_sum a b c q : orr a b q + orr b c q + orr c a q = orr a b c.
Proof. unfold orr. ring. Qed.
Lemma orr_barx a b c q : orr b c q * fst a + orr c a q * fst b + orr a b q * fst c = orr a b c * fst q.
Proof. unfold orr. ring. Qed.
Lemma orr_bary a b c q : orr b c q * snd a + orr c a q * snd b + orr a b q * snd c = orr a b c * snd q.
Proof. unfold orr. ring. Qed.
Lemma orr_mix a b c r s t : r + s + t = 1 -> orr a b (mix a b c r s t) = t * orr a b c.
Proof. intros E. replace r with (1 - s - t) by lra. unfold orr, mix. cbn. ring. Qed.
Lemma mix_rot a b c r s t : mix a b c r s t = mix b c a s t r.
Proof. unfold mix. cbn. f_equal; ring. Qed.

Lemma in_open_iff a b c q : ccw a b c -> (in_open a b c q <-> 0 < orr a b q /\ 0 < orr b c q /\ 0 < orr c a q).
Proof.
  intros W. unfold ccw in W. rewrite <- orr_area in W. split.
  - intros (r & s & t & Hr & Hs & Ht & E & ->).
    split; [rewrite orr_mix by lra; now apply Rmult_lt_0_compat|].
    split; [rewrite mix_rot, orr_mix by lra; rewrite orr_rot; now apply Rmult_lt_0_compat|].
    rewrite mix_rot. rewrite mix_rot. rewrite orr_mix by lra. rewrite (orr_rot b c a), (orr_rot a b c). now apply Rmult_lt_0_compat.
  - intros (A & B & C). exists (orr b c q / orr a b c), (orr c a q / orr a b c), (orr a b q / orr a b c).
    split; [now apply Rdiv_lt_0_compat|]. split; [now apply Rdiv_lt_0_compat|]. split; [now apply Rdiv_lt_0_compat|].
    pose proof (orr_sum a b c q). split; [field_simplify_eq; lra|].
    unfold mix. destruct q as [x y]. f_equal.
    + pose proof (orr_barx a b c (x, y)) as X. cbn [fst] in X. field_simplify_eq; [|lra]. cbn [fst snd] in *. lra.
    + pose proof (orr_bary a b c (x, y)) as X. cbn [snd] in X. field_simplify_eq; [|lra]. cbn [fst snd] in *. lra.
Qed.
Lemma in_closed_iff a b c q : ccw a b c -> (in_closed a b c q <-> 0 <= orr a b q /\ 0 <= orr b c q /\ 0 <= orr c a q).
Proof.
  intros W. unfold ccw in W. rewrite <- orr_area in W. split.
  - intros (r & s & t & Hr & Hs & Ht & E & ->).
    split; [rewrite orr_mix by lra; apply Rmult_le_pos; lra|].
    split; [rewrite mix_rot, orr_mix by lra; rewrite orr_rot; apply Rmult_le_pos; lra|].
    rewrite mix_rot. rewrite mix_rot. rewrite orr_mix by lra. rewrite (orr_rot b c a), (orr_rot a b c). apply Rmult_le_pos; lra.
  - intros (A & B & C). exists (orr b c q / orr a b c), (orr c a q / orr a b c), (orr a b q / orr a b c).
    assert (I : 0 < / orr a b c) by now apply Rinv_0_lt_compat.
    split; [apply Rmult_le_pos; lra|]. split; [apply Rmult_le_pos; lra|]. split; [apply Rmult_le_pos; lra|].
    pose proof (orr_sum a b c q). split; [field_simplify_eq; lra|].
    unfold mix. destruct q as [x y]. f_equal.
    + pose proof (orr_barx a b c (x, y)) as X. cbn [fst] in X. field_simplify_eq; [|lra]. cbn [fst snd] in *. lra.
    + pose proof (orr_bary a b c (x, y)) as X. cbn [snd] in X. field_simplify_eq; [|lra]. cbn [fst snd] in *. lra.
Qed.

(** on a segment *)
Lemma orr_along a b t : orr a b (along a b t) = 0.
Proof. unfold orr, along. cbn. ring. Qed.
Lemma on_seg_orr a b q : on_seg a b q -> orr a b q = 0.
Proof. intros (t & _ & ->). apply orr_along. Qed.
Lemma on_seg_sym a b q : on_seg a b q -> on_seg b a q.
Proof. intros (t & H & ->). exists (1 - t). split; [lra|]. unfold along. f_equal; ring. Qed.
Lemma on_seg_x a b q : fst a <> fst b -> orr a b q = 0 ->
  (fst a <= fst q <= fst b \/ fst b <= fst q <= fst a) -> on_seg a b q.
Proof.
  intros N O H. exists ((fst q - fst a) / (fst b - fst a)).
  assert (D : fst b - fst a <> 0) by lra. split.
  - destruct (Rlt_le_dec (fst a) (fst b)).
    + assert (I : 0 < / (fst b - fst a)) by (apply Rinv_0_lt_compat; lra). split.
      * apply Rmult_le_pos; lra.
      * apply Rmult_le_reg_r with (fst b - fst a); [lra|]. unfold Rdiv. rewrite Rmult_assoc, Rinv_l; lra.
    + assert (I : 0 < / (fst a - fst b)) by (apply Rinv_0_lt_compat; lra).
      replace ((fst q - fst a) / (fst b - fst a)) with ((fst a - fst q) / (fst a - fst b)) by (field; lra). split.
      * apply Rmult_le_pos; lra.
      * apply Rmult_le_reg_r with (fst a - fst b); [lra|]. unfold Rdiv. rewrite Rmult_assoc, Rinv_l; lra.
  - unfold along. destruct q as [x y]. cbn [fst snd] in *. f_equal; [field; lra|].
    unfold orr in O. cbn [fst snd] in O. field_simplify_eq; [|lra]. lra.
Qed.
Lemma on_seg_y a b q : fst a = fst b -> fst q = fst a -> (snd a <= snd q <= snd b \/ snd b <= snd q <= snd a) -> on_seg a b q.
Proof.
  intros E X H. destruct (Req_dec (snd a) (snd b)) as [Y|Y].
  - exists 0. split; [lra|]. unfold along. destruct q; cbn [fst snd] in *. f_equal; lra.
  - set (sw := fun p : R * R => (snd p, fst p)).
    destruct (on_seg_x (sw a) (sw b) (sw q)) as (t & Ht & Q); cbn; auto.
    { unfold orr, sw. cbn [fst snd]. rewrite X, E. ring. }
    exists t. split; auto. unfold sw, along in *. cbn [fst snd] in Q. injection Q as Q1 Q2. destruct q; cbn [fst snd] in *. f_equal; auto.
Qed.

(** ** Crossings of the vertical line through a point, above it: antisymmetric in the edge *)
Definition bz (b : bool) : Z := if b then 1%Z else 0%Z.
Definition Rb (P : Prop) (d : {P} + {~ P}) : bool := if d then true else false.
Definition lefto (a q : R * R) : bool := if Rle_dec (fst a) (fst q) then true else false.
Definition pos (x : R) : bool := if Rlt_dec 0 x then true else false.
Definition wc (q a b : R * R) : Z :=
  match lefto a q, lefto b q with
  | true, false => bz (pos (orr a b q))
  | false, true => (- bz (pos (- orr a b q)))%Z
  | _, _ => 0%Z
  end.
Lemma wc_anti q a b : wc q b a = (- wc q a b)%Z.
Proof.
  unfold wc. destruct (lefto a q), (lefto b q); auto; rewrite (orr_swap a b q).
  - now rewrite Ropp_involutive.
  - now rewrite Z.opp_involutive.
Qed.

Lemma bar0 a b c q : orr a b q * (fst c - fst q) + orr b c q * (fst a - fst q) + orr c a q * (fst b - fst q) = 0.
Proof. unfold orr. ring. Qed.

Ltac sgn x := destruct (Rtotal_order x 0) as [?|[?|?]].

Section Tri.
Variables a b c q : R * R.
Hypothesis W : 0 < orr a b c.
Hypothesis Na : ~ on_seg a b q.
Hypothesis Nb : ~ on_seg b c q.
Hypothesis Nc : ~ on_seg c a q.
Let I := 0 < orr a b q /\ 0 < orr b c q /\ 0 < orr c a q.

(** one corner to the left *)
Lemma tri_one : fst a <= fst q -> fst q < fst b -> fst q < fst c ->
  (bz (pos (orr a b q)) - bz (pos (- orr c a q)))%Z = 1%Z /\ I \/
  (bz (pos (orr a b q)) - bz (pos (- orr c a q)))%Z = 0%Z /\ ~ I.
Proof.
  intros La Lb Lc. pose proof (bar0 a b c q) as B0. pose proof (orr_sum a b c q) as S0.
  assert (O1 : orr a b q <> 0) by (intros E; apply Na, on_seg_x; auto; lra).
  assert (O3 : orr c a q <> 0) by (intros E; apply Nc, on_seg_x; auto; lra).
  unfold pos. destruct (Rlt_dec 0 (orr a b q)) as [P1|P1], (Rlt_dec 0 (- orr c a q)) as [P3|P3]; cbn.
  - right. split; auto. unfold I. lra.
  - left. split; auto. unfold I. split; [lra|]. split; [|lra].
    assert (X : 0 < orr a b q * (fst c - fst q)) by (apply Rmult_lt_0_compat; lra).
    assert (Y : 0 < orr c a q * (fst b - fst q)) by (apply Rmult_lt_0_compat; lra).
    assert (Z : 0 < orr b c q * (fst q - fst a)) by lra.
    destruct (Rlt_le_dec 0 (orr b c q)) as [|G]; auto. exfalso.
    assert (0 <= - orr b c q * (fst q - fst a)) by (apply Rmult_le_pos; lra). lra.
  - exfalso.
    assert (X : 0 < - orr a b q * (fst c - fst q)) by (apply Rmult_lt_0_compat; lra).
    assert (Y : 0 < - orr c a q * (fst b - fst q)) by (apply Rmult_lt_0_compat; lra).
    assert (Z : orr b c q * (fst q - fst a) < 0) by lra.
    assert (0 < orr b c q) by lra. assert (0 <= orr b c q * (fst q - fst a)) by (apply Rmult_le_pos; lra). lra.
  - right. split; auto. unfold I. lra.
Qed.
(** two corners to the left *)
Lemma tri_two : fst a <= fst q -> fst b <= fst q -> fst q < fst c ->
  (bz (pos (orr b c q)) - bz (pos (- orr c a q)))%Z = 1%Z /\ I \/
  (bz (pos (orr b c q)) - bz (pos (- orr c a q)))%Z = 0%Z /\ ~ I.
Proof.
  intros La Lb Lc. pose proof (bar0 a b c q) as B0. pose proof (orr_sum a b c q) as S0.
  assert (O1 : orr b c q <> 0) by (intros E; apply Nb, on_seg_x; auto; lra).
  assert (O3 : orr c a q <> 0) by (intros E; apply Nc, on_seg_x; auto; lra).
  unfold pos. destruct (Rlt_dec 0 (orr b c q)) as [P1|P1], (Rlt_dec 0 (- orr c a q)) as [P3|P3]; cbn.
  - right. split; auto. unfold I. lra.
  - left. split; auto. unfold I. split; [|lra].
    assert (X : 0 <= orr b c q * (fst q - fst a)) by (apply Rmult_le_pos; lra).
    assert (Y : 0 <= orr c a q * (fst q - fst b)) by (apply Rmult_le_pos; lra).
    destruct (Rlt_le_dec 0 (orr a b q)) as [|G]; auto. exfalso.
    assert (Z : 0 <= - orr a b q * (fst c - fst q)) by (apply Rmult_le_pos; lra).
    assert (X0 : orr b c q * (fst q - fst a) = 0) by lra. assert (Y0 : orr c a q * (fst q - fst b) = 0) by lra.
    assert (Ea : fst a = fst q) by (apply Rmult_integral in X0 as [?|?]; lra).
    assert (Eb : fst b = fst q) by (apply Rmult_integral in Y0 as [?|?]; lra).
    apply Na, on_seg_y; try lra. right.
    unfold orr in P1, P3. rewrite Ea in P3. rewrite Eb in P1.
    assert (U1 : 0 < (snd q - snd b) * (fst c - fst q)) by lra.
    assert (U2 : 0 <= (fst c - fst q) * (snd a - snd q)) by lra.
    split; apply Rnot_lt_le; intros V.
    + assert (0 < (snd b - snd q) * (fst c - fst q)) by (apply Rmult_lt_0_compat; lra). lra.
    + assert (0 < (fst c - fst q) * (snd q - snd a)) by (apply Rmult_lt_0_compat; lra). lra.
  - exfalso.
    assert (X : 0 <= - orr b c q * (fst q - fst a)) by (apply Rmult_le_pos; lra).
    assert (Y : 0 <= - orr c a q * (fst q - fst b)) by (apply Rmult_le_pos; lra).
    assert (0 < orr a b q) by lra. assert (0 < orr a b q * (fst c - fst q)) by (apply Rmult_lt_0_compat; lra). lra.
  - right. split; auto. unfold I. lra.
Qed.
(** no corner to the left, or all of them *)
Lemma tri_none : fst q < fst a -> fst q < fst b -> fst q < fst c -> ~ I.
Proof.
  intros La Lb Lc (A & B & C). pose proof (bar0 a b c q) as B0.
  assert (0 < orr a b q * (fst c - fst q)) by (apply Rmult_lt_0_compat; lra).
  assert (0 < orr b c q * (fst a - fst q)) by (apply Rmult_lt_0_compat; lra).
  assert (0 < orr c a q * (fst b - fst q)) by (apply Rmult_lt_0_compat; lra). lra.
Qed.
Lemma tri_all : fst a <= fst q -> fst b <= fst q -> fst c <= fst q -> ~ I.
Proof.
  intros La Lb Lc (A & B & C). pose proof (bar0 a b c q) as B0.
  assert (0 <= orr a b q * (fst q - fst c)) by (apply Rmult_le_pos; lra).
  assert (0 <= orr b c q * (fst q - fst a)) by (apply Rmult_le_pos; lra).
  assert (0 <= orr c a q * (fst q - fst b)) by (apply Rmult_le_pos; lra).
  assert (X1 : orr a b q * (fst q - fst c) = 0) by lra. assert (X2 : orr b c q * (fst q - fst a) = 0) by lra.
  assert (X3 : orr c a q * (fst q - fst b) = 0) by lra.
  apply Rmult_integral in X1 as [?|?]; [lra|]. apply Rmult_integral in X2 as [?|?]; [lra|]. apply Rmult_integral in X3 as [?|?]; [lra|].
  assert (orr a b c = 0); [|lra]. unfold orr. replace (fst b) with (fst q) by lra. replace (fst c) with (fst q) by lra.
  replace (fst a) with (fst q) by lra. ring.
Qed.
End Tri.

Lemma lefto_t a q : lefto a q = true -> fst a <= fst q.
Proof. unfold lefto. destruct Rle_dec; auto. discriminate. Qed.
Lemma lefto_f a q : lefto a q = false -> fst q < fst a.
Proof. unfold lefto. destruct Rle_dec; [discriminate|]. intros _. lra. Qed.

Lemma tri_wc a b c q : ccw a b c -> ~ on_seg a b q -> ~ on_seg b c q -> ~ on_seg c a q ->
  (wc q a b + wc q b c + wc q c a)%Z = 1%Z /\ in_open a b c q \/ (wc q a b + wc q b c + wc q c a)%Z = 0%Z /\ ~ in_open a b c q.
Proof.
  intros W Na Nb Nc. rewrite in_open_iff by auto. unfold ccw in W. rewrite <- orr_area in W.
  assert (W1 : 0 < orr b c a) by (rewrite orr_rot; auto). assert (W2 : 0 < orr c a b) by (rewrite (orr_rot b c a), (orr_rot a b c); auto).
  set (P := 0 < orr a b q /\ 0 < orr b c q /\ 0 < orr c a q).
  assert (R1 : P <-> (0 < orr b c q /\ 0 < orr c a q /\ 0 < orr a b q)) by (unfold P; tauto).
  assert (R2 : P <-> (0 < orr c a q /\ 0 < orr a b q /\ 0 < orr b c q)) by (unfold P; tauto).
  unfold wc. destruct (lefto a q) eqn:A, (lefto b q) eqn:B, (lefto c q) eqn:C;
    repeat match goal with H : lefto _ _ = true |- _ => apply lefto_t in H | H : lefto _ _ = false |- _ => apply lefto_f in H end.
  - right. split; auto. now apply tri_all.
  - destruct (tri_two a b c q W Na Nb Nc A B C) as [(X & Y)|(X & Y)]; [left|right]; (split; [lia|auto]).
  - destruct (tri_two c a b q W2 Nc Na Nb C A B) as [(X & Y)|(X & Y)]; [left|right]; (split; [lia|rewrite R2; auto]).
  - destruct (tri_one a b c q W Na Nc A B C) as [(X & Y)|(X & Y)]; [left|right]; (split; [lia|auto]).
  - destruct (tri_two b c a q W1 Nb Nc Na B C A) as [(X & Y)|(X & Y)]; [left|right]; (split; [lia|rewrite R1; auto]).
  - destruct (tri_one b c a q W1 Nb Na B C A) as [(X & Y)|(X & Y)]; [left|right]; (split; [lia|rewrite R1; auto]).
  - destruct (tri_one c a b q W2 Nc Nb C A B) as [(X & Y)|(X & Y)]; [left|right]; (split; [lia|rewrite R2; auto]).
  - right. split; auto. now apply tri_none.
Qed.

(** ** Points in general position *)
Definition quad (p : R * R * R) (t : R) : R := fst (fst p) * (t * t) + snd (fst p) * t + snd p.
Definition nonnull (p : R * R * R) : Prop := fst (fst p) <> 0 \/ snd (fst p) <> 0.
Lemma quad_three p t1 t2 t3 : nonnull p -> t1 < t2 < t3 -> quad p t1 <> 0 \/ quad p t2 <> 0 \/ quad p t3 <> 0.
Proof.
  destruct p as [[u v] w]. unfold nonnull, quad. cbn. intros N H.
  destruct (Req_dec (u * (t1 * t1) + v * t1 + w) 0) as [E1|]; auto. destruct (Req_dec (u * (t2 * t2) + v * t2 + w) 0) as [E2|]; auto.
  right. right. intros E3.
  assert (F1 : (t2 - t1) * (u * (t2 + t1) + v) = 0) by lra. assert (F2 : (t3 - t1) * (u * (t3 + t1) + v) = 0) by lra.
  apply Rmult_integral in F1 as [?|F1]; [lra|]. apply Rmult_integral in F2 as [?|F2]; [lra|].
  assert (G : u * (t3 - t2) = 0) by lra. apply Rmult_integral in G as [G|?]; [|lra].
  rewrite G in F1. lra.
Qed.
Lemma quad_near p l r s : 0 <= l -> l < s < r -> quad p s <> 0 -> exists l' r', l <= l' /\ l' < s /\ s < r' /\ r' <= r /\ forall t, l' < t < r' -> quad p t <> 0.
Proof.
  destruct p as [[u v] w]. unfold quad. cbn. intros L H N.
  set (M := Rabs u * (r + r) + Rabs v + 1). assert (HM : 0 < M).
  { unfold M. pose proof (Rabs_pos u). pose proof (Rabs_pos v). assert (0 <= Rabs u * (r + r)) by (apply Rmult_le_pos; lra). lra. }
  set (P := u * (s * s) + v * s + w) in *. set (d := Rabs P / M). assert (Hd : 0 < d) by (apply Rdiv_lt_0_compat; auto; now apply Rabs_pos_lt).
  exists (Rmax l (s - d)), (Rmin r (s + d)). split; [apply Rmax_l|]. split; [apply Rmax_lub_lt; lra|]. split; [apply Rmin_glb_lt; lra|]. split; [apply Rmin_l|].
  intros t (T1 & T2) E.
  assert (l < t) by (pose proof (Rmax_l l (s - d)); lra). assert (s - d < t) by (pose proof (Rmax_r l (s - d)); lra).
  assert (t < r) by (pose proof (Rmin_l r (s + d)); lra). assert (t < s + d) by (pose proof (Rmin_r r (s + d)); lra).
  assert (X : P = (s - t) * (u * (s + t) + v)) by (unfold P; lra).
  assert (B1 : Rabs (s - t) < d) by (apply Rabs_def1; lra).
  assert (B2 : Rabs (u * (s + t) + v) <= M - 1).
  { unfold M. eapply Rle_trans; [apply Rabs_triang|]. rewrite Rabs_mult. rewrite (Rabs_right (s + t)) by lra.
    assert (Rabs u * (s + t) <= Rabs u * (r + r)) by (apply Rmult_le_compat_l; [apply Rabs_pos|lra]). lra. }
  assert (Y : Rabs P = Rabs (s - t) * Rabs (u * (s + t) + v)) by (rewrite X; apply Rabs_mult).
  assert (Rabs P <= Rabs (s - t) * (M - 1)) by (rewrite Y; apply Rmult_le_compat_l; auto; apply Rabs_pos).
  assert (Z : d * M = Rabs P) by (unfold d; field; lra).
  assert (0 <= M - 1) by (pose proof (Rabs_pos (u * (s + t) + v)); lra).
  assert (Rabs (s - t) * (M - 1) <= d * (M - 1)) by (apply Rmult_le_compat_r; lra). lra.
Qed.
Lemma generic_t (ps : list (R * R * R)) : (forall p, In p ps -> nonnull p) ->
  forall l r, 0 <= l -> l < r -> exists l' r', l <= l' /\ l' < r' /\ r' <= r /\ forall p t, In p ps -> l' < t < r' -> quad p t <> 0.
Proof.
  induction ps as [|p ps IH]; intros HN l r L H.
  - exists l, r. repeat split; try lra. intros p t [].
  - destruct (IH (fun q Hq => HN q (or_intror Hq)) l r L H) as (l1 & r1 & A & B & C & D).
    assert (N : nonnull p) by (apply HN; now left).
    assert (S : exists s, l1 < s < r1 /\ quad p s <> 0).
    { destruct (quad_three p (l1 + (r1 - l1) / 4) (l1 + (r1 - l1) / 2) (l1 + 3 * (r1 - l1) / 4) N) as [Q|[Q|Q]]; [lra| | |];
        eexists; (split; [|exact Q]); lra. }
    destruct S as (s & Hs & Q). destruct (quad_near p l1 r1 s ltac:(lra) Hs Q) as (l2 & r2 & E1 & E2 & E3 & E4 & E5).
    exists l2, r2. split; [lra|]. split; [lra|]. split; [lra|]. intros p' t [<-|I] Ht; [now apply E5|]. apply (D p'); auto. lra.
Qed.

Definition near (d : R) (q q' : R * R) : Prop := Rabs (fst q' - fst q) < d /\ Rabs (snd q' - snd q) < d.
Lemma generic_point (segs : list ((R * R) * (R * R))) q d : 0 < d -> (forall s, In s segs -> fst s <> snd s) ->
  exists q', near d q q' /\ forall a b, In (a, b) segs -> orr a b q' <> 0.
Proof.
  intros Hd N.
  set (ps := map (fun s => (fst (snd s) - fst (fst s), snd (fst s) - snd (snd s), orr (fst s) (snd s) q)) segs).
  destruct (generic_t ps) with (l := 0) (r := Rmin d 1) as (l & r & A & B & C & D).
  { intros p I. unfold ps in I. apply in_map_iff in I as ([[ax ay] [bx by_]] & <- & I). specialize (N _ I). unfold nonnull. cbn in *.
    destruct (Req_dec (bx - ax) 0) as [E|]; auto. right. intros E'. apply N. f_equal; lra. }
  { lra. } { apply Rmin_glb_lt; lra. }
  set (t := (l + r) / 2). assert (Ht : l < t < r) by (unfold t; lra).
  pose proof (Rmin_l d 1). pose proof (Rmin_r d 1).
  exists (fst q + t, snd q + t * t). split.
  - unfold near. cbn [fst snd]. replace (fst q + t - fst q) with t by ring. replace (snd q + t * t - snd q) with (t * t) by ring.
    split; rewrite Rabs_right; try lra.
    + assert (t * t < 1 * t) by (apply Rmult_lt_compat_r; lra). lra.
    + apply Rle_ge. apply Rmult_le_pos; lra.
  - intros a b I E. apply (D (fst b - fst a, snd a - snd b, orr a b q) t); auto.
    + unfold ps. apply in_map_iff. exists (a, b). auto.
    + unfold quad. cbn [fst snd]. rewrite <- E. unfold orr. cbn [fst snd]. ring.
Qed.

(** a strict side of a line is open *)
Lemma orr_near a b q : 0 < orr a b q -> exists d, 0 < d /\ forall q', near d q q' -> 0 < orr a b q'.
Proof.
  intros H. set (M := Rabs (fst b - fst a) + Rabs (snd b - snd a) + 1).
  assert (HM : 0 < M) by (unfold M; pose proof (Rabs_pos (fst b - fst a)); pose proof (Rabs_pos (snd b - snd a)); lra).
  exists (orr a b q / M). set (d := orr a b q / M). assert (Hd : 0 < d) by now apply Rdiv_lt_0_compat. split; auto.
  intros q' (N1 & N2).
  assert (E : orr a b q' = orr a b q + ((fst b - fst a) * (snd q' - snd q) - (snd b - snd a) * (fst q' - fst q))) by (unfold orr; ring).
  set (u := (fst b - fst a) * (snd q' - snd q)) in *. set (v := (snd b - snd a) * (fst q' - fst q)) in *.
  assert (U : Rabs u <= Rabs (fst b - fst a) * d) by (unfold u; rewrite Rabs_mult; apply Rmult_le_compat_l; [apply Rabs_pos|lra]).
  assert (V : Rabs v <= Rabs (snd b - snd a) * d) by (unfold v; rewrite Rabs_mult; apply Rmult_le_compat_l; [apply Rabs_pos|lra]).
  assert (Z : d * M = orr a b q) by (unfold d; field; lra). unfold M in Z.
  pose proof (Rle_abs (- u)). pose proof (Rle_abs v). rewrite Rabs_Ropp in *. lra.
Qed.
Lemma near_mono d d' q q' : near d q q' -> d <= d' -> near d' q q'.
Proof. intros (A & B) H. split; lra. Qed.
Lemma near_refl d q : 0 < d -> near d q q.
Proof. intros H. unfold near. rewrite !Rminus_diag_eq by auto. rewrite Rabs_R0. auto. Qed.
