(** The circles of a triangulation: closed chains of half-edges seen counter-clockwise from a
    point go around it; pencils of circles through two points. *)
From Coq Require Import List Arith Lia Bool Reals Lra Permutation ZArith.
From Verif Require Import Model_Base Model_Mesh Model_Geom Spec_Geom Proof_Base
  Proof_Mesh Proof_Mesh9 Proof_Plane Proof_Tess Proof_Tess2 Proof_Tess3.
Import ListNotations.
Local Open Scope R_scope.

(** ** An angle *)
Definition th (q a : C) : R :=
  let x := fst a - fst q in let y := snd a - snd q in
  if Rle_dec x 0 then 2 - y / (- x + Rabs y) else y / (x + Rabs y).
Lemma quot_lt x y x' y' : 0 <= x -> 0 <= x' -> 0 < x * y' - y * x' -> y / (x + Rabs y) < y' / (x' + Rabs y').
Proof.
  intros Hx Hx' D.
  assert (N : 0 < x + Rabs y).
  { destruct (Req_dec y 0) as [->|Y]; [|pose proof (Rabs_pos_lt y Y); lra]. rewrite Rabs_R0. destruct Hx as [|<-]; [lra|]. rewrite !Rmult_0_l in D. lra. }
  assert (N' : 0 < x' + Rabs y').
  { destruct (Req_dec y' 0) as [->|Y]; [|pose proof (Rabs_pos_lt y' Y); lra]. rewrite Rabs_R0. destruct Hx' as [|<-]; [lra|]. rewrite !Rmult_0_r in D. lra. }
  apply Rmult_lt_reg_r with (x + Rabs y); auto. apply Rmult_lt_reg_r with (x' + Rabs y'); auto.
  replace (y / (x + Rabs y) * (x + Rabs y) * (x' + Rabs y')) with (y * (x' + Rabs y')) by (field; lra).
  replace (y' / (x' + Rabs y') * (x + Rabs y) * (x' + Rabs y')) with (y' * (x + Rabs y)) by (field; lra).
  unfold Rabs. destruct (Rcase_abs y), (Rcase_abs y'); try lra.
  - assert (0 <= y' * x) by (apply Rmult_le_pos; lra). assert (0 <= - y * x') by (apply Rmult_le_pos; lra). assert (0 <= y' * - y) by (apply Rmult_le_pos; lra). lra.
  - assert (0 <= - y' * x) by (apply Rmult_le_pos; lra). assert (0 <= y * x') by (apply Rmult_le_pos; lra). lra.
Qed.
Lemma quot_hi x y : 0 < x -> y / (x + Rabs y) < 1.
Proof.
  intros H. pose proof (Rabs_pos y). apply Rmult_lt_reg_r with (x + Rabs y); [lra|].
  unfold Rdiv. rewrite Rmult_assoc, Rinv_l by lra. pose proof (Rle_abs y). lra.
Qed.
Lemma quot_le x y : 0 <= x -> 0 < x + Rabs y -> y / (x + Rabs y) <= 1.
Proof.
  intros H P. apply Rmult_le_reg_r with (x + Rabs y); [lra|].
  unfold Rdiv. rewrite Rmult_assoc, Rinv_l by lra. pose proof (Rle_abs y). lra.
Qed.
Lemma wc_left q a b : 0 < orr a b q -> (wc q a b = 1%Z \/ wc q a b = 0%Z) /\ (wc q a b = 0%Z -> th q a < th q b).
Proof.
  intros O. unfold wc, lefto, th, pos. set (x := fst a - fst q). set (y := snd a - snd q). set (x' := fst b - fst q). set (y' := snd b - snd q).
  assert (D : 0 < x * y' - y * x') by (unfold x, y, x', y'; unfold orr in O; lra).
  assert (E : forall c : C, (if Rle_dec (fst c) (fst q) then true else false) = (if Rle_dec (fst c - fst q) 0 then true else false)).
  { intros c. destruct (Rle_dec (fst c) (fst q)), (Rle_dec (fst c - fst q) 0); auto; lra. }
  rewrite !E. fold x x'.
  destruct (Rle_dec x 0) as [X|X], (Rle_dec x' 0) as [X'|X'].
  - split; auto. intros _. assert (Q : (-y) / (-x + Rabs (-y)) < (-y') / (- x' + Rabs (-y'))) by (apply quot_lt; lra).
    rewrite !Rabs_Ropp in Q. unfold Rdiv in *. lra.
  - destruct (Rlt_dec 0 (orr a b q)); [|lra]. cbn. split; auto. discriminate.
  - destruct (Rlt_dec 0 (- orr a b q)); [lra|]. cbn. split; auto. intros _.
    assert (y / (x + Rabs y) < 1) by (apply quot_hi; lra).
    assert (y' / (- x' + Rabs y') <= 1).
    { apply quot_le; [lra|]. destruct (Req_dec y' 0) as [Y|Y]; [|pose proof (Rabs_pos_lt y' Y); lra].
      rewrite Y, Rabs_R0. destruct (Req_dec x' 0) as [Z|Z]; [|lra]. rewrite Y, Z in D. lra. }
    lra.
  - split; auto. intros _. apply quot_lt; lra.
Qed.

Local Open Scope nat_scope.
Lemma sumR_le {A} (f g : A -> R) l : (forall a, In a l -> (f a <= g a)%R) -> (sumR f l <= sumR g l)%R.
Proof. induction l as [|a l IH]; intros H; cbn; [lra|]. pose proof (H a (or_introl eq_refl)). assert (sumR f l <= sumR g l)%R by (apply IH; intros; apply H; right; auto). lra. Qed.
Lemma sumR_lt {A} (f g : A -> R) l : l <> [] -> (forall a, In a l -> (f a < g a)%R) -> (sumR f l < sumR g l)%R.
Proof.
  destruct l as [|a l]; [congruence|]. intros _ H. cbn. pose proof (H a (or_introl eq_refl)).
  assert (sumR f l <= sumR g l)%R by (apply sumR_le; intros; apply Rlt_le, H; right; auto). lra.
Qed.

(** a closed chain all of whose half-edges have the point strictly on their left goes at least
    once around it *)
Lemma loop_around h es q : es <> [] -> (forall ph : ptr -> R, sumR (fun e => ph (en h e)) es = sumR (fun e => ph (st h e)) es) ->
  (forall e, In e es -> (0 < orr (sc h e) (ec h e) q)%R) -> (1 <= G (wr q) h es)%R.
Proof.
  intros NE BAL L.
  destruct (in_dec Z.eq_dec 1%Z (map (fun e => wc q (sc h e) (ec h e)) es)) as [I|NI].
  - apply in_map_iff in I as (e & W & Ie). apply in_split in Ie as (l1 & l2 & ->). unfold G. rewrite sumR_app. cbn [sumR].
    assert (P : forall l, incl l (l1 ++ e :: l2) -> (0 <= sumR (fun e => wr q (sc h e) (ec h e)) l)%R).
    { intros l IL. replace 0%R with (sumR (fun _ : nat => 0%R) l) by (clear; induction l; cbn; lra). apply sumR_le. intros a Ia. unfold wr.
      destruct (wc_left q _ _ (L a (IL a Ia))) as [[->| ->] _]; lra. }
    pose proof (P l1 ltac:(intros x; rewrite in_app_iff; auto)). pose proof (P l2 ltac:(intros x; rewrite in_app_iff; cbn; auto)).
    unfold wr at 2. rewrite W. lra.
  - exfalso. pose proof (BAL (fun p => th q (co h p))) as B. cbn beta in B.
    assert (X : (sumR (fun e => th q (co h (st h e))) es < sumR (fun e => th q (co h (en h e))) es)%R); [|lra].
    apply sumR_lt; auto. intros e Ie. destruct (wc_left q _ _ (L e Ie)) as [[W|W] T]; [|now apply T].
    exfalso. apply NI. rewrite <- W. apply in_map_iff. eauto.
Qed.

(** ** Circles *)
Local Open Scope R_scope.
Lemma circle_exists (a b c : C) : area2 a b c <> 0 -> exists o r2, circle_through o r2 [a; b; c].
Proof.
  intros W. unfold area2 in W. destruct a as [ax ay], b as [bx by_], c as [cx cy]. cbn [fst snd] in W.
  set (ux := bx - ax) in *. set (uy := by_ - ay) in *. set (vx := cx - ax) in *. set (vy := cy - ay) in *.
  set (D := ux * vy - uy * vx) in *. set (u2 := ux * ux + uy * uy). set (v2 := vx * vx + vy * vy).
  set (X := (vy * u2 - uy * v2) / (2 * D)). set (Y := (ux * v2 - vx * u2) / (2 * D)).
  exists (ax + X, ay + Y), (X * X + Y * Y).
  assert (E1 : 2 * (X * ux + Y * uy) = u2) by (unfold X, Y; unfold D; field; exact W).
  assert (E2 : 2 * (X * vx + Y * vy) = v2) by (unfold X, Y; unfold D; field; exact W).
  intros p [<-|[<-|[<-|[]]]]; unfold dist2; cbn [fst snd].
  - ring.
  - replace bx with (ax + ux) by (unfold ux; ring). replace by_ with (ay + uy) by (unfold uy; ring). unfold u2 in E1. lra.
  - replace cx with (ax + vx) by (unfold vx; ring). replace cy with (ay + vy) by (unfold vy; ring). unfold v2 in E2. lra.
Qed.
Definition pow (o : C) (r2 : R) (x : C) : R := dist2 x o - r2.
(** two circles through a and b *)
Lemma pencil (a b : C) o r2 o' r2' : a <> b -> circle_through o r2 [a; b] -> circle_through o' r2' [a; b] ->
  exists l, forall x, pow o' r2' x = pow o r2 x + l * orr a b x.
Proof.
  intros N H H'. pose proof (H a (or_introl eq_refl)) as A. pose proof (H b (or_intror (or_introl eq_refl))) as B.
  pose proof (H' a (or_introl eq_refl)) as A'. pose proof (H' b (or_intror (or_introl eq_refl))) as B'.
  unfold dist2, pow in *. destruct a as [ax ay], b as [bx by_], o as [ox oy], o' as [px py]. cbn [fst snd] in *.
  set (wx := bx - ax). set (wy := by_ - ay).
  assert (W : wx * wx + wy * wy <> 0).
  { intros Z. apply N. assert (wx = 0 /\ wy = 0) as [X Y] by (pose proof (Rle_0_sqr wx); pose proof (Rle_0_sqr wy); unfold Rsqr in *; split; apply Rsqr_0_uniq; unfold Rsqr; lra).
    unfold wx, wy in *. f_equal; lra. }
  set (gx := 2 * (ox - px)). set (gy := 2 * (oy - py)).
  assert (P : gx * wx + gy * wy = 0) by (unfold gx, gy, wx, wy; lra).
  exists ((gy * wx - gx * wy) / (wx * wx + wy * wy)). intros x. destruct x as [x y]. cbn [fst snd]. unfold orr. cbn [fst snd].
  replace ((ax - x) * (by_ - y) - (ay - y) * (bx - x)) with (wx * (y - ay) - wy * (x - ax)) by (unfold wx, wy; ring).
  assert (E1 : (gy * wx - gx * wy) / (wx * wx + wy * wy) * wx = gy).
  { apply Rmult_eq_reg_r with (wx * wx + wy * wy); auto. unfold Rdiv. 
    replace ((gy * wx - gx * wy) * / (wx * wx + wy * wy) * wx * (wx * wx + wy * wy)) with ((gy * wx - gx * wy) * wx) by (field; auto).
    replace ((gy * wx - gx * wy) * wx) with (gy * (wx * wx) - (gx * wx) * wy) by ring. replace (gx * wx) with (- (gy * wy)) by lra. ring. }
  assert (E2 : (gy * wx - gx * wy) / (wx * wx + wy * wy) * wy = - gx).
  { apply Rmult_eq_reg_r with (wx * wx + wy * wy); auto. unfold Rdiv. 
    replace ((gy * wx - gx * wy) * / (wx * wx + wy * wy) * wy * (wx * wx + wy * wy)) with ((gy * wx - gx * wy) * wy) by (field; auto).
    replace ((gy * wx - gx * wy) * wy) with ((gy * wy) * wx - gx * (wy * wy)) by ring. replace (gy * wy) with (- (gx * wx)) by lra. ring. }
  set (l := (gy * wx - gx * wy) / (wx * wx + wy * wy)) in *.
  replace (l * (wx * (y - ay) - wy * (x - ax))) with (l * wx * (y - ay) - l * wy * (x - ax)) by ring. rewrite E1, E2. unfold dist2; cbn [fst snd]; unfold gx, gy; lra.
Qed.
(** the interior of a triangle is inside its circle *)
Lemma pow_mix o r2 a b c r s t : circle_through o r2 [a; b; c] -> r + s + t = 1 ->
  pow o r2 (mix a b c r s t) = - (r * s * dist2 a b + s * t * dist2 b c + t * r * dist2 c a).
Proof.
  intros H E. pose proof (H a (or_introl eq_refl)) as A. pose proof (H b (or_intror (or_introl eq_refl))) as B.
  pose proof (H c (or_intror (or_intror (or_introl eq_refl)))) as D. unfold pow.
  replace r with (1 - s - t) by lra. clear E.
  replace (dist2 (mix a b c (1 - s - t) s t) o - r2) with
    ((1 - s - t) * dist2 a o + s * dist2 b o + t * dist2 c o - r2 - ((1 - s - t) * s * dist2 a b + s * t * dist2 b c + t * (1 - s - t) * dist2 c a)).
  - rewrite A, B, D. ring.
  - unfold dist2, mix. cbn [fst snd]. ring.
Qed.
Lemma dist2_pos a b : a <> b -> 0 < dist2 a b.
Proof.
  intros N. unfold dist2. destruct a as [x y], b as [x' y']. cbn [fst snd] in *.
  pose proof (Rle_0_sqr (x - x')). pose proof (Rle_0_sqr (y - y')). unfold Rsqr in *.
  destruct (Req_dec (x - x') 0) as [X|X].
  - destruct (Req_dec (y - y') 0) as [Y|Y]; [exfalso; apply N; f_equal; lra|]. pose proof (Rsqr_pos_lt _ Y). unfold Rsqr in *. lra.
  - pose proof (Rsqr_pos_lt _ X). unfold Rsqr in *. lra.
Qed.
Lemma dist2_nonneg a b : 0 <= dist2 a b.
Proof. unfold dist2. pose proof (Rle_0_sqr (fst a - fst b)). pose proof (Rle_0_sqr (snd a - snd b)). unfold Rsqr in *. lra. Qed.
Lemma closed_pow o r2 a b c q : ccw a b c -> circle_through o r2 [a; b; c] -> in_closed a b c q -> pow o r2 q <= 0.
Proof.
  intros W H (r & s & t & Hr & Hs & Ht & E & ->). rewrite pow_mix by auto.
  assert (0 <= r * s * dist2 a b) by (apply Rmult_le_pos; [apply Rmult_le_pos; auto|apply dist2_nonneg]).
  assert (0 <= s * t * dist2 b c) by (apply Rmult_le_pos; [apply Rmult_le_pos; auto|apply dist2_nonneg]).
  assert (0 <= t * r * dist2 c a) by (apply Rmult_le_pos; [apply Rmult_le_pos; auto|apply dist2_nonneg]). lra.
Qed.
Lemma closed_pow_lt o r2 a b c q : ccw a b c -> circle_through o r2 [a; b; c] -> in_closed a b c q -> q <> a -> q <> b -> q <> c -> pow o r2 q < 0.
Proof.
  intros W H (r & s & t & Hr & Hs & Ht & E & Q) Na Nb Nc.
  assert (D : a <> b /\ b <> c /\ c <> a).
  { unfold ccw, area2 in W. repeat split; intros ->; lra. }
  destruct D as (D1 & D2 & D3). apply dist2_pos in D1, D2, D3.
  rewrite Q, pow_mix by auto.
  assert (P : forall x y d, 0 <= x -> 0 <= y -> 0 < d -> 0 <= x * y * d) by (intros; apply Rmult_le_pos; [apply Rmult_le_pos|]; lra).
  assert (PP : forall x y d, 0 < x -> 0 < y -> 0 < d -> 0 < x * y * d) by (intros; apply Rmult_lt_0_compat; [apply Rmult_lt_0_compat|]; lra).
  pose proof (P r s _ Hr Hs D1). pose proof (P s t _ Hs Ht D2). pose proof (P t r _ Ht Hr D3).
  assert (V : (0 < r /\ 0 < s) \/ (0 < s /\ 0 < t) \/ (0 < t /\ 0 < r)).
  { destruct (Req_dec r 0) as [R0|R0], (Req_dec s 0) as [S0|S0], (Req_dec t 0) as [T0|T0]; try (subst r; subst s); try lra.
    - exfalso. apply Nc. rewrite Q. replace t with 1 by lra. unfold mix. destruct c; cbn. f_equal; ring.
    - exfalso. apply Nb. rewrite Q. rewrite T0, R0. replace s with 1 by lra. unfold mix. destruct b; cbn. f_equal; ring.
    - exfalso. apply Na. rewrite Q. rewrite T0, S0. replace r with 1 by lra. unfold mix. destruct a; cbn. f_equal; ring. }
  destruct V as [(A & B)|[(A & B)|(A & B)]]; [pose proof (PP r s _ A B D1)|pose proof (PP s t _ A B D2)|pose proof (PP t r _ A B D3)]; lra.
Qed.
(** beyond a point of the circle, away from a point inside it *)
Lemma beyond_out o r2 (p q : C) t : pow o r2 p < 0 -> 0 <= pow o r2 q -> 0 < t -> 0 < pow o r2 (along p q (1 + t)).
Proof.
  intros P Q T. unfold pow in *.
  assert (E : dist2 (along p q (1 + t)) o - r2 = (1 + t) * (dist2 q o - r2) - t * (dist2 p o - r2) + t * (1 + t) * dist2 p q).
  { unfold dist2, along. cbn [fst snd]. ring. }
  rewrite E. assert (0 <= (1 + t) * (dist2 q o - r2)) by (apply Rmult_le_pos; lra).
  assert (0 < t * - (dist2 p o - r2)) by (apply Rmult_lt_0_compat; lra).
  assert (0 <= t * (1 + t) * dist2 p q) by (apply Rmult_le_pos; [apply Rmult_le_pos; lra|apply dist2_nonneg]). lra.
Qed.
