(** join of rational curves. *)
From Coq Require Import List Arith ZArith Reals Lia Lra Bool.
From Verif Require Import Model_Base Spec_Base Spec_Basis Spec_Knots Spec_Eval Spec_Class Spec_Rational Spec_Elevate Spec_Unify
  Model_Basis Model_Knots Model_Curve Model_Rational Model_Elevate Model_Unify
  Proof_Base Proof_Blossom Proof_Basis Proof_Ders Proof_Eval Proof_Trim Proof_PropBasis Proof_Build2 Proof_Ctor Proof_Interp3 Proof_SurfEdit Proof_SurfEdit2
  Proof_Curve Proof_Quotient Proof_Elevate2 Proof_Elevate4 Proof_Unify Proof_Unify2 Proof_Unify3 Proof_Unify5 Proof_Join Proof_Join2.
Import ListNotations.
Local Open Scope R_scope.

Lemma for_rel {St : Type} (Rl : St -> St -> Prop) (b b' : nat -> St -> result St) : forall n lo s s' r,
  (forall i s s' r, (lo <= i < lo + n)%nat -> Rl s s' -> b i s = Ok r -> exists r', b' i s' = Ok r' /\ Rl r r') ->
  Rl s s' -> for_ lo n b s = Ok r -> exists r', for_ lo n b' s' = Ok r' /\ Rl r r'.
Proof.
  induction n as [|n IH]; intros lo s s' r Hb Hs; cbn [for_]; intros E.
  - injection E as <-. eauto.
  - destruct (bind_inv _ _ _ E) as (t & E1 & E2). destruct (Hb lo s s' t ltac:(lia) Hs E1) as (t' & F1 & F2).
    rewrite F1. cbn [bind]. apply (IH _ t t' r); auto. intros; eapply Hb; eauto; lia.
Qed.

Lemma pole_map (f : pt R -> pt R) (P : list (pt R)) c i : (i < length P)%nat -> pole (map f P) c i = f (nth i P (fun _ => 0)) c.
Proof. revert i. induction P as [|q P IH]; intros [|i]; cbn; intros H; try lia; [reflexivity|]. apply IH. lia. Qed.
Lemma pole_out (P : list (pt R)) c i : (length P <= i)%nat -> pole P c i = 0.
Proof. intros H. unfold pole. rewrite nth_overflow by exact H. reflexivity. Qed.

Section AtR.
Variable eps : R.
Local Hint Extern 0 (Num R) => exact (NumR eps) : typeclass_instances.

Lemma neqb_dec (a b : R) : neqb a b = if Req_EM_T a b then true else false.
Proof. destruct (Req_EM_T a b); [apply neqb_R; auto|apply neqb_R_false; auto]. Qed.

Lemma projection_scaled dim (q q' : pt R) s : s <> 0 -> (forall c, (c <= dim)%nat -> q' c = s * q c) ->
  forall c, (c < dim)%nat -> weight_projection dim q' c = weight_projection dim q c.
Proof.
  intros Hs H c Hc. unfold weight_projection. rewrite !neqb_dec, (H dim) by lia. nsimp.
  destruct (Req_EM_T (q dim) 0) as [E|E].
  - destruct (Req_EM_T (s * q dim) 0) as [_|X]; [reflexivity|exfalso; apply X; rewrite E; ring].
  - destruct (Req_EM_T (s * q dim) 0) as [X|_]; [apply Rmult_integral in X; tauto|]. rewrite (H c) by lia. field. auto.
Qed.

(** Multiplying all homogeneous values by one factor changes no rational value. *)
Lemma rec_scaled dim s (u : R) (k : list R) (P : list (pt R)) p (u' : R) (k' : list R) (P' : list (pt R)) p' : s <> 0 ->
  forall fuel d,
  (forall i, (i <= d)%nat -> exists q q', eval_value u k P p i = Ok q /\ eval_value u' k' P' p' i = Ok q' /\
     forall c, (c <= dim)%nat -> q' c = s * q c) ->
  forall q, eval_rational_rec fuel dim u k P p d = Ok q ->
  exists q', eval_rational_rec fuel dim u' k' P' p' d = Ok q' /\ forall c, (c < dim)%nat -> q' c = q c.
Proof.
  intros Hs. induction fuel as [|fuel IH]; intros d H q E; cbn [eval_rational_rec] in *; [discriminate|].
  destruct (Nat.eqb_spec d 0) as [->|Hd].
  - destruct (H 0%nat ltac:(lia)) as (a & b & A & B & AB). rewrite A in E. rewrite B. cbn [bind] in *. injection E as <-.
    eexists. split; [reflexivity|]. apply projection_scaled with s; auto.
  - destruct (H 0%nat ltac:(lia)) as (a & b & A & B & AB). rewrite A in E. rewrite B. cbn [bind] in *.
    destruct (H d ltac:(lia)) as (a1 & b1 & A1 & B1 & AB1). rewrite A1 in E. rewrite B1. cbn [bind] in *.
    destruct (bind_inv _ _ _ E) as (t & E1 & E2).
    destruct (for_rel (fun t t' => forall c, (c < dim)%nat -> t' c = s * t c)
       (fun i s0 => let* qi := eval_value u k P p i in
          let* C := eval_rational_rec fuel dim u k P p (d - i) in
          let* b0 := binomial_law mul_size d i in Ok (rat_sub s0 b0 (weight dim qi) C))
       (fun i s0 => let* qi := eval_value u' k' P' p' i in
          let* C := eval_rational_rec fuel dim u' k' P' p' (d - i) in
          let* b0 := binomial_law mul_size d i in Ok (rat_sub s0 b0 (weight dim qi) C)) d 1%nat (weight_projection dim (fun c => if c =? dim then n1 else a1 c))
       (weight_projection dim (fun c => if c =? dim then n1 else b1 c)) t) with (3 := E1) as (t' & F1 & F2).
    + intros i st st' r Hi Hst Er. destruct (H i ltac:(lia)) as (ai & bi & Ai & Bi & ABi). rewrite Ai in Er. rewrite Bi. cbn [bind] in *.
      destruct (bind_inv _ _ _ Er) as (C & C1 & C2). destruct (IH (d - i)%nat) with (2 := C1) as (C' & C3 & C4).
      { intros j Hj. apply H. lia. }
      rewrite C3. cbn [bind]. destruct (bind_inv _ _ _ C2) as (bb & C5 & C6). rewrite C5. cbn [bind]. injection C6 as <-.
      eexists. split; [reflexivity|]. intros c Hc. unfold rat_sub, weight. nsimp. rewrite (C4 c Hc), (Hst c Hc), (ABi dim) by lia. ring.
    + intros c Hc. unfold weight_projection. rewrite Nat.eqb_refl, !neqb_dec. nsimp.
      destruct (Req_EM_T 1 0) as [X|_]; [lra|]. destruct (Nat.eqb_spec c dim); [lia|]. rewrite (AB1 c) by lia. field.
    + match type of F1 with ?l = _ => match goal with |- context [@for_ ?Sx ?a0 ?b0 ?bb ?s0] => change (@for_ Sx a0 b0 bb s0) with l end end. rewrite F1. cbn [bind]. unfold weight in *. rewrite neqb_dec in *. rewrite (AB dim) by lia. nsimp.
      destruct (Req_EM_T (a dim) 0) as [X|X]; [discriminate|].
      destruct (Req_EM_T (s * a dim) 0) as [Y|_]; [apply Rmult_integral in Y; tauto|]. injection E2 as <-.
      eexists. split; [reflexivity|]. intros c Hc. cbn beta. rewrite (F2 c Hc). field. auto.
Qed.

Lemma scale_pole (P : list (pt R)) s c i : pole (scale_poles P s) c i = s * pole P c i.
Proof.
  unfold scale_poles. destruct (le_lt_dec (length P) i) as [H|H].
  - rewrite !pole_out by (rewrite ?map_length; exact H). ring.
  - rewrite pole_map by exact H. nsimp. unfold pole. ring.
Qed.

Lemma scale_eval (k : list R) n p (P : list (pt R)) s x d : knots_ok k n p -> length P = n -> evaluable eps k n p ->
  kn k p <= x <= kn k n ->
  exists q q', eval_value x k P p d = Ok q /\ eval_value x k (scale_poles P s) p d = Ok q' /\ forall c, q' c = s * q c.
Proof.
  intros Hk HP Hev Hx. destruct (le_lt_dec d p) as [Hd|Hd].
  2: { exists pzero, pzero. rewrite !(eval_value_high eps) by lia. split; [reflexivity|]. split; [reflexivity|]. intros c. unfold pzero. nsimp. ring. }
  destruct (CV_eval eps k n p P x d Hk HP Hev Hx Hd) as (q & E & Q).
  destruct (CV_eval eps k n p (scale_poles P s) x d Hk ltac:(unfold scale_poles; rewrite map_length; exact HP) Hev Hx Hd) as (q' & E' & Q').
  exists q, q'. split; [exact E|]. split; [exact E'|]. intros c. rewrite Q, Q'. unfold CV. rewrite <- PS_scal.
  unfold PS. apply sumn_ext. intros i _. rewrite scale_pole. reflexivity.
Qed.

(** The copy with weights one. *)
Lemma one_pole dim (P : list (pt R)) c i : (c < dim)%nat -> pole (add_weights_one dim P) c i = pole P c i.
Proof.
  intros Hc. unfold add_weights_one. destruct (le_lt_dec (length P) i) as [H|H].
  - rewrite !pole_out by (rewrite ?map_length; exact H). reflexivity.
  - rewrite pole_map by exact H. unfold add_weight. destruct (Nat.eqb_spec c dim); [lia|]. nsimp. unfold pole. ring.
Qed.
Lemma one_weight dim (P : list (pt R)) i : (i < length P)%nat -> pole (add_weights_one dim P) dim i = 1.
Proof. intros H. unfold add_weights_one. rewrite pole_map by exact H. unfold add_weight. rewrite Nat.eqb_refl. reflexivity. Qed.

Lemma CV_one k n p d x (P : nat -> R) : knots_ok k n p -> kn k p <= x <= kn k n -> (d <= p)%nat -> (forall i, (i < n)%nat -> P i = 1) ->
  CV k n p d P x = if d =? 0 then 1 else 0.
Proof.
  intros Hk Hx Hd HP. destruct (span_at_ex eps n p x k Hk Hx) as (l & Hl & Sx & Sl). rewrite (CV_at k n p d P x l Hk Hl Sx). unfold PS.
  transitivity (sumn (S l) (fun i => ffall p d * NH (kn k) l (repeat (1, 0) d ++ repeat (x, 1) (p - d)) i)).
  { apply sumn_ext. intros i Hi. rewrite HP by lia. ring. }
  rewrite sumn_scal. rewrite (NH_sum (kn k) l (l + p)).
  all: rewrite ?app_length, ?repeat_length; try lia.
  - rewrite map_app, fold_right_app.
    assert (E1 : fold_right Rmult 1 (map snd (repeat (x, 1) (p - d))) = 1).
    { generalize (p - d)%nat as m. induction m as [|m IH]; cbn; [reflexivity|]. rewrite IH. ring. }
    rewrite E1. destruct d as [|d]; cbn.
    + unfold ffall. cbn. ring.
    + ring.
  - intros i j Hij Hj. destruct Hk as (L & _ & N & _). apply N; lia.
  - exact Sl.
Qed.

(** What a curve contributes to the join: its homogeneous copy. *)
Lemma as_rational_ok dim r c : 0 < eps -> clamped_object eps c ->
  exists h, as_rational dim r c = Ok h /\ clamped_object eps h /\ c_deg h = c_deg c /\ c_lo h = c_lo c /\ c_hi h = c_hi c /\
    (forall x d q, c_lo c <= x <= c_hi c -> r = true \/ (d <= 20)%nat -> (c_deg c <= 12)%nat -> curve_value eps dim r c x d = Ok q ->
      exists q', eval_rational_value dim x (c_knots h) (c_poles h) (c_deg h) d = Ok q' /\ forall i, (i < dim)%nat -> q' i = q i) /\
    (forall i, (i < length (c_poles h))%nat -> pole (c_poles h) dim i = if r then pole (c_poles c) dim i else 1) /\
    length (c_poles h) = length (c_poles c).
Proof.
  intros He Hc. pose proof Hc as (Hi & B1 & B2). pose proof (info_gk eps _ _ ltac:(lra) Hi) as (K & E & S1 & Z & T & W).
  unfold info_of, knots_of, poles_of in K, E, S1, Z, T, W. cbn [fst snd] in K, E, S1, Z, T, W.
  destruct r; cbn [as_rational curve_value].
  - exists c. split; [apply as_bscurve_ok; auto; lra|]. repeat (split; [auto; reflexivity|]). split; [|auto].
    intros x d q Hx _ _ V. exists q. split; [|auto]. unfold rational_value in V.
    destruct (out_of_bounds c x); [discriminate|exact V].
  - pose proof K as (L & H & N & _). unfold rational_of_bscurve.
    assert (LP : length (add_weights_one dim (c_poles c)) = length (c_poles c)) by (unfold add_weights_one; apply map_length).
    rewrite (mk_curve_accepts eps) by (rewrite ?LP; auto; lia).
    eexists. split; [reflexivity|]. cbn [c_deg c_poles c_knots c_lo c_hi].
    split; [|split; [reflexivity|split; [unfold first_knot, last_knot in *; congruence|split; [unfold first_knot, last_knot in *; congruence|split; [|split]]]]].
    + split; [|split; reflexivity]. destruct Hi as (_ & U & M & C1 & C2 & C3). unfold info_of, knots_of, poles_of in *. cbn [c_deg c_poles c_knots fst snd] in *.
      split; [reflexivity|]. exists U, M. split; [exact C1|]. split; [exact C2|]. cbn [c_poles fst snd]. etransitivity; [exact LP|exact C3].
    + intros x d q Hx [D|D] Hd V; [discriminate|]. rewrite B1, B2 in Hx.
      assert (Hx' : kn (c_knots c) (c_deg c) <= x <= kn (c_knots c) (length (c_poles c))) by (rewrite S1, T by lia; exact Hx).
      rewrite (value_guard_eval eps) in V by (rewrite B1, B2; lra).
      assert (Hh : forall i, exists w, eval_value x (c_knots c) (add_weights_one dim (c_poles c)) (c_deg c) i = Ok w /\
                    w dim = if i =? 0 then 1 else 0).
      { intros i. destruct (le_lt_dec i (c_deg c)) as [G|G].
        - destruct (CV_eval eps _ _ _ (add_weights_one dim (c_poles c)) x i K LP ltac:(left; lia) Hx' G) as (w & W1 & W2).
          exists w. split; [exact W1|]. rewrite W2. apply CV_one; auto. intros j Hj. apply one_weight. exact Hj.
        - rewrite (eval_value_high eps) by lia. eexists. split; [reflexivity|]. destruct (Nat.eqb_spec i 0); [lia|reflexivity]. }
      assert (Hv : forall w, eval_value x (c_knots c) (add_weights_one dim (c_poles c)) (c_deg c) d = Ok w -> forall i, (i < dim)%nat -> w i = q i).
      { intros w W1 i Hi0. destruct (le_lt_dec d (c_deg c)) as [G|G].
        - destruct (CV_eval eps _ _ _ (add_weights_one dim (c_poles c)) x d K LP ltac:(left; lia) Hx' G) as (w' & W1' & W2).
          rewrite W1 in W1'. injection W1' as <-. rewrite W2.
          destruct (CV_eval eps _ _ _ (c_poles c) x d K eq_refl ltac:(left; lia) Hx' G) as (v & V1 & V2).
          rewrite V in V1. injection V1 as <-. rewrite V2. unfold CV, PS. apply sumn_ext. intros j _. rewrite one_pole by exact Hi0. reflexivity.
        - rewrite (eval_value_high eps) in V, W1 by lia. congruence. }
      destruct (rational_spec eps dim x (c_knots c) (add_weights_one dim (c_poles c)) (c_deg c)
         (fun i => val (eval_value x (c_knots c) (add_weights_one dim (c_poles c)) (c_deg c) i))) with (d := d) as (w & W1 & W2); [| |exact D|].
      * intros i _. destruct (Hh i) as (w & -> & _). reflexivity.
      * destruct (Hh 0%nat) as (w & -> & Hw). cbn [val]. rewrite Hw. cbn. lra.
      * exists w. split; [exact W1|]. intros i Hi0. rewrite (W2 i Hi0), rq_const.
        -- destruct (Hh 0%nat) as (w0 & -> & Hw0). cbn [val]. rewrite Hw0. cbn [Nat.eqb].
           destruct (Hh d) as (wd & Ed & _). rewrite Ed. cbn [val]. rewrite (Hv wd Ed i Hi0). field.
        -- intros j Hj. destruct (Hh j) as (w0 & -> & Hw0). cbn [val]. rewrite Hw0. destruct (Nat.eqb_spec j 0); [lia|reflexivity].
    + intros i Hl. apply one_weight. rewrite <- LP. exact Hl.
    + exact LP.
Qed.

(** End poles of a clamped curve object are its end values. *)
Lemma object_end c : 0 < eps -> clamped_object eps c -> (c_deg c <= 12)%nat -> exists q, eval_value (c_hi c) (c_knots c) (c_poles c) (c_deg c) 0 = Ok q /\
  forall i, q i = pole (c_poles c) i (length (c_poles c) - 1).
Proof.
  intros He (Hi & B1 & B2) Hd. destruct (info_gk eps _ _ ltac:(lra) Hi) as (K & E & S1 & Z & T & W).
  unfold info_of, knots_of, poles_of in *. cbn [fst snd] in *. rewrite B2, <- T.
  apply (eval_value_end eps); auto. left. lia.
Qed.
Lemma object_start c : 0 < eps -> clamped_object eps c -> (c_deg c <= 12)%nat -> exists q, eval_value (c_lo c) (c_knots c) (c_poles c) (c_deg c) 0 = Ok q /\
  forall i, q i = pole (c_poles c) i 0.
Proof.
  intros He (Hi & B1 & B2) Hd. destruct (info_gk eps _ _ ltac:(lra) Hi) as (K & E & S1 & Z & T & W).
  unfold info_of, knots_of, poles_of in *. cbn [fst snd] in *. rewrite B1. unfold first_knot.
  apply (eval_value_start eps _ (length (c_poles c))); auto. left. lia.
Qed.
Lemma object_bounds c : 0 < eps -> clamped_object eps c -> c_lo c < c_hi c.
Proof.
  intros He (Hi & B1 & B2). destruct (info_gk eps _ _ ltac:(lra) Hi) as (K & E & S1 & Z & T & W).
  unfold info_of, knots_of in W. cbn [fst snd] in W. lra.
Qed.

Lemma last_pole (P : list (pt R)) c : pole P c (length P - 1) = last P (fun _ => 0) c.
Proof.
  unfold pole. induction P as [|q P IH]; [reflexivity|]. destruct P as [|q' P]; [reflexivity|].
  transitivity (nth (length (q' :: P) - 1) (q' :: P) (fun _ : nat => 0) c); [|exact IH].
  cbn [length]. replace (S (S (length P)) - 1)%nat with (S (S (length P) - 1)) by lia. reflexivity.
Qed.

Lemma join_rational_ok dim r1 r2 c1 c2 : 0 < eps -> clamped_object eps c1 -> clamped_object eps c2 ->
  (1 <= max (c_deg c1) (c_deg c2) <= 12)%nat ->
  (r1 = true -> last (c_poles c1) (fun _ => 0) dim <> 0) ->
  (r2 = true -> nth 0 (c_poles c2) (fun _ => 0) dim <> 0) ->
  (exists q1 q2, curve_value eps dim r1 c1 (c_hi c1) 0 = Ok q1 /\ curve_value eps dim r2 c2 (c_lo c2) 0 = Ok q2 /\
     forall i, (i < dim)%nat -> q1 i = q2 i) ->
  exists c, join_rational dim r1 r2 c1 c2 = Ok c /\ c_deg c = max (c_deg c1) (c_deg c2) /\
    c_lo c = c_lo c1 /\ c_hi c = c_hi c1 + (c_hi c2 - c_lo c2) /\
    (forall x d q, c_lo c1 <= x < c_hi c1 \/ (x = c_hi c1 /\ d = 0%nat) -> r1 = true \/ (d <= 20)%nat ->
       curve_value eps dim r1 c1 x d = Ok q ->
       exists q', rational_value dim c x d = Ok q' /\ forall i, (i < dim)%nat -> q' i = q i) /\
    (forall x d q, c_lo c2 <= x <= c_hi c2 -> r2 = true \/ (d <= 20)%nat ->
       curve_value eps dim r2 c2 x d = Ok q ->
       exists q', rational_value dim c (x + (c_hi c1 - c_lo c2)) d = Ok q' /\ forall i, (i < dim)%nat -> q' i = q i).
Proof.
  intros He C1 C2 Hm W1 W2 HE. set (m := max (c_deg c1) (c_deg c2)) in *.
  destruct (as_rational_ok dim r1 c1 He C1) as (h1 & Y1 & H1 & Dh1 & Lh1 & Hh1 & U1 & Wt1 & Ln1).
  destruct (as_rational_ok dim r2 c2 He C2) as (h2 & Y2 & H2 & Dh2 & Lh2 & Hh2 & U2 & Wt2 & Ln2).
  unfold join_rational. rewrite Y1, Y2. cbn [bind].
  destruct (join_pair_ok eps h1 h2 He H1 H2 ltac:(lia) ltac:(lia)) as (d1 & d2 & EJ & X1 & X2).
  rewrite Dh1, Dh2 in X1, X2. fold m in X1, X2. rewrite EJ. cbn [bind].
  destruct (elevate_one eps h1 m He H1 ltac:(lia)) as (e1 & Z1 & O1 & Dg1 & Lo1 & Hi1 & V1). rewrite Dh1, X1 in Z1. injection Z1 as <-.
  destruct (elevate_one eps h2 m He H2 ltac:(lia)) as (e2 & Z2 & O2 & Dg2 & Lo2 & Hi2 & V2). rewrite Dh2, X2 in Z2. injection Z2 as <-.
  pose proof (object_bounds c1 He C1) as BB1. pose proof (object_bounds c2 He C2) as BB2.
  (* the end poles of the elevated copies *)
  destruct (object_end h1 He H1 ltac:(lia)) as (a1 & A1 & A2). destruct (object_start h2 He H2 ltac:(lia)) as (b1 & B1 & B2).
  destruct (object_end d1 He O1 ltac:(lia)) as (a2 & A3 & A4). destruct (object_start d2 He O2 ltac:(lia)) as (b2 & B3 & B4).
  assert (A5 : forall i, pole (c_poles d1) i (length (c_poles d1) - 1) = a1 i).
  { intros i. destruct (V1 (c_hi h1) 0%nat ltac:(lra)) as (q & Q1 & q' & Q2 & Q3). rewrite A1 in Q1. injection Q1 as <-.
    rewrite Hi1, Dg1, Q2 in A3. injection A3 as <-. rewrite <- A4. apply Q3. }
  assert (B5 : forall i, pole (c_poles d2) i 0 = b1 i).
  { intros i. destruct (V2 (c_lo h2) 0%nat ltac:(lra)) as (q & Q1 & q' & Q2 & Q3). rewrite B1 in Q1. injection Q1 as <-.
    rewrite Lo2, Dg2, Q2 in B3. injection B3 as <-. rewrite <- B4. apply Q3. }
  destruct O1 as (I1 & F1 & G1). destruct O2 as (I2 & F2 & G2). rewrite Dg1 in I1. rewrite Dg2 in I2.
  pose proof (info_gk eps _ _ ltac:(lra) I1) as K1. pose proof (info_gk eps _ _ ltac:(lra) I2) as K2.
  unfold info_of, knots_of, poles_of in K1, K2. cbn [fst snd] in K1, K2.
  pose proof K1 as (KK1 & E1 & S1 & Zz1 & T1 & Ww1). pose proof K2 as (KK2 & E2 & S2 & Zz2 & T2 & Ww2).
  pose proof KK1 as (_ & N1 & _). pose proof KK2 as (_ & N2 & _).
  set (P1 := c_poles d1) in *. set (P2 := c_poles d2) in *. set (k1 := c_knots d1) in *. set (k2 := c_knots d2) in *.
  assert (Nh1 : (0 < length (c_poles h1))%nat).
  { destruct H1 as (J & _). destruct (info_gk eps _ _ ltac:(lra) J) as ((_ & J1 & _) & _). unfold info_of, poles_of in J1. cbn [fst snd] in J1. lia. }
  assert (Nh2 : (0 < length (c_poles h2))%nat).
  { destruct H2 as (J & _). destruct (info_gk eps _ _ ltac:(lra) J) as ((_ & J1 & _) & _). unfold info_of, poles_of in J1. cbn [fst snd] in J1. lia. }
  assert (Wa : a1 dim <> 0).
  { rewrite A2, Wt1 by lia. destruct r1; [|lra]. rewrite Ln1, last_pole. apply W1. reflexivity. }
  assert (Wb : b1 dim <> 0).
  { rewrite B2, Wt2 by lia. destruct r2; [|lra]. apply W2. reflexivity. }
  rewrite (back_nth P1 (fun _ => 0)) by lia. rewrite (front_nth P2 (fun _ => 0)) by lia. cbn [bind].
  change (nth (length P1 - 1) P1 (fun _ => 0) dim) with (pole P1 dim (length P1 - 1)). change (nth 0 P2 (fun _ => 0) dim) with (pole P2 dim 0).
  rewrite A5, B5, !(divc_ok eps) by assumption. cbn [bind].
  set (s1 := @n1 R (NumR eps) / a1 dim). set (s2 := @n1 R (NumR eps) / b1 dim).
  assert (Hs1 : s1 = / a1 dim) by (unfold s1; nsimp; field; auto). assert (Hs2 : s2 = / b1 dim) by (unfold s2; nsimp; field; auto).
  assert (Ns1 : s1 <> 0) by (rewrite Hs1; apply Rinv_neq_0_compat, Wa). assert (Ns2 : s2 <> 0) by (rewrite Hs2; apply Rinv_neq_0_compat, Wb).
  set (Q1 := scale_poles P1 s1). set (Q2 := scale_poles P2 s2).
  assert (LQ1 : length Q1 = length P1) by (apply map_length). assert (LQ2 : length Q2 = length P2) by (apply map_length).
  rewrite (back_nth Q1 (fun _ => 0)) by lia. rewrite (front_nth Q2 (fun _ => 0)) by lia. cbn [bind].
  set (qa := nth (length Q1 - 1) Q1 (fun _ => 0)). set (qb := nth 0 Q2 (fun _ => 0)).
  assert (Ha : forall i, qa i = s1 * a1 i).
  { intros i. change (qa i) with (pole Q1 i (length Q1 - 1)). unfold Q1 at 1. rewrite scale_pole, LQ1, A5. reflexivity. }
  assert (Hb : forall i, qb i = s2 * b1 i).
  { intros i. change (qb i) with (pole Q2 i 0). unfold Q2. rewrite scale_pole, B5. reflexivity. }
  assert (Hab : forall i, (i <= dim)%nat -> qa i = qb i).
  { intros i Hi. rewrite Ha, Hb, Hs1, Hs2. destruct (Nat.eq_dec i dim) as [->|Ne]; [field; auto|].
    destruct HE as (q1 & q2 & R1 & R2 & R3).
    destruct (U1 (c_hi c1) 0%nat q1 ltac:(lra) ltac:(right; lia) ltac:(lia) R1) as (v1 & M1 & M2).
    destruct (U2 (c_lo c2) 0%nat q2 ltac:(lra) ltac:(right; lia) ltac:(lia) R2) as (v2 & M3 & M4).
    unfold eval_rational_value in M1, M3. cbn [eval_rational_rec Nat.eqb] in M1, M3.
    rewrite <- Hh1, A1 in M1. rewrite <- Lh2, B1 in M3. cbn [bind] in M1, M3. injection M1 as <-. injection M3 as <-.
    assert (Y : weight_projection dim a1 i = weight_projection dim b1 i) by (rewrite M2, M4 by lia; apply R3; lia).
    unfold weight_projection in Y. rewrite !neqb_dec in Y. nsimp.
    destruct (Req_EM_T (a1 dim) 0); [contradiction|]. destruct (Req_EM_T (b1 dim) 0); [contradiction|].
    unfold Rdiv in Y. rewrite (Rmult_comm (/ a1 dim)), (Rmult_comm (/ b1 dim)). exact Y. }
  set (PA := removelast Q1 ++ [_]).
  assert (LA : length PA = length P1) by (unfold PA; rewrite app_length, length_removelast; simpl; unfold pt in *; lia).
  assert (Hqa : qa dim = 1) by (rewrite Ha, Hs1; field; auto).
  assert (Hqb : qb dim = 1) by (rewrite <- Hab by lia; exact Hqa).
  assert (HA : forall c i, (c <= dim)%nat -> (i < length P1)%nat -> pole PA c i = pole Q1 c i).
  { intros c i Hc Hi. unfold PA, pole. destruct (Nat.eq_dec i (length P1 - 1)) as [->|Ne].
    - rewrite app_nth2 by (rewrite length_removelast; unfold pt in *; lia). rewrite length_removelast.
      replace (length P1 - 1 - (length Q1 - 1))%nat with 0%nat by (unfold pt in *; lia). cbn [nth].
      replace (nth (length P1 - 1) Q1 (fun _ => 0) c) with (qa c) by (unfold qa; rewrite LQ1; reflexivity).
      unfold add_weight, pscal, padd, weight_projection. rewrite !neqb_dec, Hqa, Hqb. nsimp.
      destruct (Req_EM_T 1 0); [lra|]. destruct (Nat.eqb_spec c dim) as [->|Nc]; [auto|]. rewrite <- (Hab c) by lia. field.
    - rewrite app_nth1 by (rewrite length_removelast; unfold pt in *; lia). rewrite nth_removelast by (unfold pt in *; lia). reflexivity. }
  assert (HJ : forall c, (c <= dim)%nat -> pole Q1 c (length P1 - 1) = pole Q2 c 0).
  { intros c Hc. rewrite <- LQ1. apply (Hab c Hc). }
  rewrite Dg1, Dg2.
  rewrite (finish_ok eps k1 k2 _ _ m PA Q1 Q2 K1 K2 ltac:(lia) LA LQ1 LQ2 (fun c => (c <= dim)%nat) HJ).
  eexists. split; [reflexivity|]. cbn [c_deg c_lo c_hi]. split; [reflexivity|]. split; [congruence|].
  split; [rewrite <- F2, <- G2, <- G1, Hi1, Lo2, Hi2, Hh1, Lh2, Hh2; ring|].
  split.
  - intros x d q Hx Hd Eq.
    assert (Hx' : c_lo c1 <= x <= c_hi c1) by lra.
    destruct (U1 x d q Hx' Hd ltac:(lia) Eq) as (q1 & M1 & M2).
    destruct (rec_scaled dim s1 x (c_knots h1) (c_poles h1) (c_deg h1) x (joined k1 k2 (length P1) m) (PA ++ tl Q2) m Ns1 (S d) d) with (2 := M1) as (q2 & M3 & M4).
    + intros i Hi. destruct (V1 x i ltac:(lra)) as (v & J1 & v' & J2 & J3).
      destruct (scale_eval k1 _ m P1 s1 x i KK1 eq_refl ltac:(left; lia)) as (w & w' & J4 & J5 & J6).
      { rewrite S1, T1 by lia. fold (first_knot k1). rewrite <- F1, <- G1, Lo1, Hi1, Lh1, Hh1. exact Hx'. }
      fold k1 P1 in J2. rewrite J2 in J4. injection J4 as <-.
      destruct (finish_first eps k1 k2 _ _ m PA Q1 Q2 K1 K2 ltac:(lia) LA LQ1 LQ2 (fun c => (c <= dim)%nat) HA HJ x i) as (y & y' & J7 & J8 & J9).
      { rewrite <- F1, <- G1, Lo1, Hi1, Lh1, Hh1. destruct Hx as [Hx|(Hx & Hd0)]; [left; exact Hx|right; split; [exact Hx|lia]]. }
      fold Q1 in J5. rewrite J5 in J7. injection J7 as <-. exists v, y'. split; [exact J1|]. split; [exact J8|].
      intros c Hc. rewrite (J9 c Hc), J6, J3. reflexivity.
    + exists q2. split; [|intros i Hi; rewrite M4, M2 by exact Hi; reflexivity].
      unfold rational_value. match goal with |- context [out_of_bounds ?cc ?xx] => destruct (oob_spec eps cc xx) as [Ho|_]; [exfalso; revert Ho|exact M3] end. cbn [c_lo c_hi].
      rewrite <- F1, <- G1, <- F2, <- G2, Lo1, Hi1, Lo2, Hi2, Lh1, Hh1, Lh2, Hh2. lra.
  - intros x d q Hx Hd Eq.
    destruct (U2 x d q Hx Hd ltac:(lia) Eq) as (q1 & M1 & M2).
    destruct (rec_scaled dim s2 x (c_knots h2) (c_poles h2) (c_deg h2) (x + (last_knot k1 - first_knot k2)) (joined k1 k2 (length P1) m) (PA ++ tl Q2) m Ns2 (S d) d) with (2 := M1) as (q2 & M3 & M4).
    + intros i Hi. destruct (V2 x i ltac:(lra)) as (v & J1 & v' & J2 & J3).
      destruct (scale_eval k2 _ m P2 s2 x i KK2 eq_refl ltac:(left; lia)) as (w & w' & J4 & J5 & J6).
      { rewrite S2, T2 by lia. fold (first_knot k2). rewrite <- F2, <- G2, Lo2, Hi2, Lh2, Hh2. exact Hx. }
      fold k2 P2 in J2. rewrite J2 in J4. injection J4 as <-.
      destruct (finish_second eps k1 k2 _ _ m PA Q1 Q2 K1 K2 ltac:(lia) LA LQ1 LQ2 (fun c => (c <= dim)%nat) HA HJ x i) as (y & y' & J7 & J8 & J9).
      { rewrite <- F2, <- G2, Lo2, Hi2, Lh2, Hh2. exact Hx. }
      fold Q2 in J5. rewrite J5 in J7. injection J7 as <-. exists v, y'. split; [exact J1|]. split; [exact J8|].
      intros c Hc. rewrite (J9 c Hc), J6, J3. reflexivity.
    + exists q2. split; [|intros i Hi; rewrite M4, M2 by exact Hi; reflexivity].
      replace (c_hi c1 - c_lo c2) with (last_knot k1 - first_knot k2) by (rewrite <- G1, <- F2, Hi1, Lo2, Hh1, Lh2; reflexivity).
      unfold rational_value. match goal with |- context [out_of_bounds ?cc ?xx] => destruct (oob_spec eps cc xx) as [Ho|_]; [exfalso; revert Ho|exact M3] end. cbn [c_lo c_hi].
      rewrite <- F1, <- G1, <- F2, <- G2, Lo1, Hi1, Lo2, Hi2, Lh1, Hh1, Lh2, Hh2. lra.
Qed.
End AtR.
