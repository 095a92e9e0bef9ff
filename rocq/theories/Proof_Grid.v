(** Transposition of pole grids. *)
From Coq Require Import List Arith ZArith Reals Lia Lra Bool.
From Verif Require Import Model_Base Model_Basis Model_Knots Model_Rational Model_Curve Model_Surface Spec_Base Spec_Basis Spec_Eval
  Spec_Surface Proof_Base.
Import ListNotations.
Local Open Scope nat_scope.

Lemma scatter {A} (pos : nat -> nat -> nat) (f : nat -> nat -> A) d N M body t0 :
  (forall i j i' j', i < N -> j < M -> i' < N -> j' < M -> pos i j = pos i' j' -> i = i' /\ j = j') ->
  (forall i j, i < N -> j < M -> pos i j < length t0) ->
  (forall i j t, i < N -> j < M -> length t = length t0 -> body i j t = Ok (upd t (pos i j) (f i j))) ->
  exists t', for_ 0 N (fun i t => for_ 0 M (body i) t) t0 = Ok t' /\ length t' = length t0 /\
    forall i j, i < N -> j < M -> nth (pos i j) t' d = f i j.
Proof.
  intros Hinj Hpos Hb.
  destruct (for_inv (fun i t => length t = length t0 /\ forall i' j', i' < i -> i' < N -> j' < M -> nth (pos i' j') t d = f i' j')
    (fun i t => for_ 0 M (body i) t) 0 N t0) as (t' & E & L & V).
  - split; [reflexivity|]. intros; lia.
  - intros i t Hi (L & V).
    destruct (for_inv (fun j t => length t = length t0 /\ forall i' j', i' < N -> j' < M -> (i' < i \/ i' = i /\ j' < j) ->
      nth (pos i' j') t d = f i' j') (body i) 0 M t) as (t1 & E1 & L1 & V1).
    + split; [exact L|]. intros; apply V; lia.
    + intros j t1 Hj (L1 & V1). rewrite Hb by lia. eexists; split; [reflexivity|].
      rewrite upd_length. split; [exact L1|]. intros i' j' Hi' Hj' Hlt. rewrite nth_upd.
      destruct (Nat.eqb_spec (pos i j) (pos i' j')) as [E|E]; cbn [andb].
      * destruct (Hinj i j i' j') as [-> ->]; try lia; auto.
        rewrite L1. specialize (Hpos i' j' Hi' Hj'). apply Nat.ltb_lt in Hpos. rewrite Hpos. reflexivity.
      * apply V1; auto. destruct (Nat.eq_dec i' i) as [->|], (Nat.eq_dec j' j) as [->|]; solve [lia | congruence].
    + exists t1. split; [exact E1|]. split; [exact L1|]. intros; apply V1; lia.
  - exists t'. split; [exact E|]. split; [exact L|]. intros; apply V; lia.
Qed.

(** inverted_uv_poles on an n x m grid. *)
Lemma inverted_spec {A} (zero d : A) (P : list A) n m : 1 <= m -> length P = n * m ->
  exists T, inverted_uv_poles zero P m = Ok T /\ length T = n * m /\
    forall i j, i < n -> j < m -> nth (j + m * i) T d = nth (i + n * j) P d.
Proof.
  intros Hm HP. unfold inverted_uv_poles. destruct (Nat.eqb_spec m 0); [lia|].
  rewrite HP, Nat.div_mul by lia.
  destruct (scatter (fun i j => i + m * j) (fun i j => nth (j + n * i) P d) d m n
    (fun i j t => let* x := get P (j + n * i) in set t (i + m * j) x) (filled (n * m) zero)) as (T & E & L & V).
  - intros. assert (j = j') by nia. subst. lia.
  - intros. rewrite filled_length. nia.
  - intros i j t Hi Hj L. rewrite filled_length in L. rewrite (get_nth P _ d) by nia. cbn [bind].
    apply set_ok. nia.
  - exists T. split; [exact E|]. rewrite filled_length in L. split; [exact L|]. intros i j Hi Hj. apply (V j i Hj Hi).
Qed.

Lemma list_ext_nth {A} (a b : list A) d : length a = length b -> (forall i, i < length a -> nth i a d = nth i b d) -> a = b.
Proof. intros H1 H2. apply (nth_ext a b d d); auto. Qed.

Lemma grid_ext {A} (P Q : list A) d n m : length P = n * m -> length Q = n * m ->
  (forall i j, i < n -> j < m -> nth (i + n * j) P d = nth (i + n * j) Q d) -> P = Q.
Proof.
  intros LP LQ H. apply (list_ext_nth _ _ d); [lia|]. intros x Hx.
  assert (Hn : n <> 0) by nia.
  rewrite (Nat.div_mod x n Hn). rewrite Nat.add_comm. apply H; [apply Nat.mod_upper_bound; exact Hn|].
  apply Nat.div_lt_upper_bound; lia.
Qed.

Lemma inverted_twice {A} (zero : A) (P T : list A) n m : 1 <= m -> 1 <= n -> length P = n * m ->
  inverted_uv_poles zero P m = Ok T -> inverted_uv_poles zero T n = Ok P.
Proof.
  intros Hm Hn HP HT. destruct (inverted_spec zero zero P n m Hm HP) as (T' & E & L & V).
  rewrite HT in E. injection E as <-.
  destruct (inverted_spec zero zero T m n Hn ltac:(lia)) as (P' & E' & L' & V').
  rewrite E'. f_equal. apply (grid_ext _ _ zero n m); [lia|exact HP|].
  intros i j Hi Hj. rewrite V' by auto. apply V; auto.
Qed.

(** ** Lists of rows *)
Lemma rect_nth {A} (g : list (list A)) a b j : rectangular g a b -> j < a -> length (nth j g []) = b.
Proof. intros [L H] Hj. apply H, nth_In. lia. Qed.

Lemma rect_upd {A} (g : list (list A)) a b j r : rectangular g a b -> length r = b -> rectangular (upd g j r) a b.
Proof.
  intros [L H] Hr. split; [rewrite upd_length; exact L|]. intros x Hx.
  apply In_nth with (d := []) in Hx. destruct Hx as (i & Hi & <-). rewrite nth_upd.
  destruct ((j =? i) && (j <? length g)); [exact Hr|]. apply H, nth_In. rewrite upd_length in Hi. exact Hi.
Qed.

Lemma write2_ok {A} (d : A) g a b j i x : rectangular g a b -> j < a -> i < b ->
  exists g', write2 g j i x = Ok g' /\ rectangular g' a b /\
    forall j' i', at2 d g' j' i' = if (j =? j') && (i =? i') then x else at2 d g j' i'.
Proof.
  intros Hr Hj Hi. unfold write2. pose proof (rect_nth g a b j Hr Hj) as Lr. pose proof Hr as [L _].
  rewrite (get_nth g j []) by lia. cbn [bind]. rewrite set_ok by lia. cbn [bind]. rewrite set_ok by lia.
  eexists; split; [reflexivity|]. split; [apply rect_upd; [exact Hr|rewrite upd_length; exact Lr]|].
  intros j' i'. unfold at2. rewrite nth_upd.
  assert (J : (j <? length g) = true) by (apply Nat.ltb_lt; lia). rewrite J, andb_true_r.
  destruct (Nat.eqb_spec j j') as [<-|]; cbn [andb]; [|reflexivity].
  rewrite nth_upd. assert (I : (i <? length (nth j g [])) = true) by (apply Nat.ltb_lt; lia). rewrite I, andb_true_r. reflexivity.
Qed.

Lemma rect_filled {A} (z : A) a b : rectangular (filled a (filled b z)) a b.
Proof.
  split; [apply filled_length|]. intros r Hr. apply repeat_spec in Hr. subst. apply filled_length.
Qed.

Lemma rect_ext {A} (d : A) g h a b : rectangular g a b -> rectangular h a b ->
  (forall j i, j < a -> i < b -> at2 d g j i = at2 d h j i) -> g = h.
Proof.
  intros Hg Hh H. apply (list_ext_nth _ _ []); [destruct Hg, Hh; lia|]. intros j Hj.
  assert (j < a) by (destruct Hg; lia).
  apply (list_ext_nth _ _ d); [rewrite (rect_nth g a b), (rect_nth h a b); auto|].
  intros i Hi. rewrite (rect_nth g a b) in Hi by auto. apply H; auto.
Qed.

(** The part [r1, r2) x [c1, c2) of the transposition. *)
Lemma block_fill {A} (d : A) P nu nv r1 c1 a b g : rectangular P nu nv -> rectangular g nv nu ->
  r1 + a <= nu -> c1 + b <= nv ->
  exists g', for_ r1 a (fun i g => for_ c1 b (fun j g =>
      let* row := get P i in let* x := get row j in write2 g j i x) g) g = Ok g' /\ rectangular g' nv nu /\
    forall j i, j < nv -> i < nu -> at2 d g' j i =
      if (r1 <=? i) && (i <? r1 + a) && (c1 <=? j) && (j <? c1 + b) then at2 d P i j else at2 d g j i.
Proof.
  intros HP Hg Ha Hb.
  destruct (for_inv (fun t g' => rectangular g' nv nu /\ forall j i, j < nv -> i < nu -> at2 d g' j i =
      if (r1 <=? i) && (i <? t) && (c1 <=? j) && (j <? c1 + b) then at2 d P i j else at2 d g j i)
    (fun i g => for_ c1 b (fun j g => let* row := get P i in let* x := get row j in write2 g j i x) g) r1 a g) as (g' & E & R & V).
  - split; [exact Hg|]. intros j i Hj Hi. destruct (Nat.leb_spec r1 i), (Nat.ltb_spec i r1); cbn [andb]; auto; lia.
  - intros t g1 Ht (R1 & V1).
    destruct (for_inv (fun s g' => rectangular g' nv nu /\ forall j i, j < nv -> i < nu -> at2 d g' j i =
        if (t =? i) && (c1 <=? j) && (j <? s) then at2 d P i j else at2 d g1 j i)
      (fun j g => let* row := get P t in let* x := get row j in write2 g j t x) c1 b g1) as (g2 & E2 & R2 & V2).
    + split; [exact R1|]. intros j i Hj Hi. destruct (Nat.leb_spec c1 j), (Nat.ltb_spec j c1); cbn [andb]; rewrite ?andb_false_r; auto; lia.
    + intros s g2 Hs (R2 & V2). pose proof HP as [LP _].
      rewrite (get_nth P t []) by lia. cbn [bind].
      rewrite (get_nth (nth t P []) s d) by (rewrite (rect_nth P nu nv t HP); lia). cbn [bind].
      destruct (write2_ok d g2 nv nu s t (nth s (nth t P []) d) R2 ltac:(lia) ltac:(lia)) as (g3 & E3 & R3 & V3).
      exists g3. split; [exact E3|]. split; [exact R3|]. intros j i Hj Hi. rewrite V3, V2 by auto.
      destruct (Nat.eqb_spec s j) as [<-|], (Nat.eqb_spec t i) as [<-|]; cbn [andb]; auto.
      * destruct (Nat.leb_spec c1 s), (Nat.ltb_spec s (S s)); cbn [andb]; auto; lia.
      * destruct (Nat.leb_spec c1 j), (Nat.ltb_spec j s), (Nat.ltb_spec j (S s)); cbn [andb]; auto; lia.
    + exists g2. split; [exact E2|]. split; [exact R2|]. intros j i Hj Hi. rewrite V2, V1 by auto.
      destruct (Nat.eqb_spec t i), (Nat.leb_spec c1 j), (Nat.ltb_spec j (c1 + b)), (Nat.leb_spec r1 i),
        (Nat.ltb_spec i t), (Nat.ltb_spec i (S t)); cbn [andb]; auto; lia.
  - exists g'. auto.
Qed.

Lemma transpose_spec {A} (z : A) P nu nv : rectangular P nu nv -> 1 <= nu ->
  exists g, transpose_poles z P = Ok g /\ rectangular g nv nu /\
    forall j i, j < nv -> i < nu -> at2 z g j i = at2 z P i j.
Proof.
  intros HP Hnu. destruct P as [|r0 P]; [destruct HP as [L _]; simpl in L; lia|].
  unfold transpose_poles.
  assert (L0 : length r0 = nv) by (apply HP; left; reflexivity).
  assert (LP : length (r0 :: P) = nu) by apply HP. rewrite L0, LP.
  destruct (block_fill z (r0 :: P) nu nv 0 0 nu nv (filled nv (filled nu z)) HP (rect_filled z nv nu) ltac:(lia) ltac:(lia))
    as (g & E & R & V).
  exists g. split; [exact E|]. split; [exact R|]. intros j i Hj Hi. rewrite V by auto.
  destruct (Nat.leb_spec 0 i), (Nat.ltb_spec i (0 + nu)), (Nat.leb_spec 0 j), (Nat.ltb_spec j (0 + nv)); cbn [andb]; auto; lia.
Qed.

Lemma transpose_twice {A} (z : A) P nu nv g : rectangular P nu nv -> 1 <= nu -> 1 <= nv ->
  transpose_poles z P = Ok g -> transpose_poles z g = Ok P.
Proof.
  intros HP Hu Hv E. destruct (transpose_spec z P nu nv HP Hu) as (g' & E' & R & V). rewrite E in E'. injection E' as <-.
  destruct (transpose_spec z g nv nu R Hv) as (h & Eh & Rh & Vh). rewrite Eh. f_equal.
  apply (rect_ext z h P nu nv Rh HP). intros j i Hj Hi. rewrite Vh by auto. apply V; auto.
Qed.

Lemma for_step_inv {S : Type} (I : nat -> S -> Prop) n bs body : 1 <= bs ->
  (forall i st, i < n -> I i st -> exists st', body i st = Ok st' /\ I (i + bs) st') ->
  forall fuel i st, n <= i + fuel -> I i st -> exists st' i', for_step fuel i n bs body st = Ok st' /\ n <= i' /\ I i' st'.
Proof.
  intros Hbs Hb. induction fuel as [|fuel IH]; intros i st Hf HI; cbn [for_step].
  - destruct (Nat.leb_spec n i); [eauto|lia].
  - destruct (Nat.leb_spec n i); [eauto|].
    destruct (Hb i st ltac:(lia) HI) as (st' & E & HI'). rewrite E. cbn [bind]. apply IH; [lia|exact HI'].
Qed.

Lemma blocked_spec {A} (z : A) P nu nv bs : rectangular P nu nv -> 1 <= nu -> 1 <= bs ->
  transpose_poles_blocked z P bs = transpose_poles z P.
Proof.
  intros HP Hnu Hbs. destruct (transpose_spec z P nu nv HP Hnu) as (g & E & R & V). rewrite E.
  unfold transpose_poles_blocked.
  assert (LP : length P = nu) by apply HP.
  assert (L0 : length (nth 0 P []) = nv) by (apply (rect_nth P nu nv 0 HP); lia).
  rewrite (get_nth P 0 []) by lia. cbn [bind]. rewrite L0, LP.
  destruct (for_step_inv (fun bi g => rectangular g nv nu /\ forall j i, j < nv -> i < nu -> i < bi -> at2 z g j i = at2 z P i j)
    nu bs (fun i g => for_step nv 0 nv bs (fun j g => transpose_block P i j bs g) g) Hbs) with (fuel := nu) (i := 0)
    (st := filled nv (filled nu z)) as (h & i' & Eh & Hi' & Rh & Vh).
  - intros bi g1 Hbi (R1 & V1).
    destruct (for_step_inv (fun bj g => rectangular g nv nu /\ forall j i, j < nv -> i < nu ->
        (i < bi \/ i < bi + bs /\ j < bj) -> at2 z g j i = at2 z P i j)
      nv bs (fun j g => transpose_block P bi j bs g) Hbs) with (fuel := nv) (i := 0) (st := g1) as (h & j' & Eh & Hj' & Rh & Vh).
    + intros bj g2 Hbj (R2 & V2). unfold transpose_block. rewrite (get_nth P 0 []) by lia. cbn [bind]. rewrite L0, LP.
      destruct (block_fill z P nu nv bi bj (min (bi + bs) nu - bi) (min (bj + bs) nv - bj) g2 HP R2 ltac:(lia) ltac:(lia))
        as (g3 & E3 & R3 & V3).
      exists g3. split; [exact E3|]. split; [exact R3|]. intros j i Hj Hi Hc. rewrite V3 by auto.
      destruct (Nat.leb_spec bi i), (Nat.ltb_spec i (bi + (min (bi + bs) nu - bi))), (Nat.leb_spec bj j),
        (Nat.ltb_spec j (bj + (min (bj + bs) nv - bj))); cbn [andb]; auto; apply V2; auto; lia.
    + lia.
    + split; [exact R1|]. intros; apply V1; auto; lia.
    + exists h. split; [exact Eh|]. split; [exact Rh|]. intros j i Hj Hi Hc. apply Vh; auto. lia.
  - lia.
  - split; [apply rect_filled|]. intros; lia.
  - rewrite Eh. f_equal. apply (rect_ext z h g nv nu Rh R). intros j i Hj Hi. rewrite Vh, V by (auto; lia). reflexivity.
Qed.

Lemma blocked_zero {A} (z : A) P nu nv : rectangular P nu nv -> 1 <= nu -> 1 <= nv -> transpose_poles_blocked z P 0 = Fuel.
Proof.
  intros HP Hu Hv. unfold transpose_poles_blocked. assert (LP : length P = nu) by apply HP.
  assert (L0 : length (nth 0 P []) = nv) by (apply (rect_nth P nu nv 0 HP); lia).
  rewrite (get_nth P 0 []) by lia. cbn [bind]. rewrite L0, LP.
  assert (G : forall f (g : list (list A)), for_step f 0 nv 0 (fun j g => transpose_block P 0 j 0 g) g = Fuel).
  { induction f as [|f IH]; intros g; cbn [for_step].
    - destruct (Nat.leb_spec nv 0); [lia|reflexivity].
    - destruct (Nat.leb_spec nv 0); [lia|]. unfold transpose_block at 1. rewrite (get_nth P 0 []) by lia. cbn [bind].
      rewrite L0, LP. cbn [Nat.add]. rewrite !Nat.min_0_l. cbn [Nat.sub for_ bind]. apply IH. }
  destruct nu as [|f]; [lia|]. cbn [for_step]. destruct (Nat.leb_spec (S f) 0); [lia|]. rewrite G. reflexivity.
Qed.
