(** Editing surfaces row by row, exchange of U and V, iso-parametric curves. *)
From Coq Require Import List Arith ZArith Reals Lia Lra Bool.
From Verif Require Import Model_Base Model_Basis Model_Knots Model_Rational Model_Curve Model_Surface Spec_Base Spec_Basis Spec_Eval
  Spec_Curve Spec_Class Spec_Surface Proof_Base Proof_Blossom Proof_Basis Proof_Ders Proof_Eval Proof_PropBasis Proof_Refine
  Proof_Insert Proof_Boehm Proof_Unique Proof_PropInsert Proof_Trim Proof_PropRemove2 Proof_Ctor Proof_Curve Proof_PropCurve
  Proof_Surface Proof_Grid.
Import ListNotations.
Local Open Scope R_scope.

Definition rows {A} (F : nat -> list A) (m : nat) : list A := concat (map F (seq 0 m)).
Lemma rows_S {A} (F : nat -> list A) m : rows F (S m) = rows F m ++ F m.
Proof. unfold rows. rewrite seq_S, map_app, concat_app. cbn [map concat]. rewrite app_nil_r. reflexivity. Qed.
Lemma rows_length {A} (F : nat -> list A) n m : (forall j, (j < m)%nat -> length (F j) = n) -> length (rows F m) = (n * m)%nat.
Proof.
  induction m as [|m IH]; intros H; [simpl; lia|]. rewrite rows_S, app_length, IH, H by auto. lia.
Qed.
Lemma nth_rows {A} (F : nat -> list A) n m d : (forall j, (j < m)%nat -> length (F j) = n) ->
  forall i j, (i < n)%nat -> (j < m)%nat -> nth (i + n * j) (rows F m) d = nth i (F j) d.
Proof.
  induction m as [|m IH]; intros H i j Hi Hj; [lia|]. rewrite rows_S.
  assert (L : length (rows F m) = (n * m)%nat) by (apply rows_length; auto).
  destruct (Nat.eq_dec j m) as [->|].
  - rewrite app_nth2 by nia. rewrite L. f_equal. lia.
  - rewrite app_nth1 by nia. apply IH; auto; lia.
Qed.
Lemma row_rows (F : nat -> list (pt R)) n m j : (forall j, (j < m)%nat -> length (F j) = n) -> (j < m)%nat ->
  row (rows F m) n j = F j.
Proof.
  intros H Hj. apply (list_ext_nth _ _ (fun _ => 0)); [rewrite row_length, H; auto|].
  intros i Hi. rewrite row_length in Hi. unfold row. rewrite nth_map_seq by auto. apply nth_rows; auto.
Qed.
Lemma rows_row (P : list (pt R)) n m : length P = (n * m)%nat -> rows (row P n) m = P.
Proof.
  intros L. apply (grid_ext _ _ (fun _ => 0) n m); auto.
  - apply rows_length. intros. apply row_length.
  - intros i j Hi Hj. rewrite (nth_rows _ n m) by (auto; intros; apply row_length).
    unfold row. rewrite nth_map_seq by auto. reflexivity.
Qed.
Lemma nth_firstn_lt {A} (d : A) : forall n l i, (i < n)%nat -> nth i (firstn n l) d = nth i l d.
Proof. induction n; destruct l, i; simpl; intros; auto; try lia. apply IHn; lia. Qed.
Lemma nth_skipn_off {A} (d : A) : forall n l i, nth i (skipn n l) d = nth (n + i) l d.
Proof. induction n; destruct l; simpl; intros; auto. destruct i; reflexivity. Qed.
Lemma row_slice (P : list (pt R)) n m j : length P = (n * m)%nat -> (j < m)%nat -> slice P j n = Ok (row P n j).
Proof.
  intros L Hj. assert (B : (S j * n <= m * n)%nat) by (apply Nat.mul_le_mono_r; lia).
  unfold slice. destruct (Nat.leb_spec (j * n + n) (length P)); [|exfalso; rewrite L in *; cbn [Nat.mul] in B; lia].
  f_equal. apply (list_ext_nth _ _ (fun _ => 0)).
  - rewrite row_length, firstn_length, skipn_length. apply Nat.min_l. lia.
  - intros i Hi. rewrite firstn_length, skipn_length in Hi.
    rewrite nth_firstn_lt by lia. rewrite nth_skipn_off. unfold row. rewrite nth_map_seq by lia. replace (j * n + i)%nat with (i + n * j)%nat by lia. reflexivity.
Qed.

Section AtR.
Variable eps : R.
Local Hint Extern 0 (Num R) => exact (NumR eps) : typeclass_instances.

(** ** Objects *)
Lemma nPolesU_ok (s : surf R) : surface_ok s -> nPolesU s = Ok (s_nU s).
Proof. intros ((L & _) & _). apply npoles_ok. exact L. Qed.
Lemma nPolesV_ok (s : surf R) : surface_ok s -> nPolesV s = Ok (s_nV s).
Proof. intros (_ & (L & _) & _). apply npoles_ok. exact L. Qed.

Lemma knots_span (k : list R) n p x : knots_ok k n p -> kn k p <= x <= kn k n -> kn k 0 <= x <= kn k (n + p).
Proof.
  intros (L & Hp & Hnd & _) Hx. pose proof (Hnd 0%nat p ltac:(lia) ltac:(lia)). pose proof (Hnd n (n + p)%nat ltac:(lia) ltac:(lia)). lra.
Qed.

Lemma surf_value_in (s : surf R) u v du dv : 0 <= eps -> surface_ok s -> natural_surface s -> in_surface s u v ->
  surf_value s u v du dv = surf_eval u v (s_ku s) (s_kv s) (s_poles s) (s_degU s) (s_degV s) du dv.
Proof.
  intros He (Hku & Hkv & _) (N1 & N2 & N3 & N4) [Hu Hv]. unfold surf_value, out_u, out_v. nsimp. cbn [neps NumR].
  pose proof (knots_span _ _ _ _ Hku Hu). pose proof (knots_span _ _ _ _ Hkv Hv). rewrite N1, N2, N3, N4.
  destruct (Rltb_spec u (kn (s_ku s) 0 - eps)); [lra|]. destruct (Rltb_spec (kn (s_ku s) (s_nU s + s_degU s) + eps) u); [lra|].
  destruct (Rltb_spec v (kn (s_kv s) 0 - eps)); [lra|]. destruct (Rltb_spec (kn (s_kv s) (s_nV s + s_degV s) + eps) v); [lra|].
  reflexivity.
Qed.

Lemma polesU_ok (s : surf R) j : surface_ok s -> (j < s_nV s)%nat ->
  polesU s j = Ok (row (s_poles s) (s_nU s) j).
Proof.
  intros Hok Hj. unfold polesU. rewrite nPolesU_ok, nPolesV_ok by auto. cbn [bind].
  destruct (Nat.ltb_spec j (s_nV s)); [|lia]. destruct Hok as (_ & _ & L).
  apply mapM_ok. intros i Hi. apply in_seq in Hi.
  replace (j * s_nU s + i)%nat with (i + s_nU s * j)%nat by lia. apply get_nth. rewrite L. nia.
Qed.
Lemma polesV_ok (s : surf R) i : surface_ok s -> (i < s_nU s)%nat ->
  polesV s i = Ok (col (s_poles s) (s_nU s) (s_nV s) i).
Proof.
  intros Hok Hi. unfold polesV. rewrite nPolesU_ok, nPolesV_ok by auto. cbn [bind]. destruct Hok as (_ & _ & L).
  apply mapM_ok. intros j Hj. apply in_seq in Hj.
  replace (i + j * s_nU s)%nat with (i + s_nU s * j)%nat by lia. apply get_nth. rewrite L. nia.
Qed.

(** ** Transfer of values along rows *)
Lemma PS_scal k p l d P a u : PS k p l d (fun j => a * P j) u = a * PS k p l d P u.
Proof. unfold PS. rewrite <- sumn_scal. apply sumn_ext. intros; ring. Qed.

Lemma row_transfer ku n ku' n' p kv m q P P' u u' du dv v a :
  grid_ok ku n p kv m q P -> grid_ok ku' n' p kv m q P' ->
  evaluable2 eps ku n p kv m q -> evaluable2 eps ku' n' p kv m q ->
  kn ku p <= u <= kn ku n -> kn ku' p <= u' <= kn ku' n' -> kn kv q <= v <= kn kv m ->
  (forall j c, (j < m)%nat ->
     val (eval_value u' ku' (row P' n' j) p du) c = a * val (eval_value u ku (row P n j) p du) c) ->
  exists z z', surf_eval u v ku kv P p q du dv = Ok z /\ surf_eval u' v ku' kv P' p q du dv = Ok z' /\
    forall c, z' c = a * z c.
Proof.
  intros Hg Hg' He He' Hu Hu' Hv H.
  destruct (surf_total eps ku kv n m p q P Hg He u v du dv (conj Hu Hv)) as (z & E).
  destruct (surf_total eps ku' kv n' m p q P' Hg' He' u' v du dv (conj Hu' Hv)) as (z' & E').
  exists z, z'. split; [exact E|]. split; [exact E'|]. intros c. pose proof Hg as (_ & Hkv & _).
  destruct (span_pack eps kv m q v Hkv Hv) as (l2 & _ & Hl2 & Hs2 & _).
  pose proof (surf_rows eps ku kv n m p q P Hg He u v du dv c l2 Hu Hl2 Hs2) as A. unfold SVal in A. rewrite E in A. cbn [val] in A.
  pose proof (surf_rows eps ku' kv n' m p q P' Hg' He' u' v du dv c l2 Hu' Hl2 Hs2) as A'. unfold SVal in A'. rewrite E' in A'. cbn [val] in A'.
  rewrite A, A'. destruct (Nat.leb_spec dv q); [|ring]. rewrite <- PS_scal. apply PS_ext. intros j Hj. apply H. lia.
Qed.

(** Rows replaced: the surface s' has the rows F j. *)
Lemma rows_surface (s : surf R) (F : nat -> list (pt R)) k n' u1 u2 :
  surface_ok s -> knots_ok k n' (s_degU s) -> (forall j, (j < s_nV s)%nat -> length (F j) = n') ->
  let s' := with_u s (rows F (s_nV s)) k u1 u2 in
  surface_ok s' /\ s_nU s' = n' /\ s_nV s' = s_nV s /\ forall j, (j < s_nV s)%nat -> row (s_poles s') n' j = F j.
Proof.
  intros Hok Hk HF s'. assert (N : s_nU s' = n') by (destruct Hk as (L & _); unfold s_nU; simpl; rewrite L; lia).
  split; [|split; [exact N|split; [reflexivity|]]].
  - destruct Hok as (_ & Hv & _). split; [rewrite N; exact Hk|]. split; [exact Hv|].
    rewrite N. cbn. apply rows_length. exact HF.
  - intros j Hj. cbn. apply row_rows; auto.
Qed.

(** ** insertKnotU *)
Lemma insert_shape (k : list R) (u : R) p r (P Q : list (pt R)) i1 k1 P1 i2 k2 P2 : length P = length Q ->
  insert_knots u p r k P = Ok (i1, k1, P1) -> insert_knots u p r k Q = Ok (i2, k2, P2) -> i1 = i2 /\ k1 = k2.
Proof.
  intros L. unfold insert_knots. rewrite <- L. destruct (subi (length P) 1) as [np| | |]; cbn [bind]; try congruence.
  destruct (p <=? _)%nat. { intros A B; injection A; injection B; intros; subst; auto. }
  destruct (subi (upper_bound k u) 1) as [m| | |]; cbn [bind]; try congruence.
  destruct (insert_knots_UQ _ _ _ _ k) as [UQ| | |]; cbn [bind]; try congruence.
  destruct (subi m p); cbn [bind]; try congruence.
  intros A B.
  repeat match type of A with bind ?x _ = _ => destruct x as [?| | |]; cbn [bind] in A; try congruence end.
  repeat match type of B with bind ?x _ = _ => destruct x as [?| | |]; cbn [bind] in B; try congruence end.
  repeat match goal with H : (let (_, _) := ?x in _) = _ |- _ => destruct x end.
  repeat match type of A with bind ?x _ = _ => destruct x as [?| | |]; cbn [bind] in A; try congruence end.
  repeat match type of B with bind ?x _ = _ => destruct x as [?| | |]; cbn [bind] in B; try congruence end.
  split; congruence.
Qed.

Definition insF (s : surf R) u r j : list (pt R) :=
  match insert_knots u (s_degU s) r (s_ku s) (row (s_poles s) (s_nU s) j) with Ok (_, _, Q) => Q | _ => [] end.

Lemma insertU_ok (s : surf R) u r : surface_ok s -> kn (s_ku s) (s_degU s) <= u < kn (s_ku s) (s_nU s) -> (1 <= r)%nat ->
  exists idx k1 n1, insertKnotU s u r = Ok (idx, with_u s (rows (insF s u r) (s_nV s)) k1 (s_u1 s) (s_u2 s)) /\
    knots_ok k1 n1 (s_degU s) /\
    kn k1 (s_degU s) = kn (s_ku s) (s_degU s) /\ kn k1 n1 = kn (s_ku s) (s_nU s) /\
    kn k1 0 = kn (s_ku s) 0 /\ kn k1 (n1 + s_degU s) = kn (s_ku s) (s_nU s + s_degU s) /\
    count_occ Req_EM_T k1 u = max (count_occ Req_EM_T (s_ku s) u) (min (s_degU s) (count_occ Req_EM_T (s_ku s) u + r)) /\
    (forall x, x <> u -> count_occ Req_EM_T k1 x = count_occ Req_EM_T (s_ku s) x) /\
    (forall j, (j < s_nV s)%nat ->
       insert_knots u (s_degU s) r (s_ku s) (row (s_poles s) (s_nU s) j) = Ok (idx, k1, insF s u r j) /\
       length (insF s u r j) = n1 /\
       forall x d c, kn (s_ku s) (s_degU s) <= x <= kn (s_ku s) (s_nU s) -> (d <= s_degU s)%nat ->
         CV k1 n1 (s_degU s) d (pole (insF s u r j) c) x = CV (s_ku s) (s_nU s) (s_degU s) d (pole (row (s_poles s) (s_nU s) j) c) x).
Proof.
  intros Hok Hu Hr. pose proof Hok as (Hku & Hkv & L).
  destruct (insert_any eps (s_ku s) (s_nU s) (s_degU s) u r (row (s_poles s) (s_nU s) 0) Hku (row_length _ _ _) Hu Hr)
    as (idx & k1 & P1 & n1 & E & K1 & LP1 & _ & A1 & A2 & A3 & A4 & A5 & A6 & _ & A7).
  assert (J : forall j, insert_knots u (s_degU s) r (s_ku s) (row (s_poles s) (s_nU s) j) = Ok (idx, k1, insF s u r j) /\
       length (insF s u r j) = n1 /\
       forall x d c, kn (s_ku s) (s_degU s) <= x <= kn (s_ku s) (s_nU s) -> (d <= s_degU s)%nat ->
         CV k1 n1 (s_degU s) d (pole (insF s u r j) c) x = CV (s_ku s) (s_nU s) (s_degU s) d (pole (row (s_poles s) (s_nU s) j) c) x).
  { intros j. destruct (insert_any eps (s_ku s) (s_nU s) (s_degU s) u r (row (s_poles s) (s_nU s) j) Hku (row_length _ _ _) Hu Hr)
      as (idx' & k1' & P1' & n1' & E' & K1' & LP1' & _ & _ & _ & _ & _ & _ & _ & V' & A7').
    destruct (insert_shape _ _ _ _ _ _ _ _ _ _ _ _ ltac:(rewrite !row_length; reflexivity) E E') as [<- <-].
    assert (NN : n1' = n1) by (destruct K1 as (Q1 & _), K1' as (Q2 & _); lia). rewrite NN in LP1', V'.
    unfold insF. rewrite E'. split; [reflexivity|split; [exact LP1'|exact V']]. }
  exists idx, k1, n1. split; [|split; [exact K1|split; [exact A1|split; [exact A2|split; [exact A3|split; [exact A4|
    split; [exact A5|split; [exact A6|]]]]]]]].
  - unfold insertKnotU. rewrite nPolesV_ok by auto. cbn [bind].
    set (body := fun (j : nat) (st : Z * list R * list (pt R)) => _).
    assert (Hm : (1 <= s_nV s)%nat) by (destruct Hkv as (_ & ? & _); lia).
    destruct (for_inv (fun j st => (1 <= j -> fst st = (idx, k1))%nat /\ snd st = rows (insF s u r) j)
      body 0 (s_nV s) (0%Z, [], [])) as ([[ik k] P] & EB & B1 & B2).
    + split; [intros; lia|reflexivity].
    + intros j [[ik k] acc] Hj (_ & B). cbn [snd] in B. subst acc. unfold body. rewrite polesU_ok by (auto; lia). cbn [bind].
      destruct (J j) as (EJ & _). rewrite EJ. cbn [bind].
      eexists; split; [reflexivity|]. split; [intros; reflexivity|]. cbn [snd]. rewrite rows_S. reflexivity.
    + cbn [fst snd] in B1, B2. specialize (B1 ltac:(lia)). injection B1 as -> ->. rewrite EB. cbn [bind]. subst P. reflexivity.
  - intros j Hj. apply J.
Qed.


Lemma CV_val k n p k' n' (P P' : list (pt R)) x d c : knots_ok k n p -> knots_ok k' n' p -> length P = n -> length P' = n' ->
  evaluable eps k n p -> evaluable eps k' n' p -> kn k p <= x <= kn k n -> kn k' p <= x <= kn k' n' ->
  ((d <= p)%nat -> CV k' n' p d (pole P' c) x = CV k n p d (pole P c) x) ->
  val (eval_value x k' P' p d) c = val (eval_value x k P p d) c.
Proof.
  intros K K' L L' E E' H H' HC. destruct (Nat.leb_spec d p).
  - destruct (CV_eval eps k n p P x d K L E H ltac:(lia)) as (q & Q1 & Q2).
    destruct (CV_eval eps k' n' p P' x d K' L' E' H' ltac:(lia)) as (q' & Q1' & Q2').
    rewrite Q1, Q1'. cbn [val]. rewrite Q2, Q2'. auto.
  - rewrite !eval_value_high by lia. reflexivity.
Qed.

Lemma insertU_prop (s : surf R) u r : 0 <= eps -> surface_ok s -> natural_surface s ->
  kn (s_ku s) (s_degU s) <= u < kn (s_ku s) (s_nU s) -> (1 <= r)%nat ->
  exists idx s', insertKnotU s u r = Ok (idx, s') /\ surface_ok s' /\ natural_surface s' /\
    s_degU s' = s_degU s /\ s_degV s' = s_degV s /\ s_kv s' = s_kv s /\
    count_occ Req_EM_T (s_ku s') u = max (count_occ Req_EM_T (s_ku s) u) (min (s_degU s) (count_occ Req_EM_T (s_ku s) u + r)) /\
    (forall x, x <> u -> count_occ Req_EM_T (s_ku s') x = count_occ Req_EM_T (s_ku s) x) /\
    (forall x y, in_surface s' x y <-> in_surface s x y) /\
    (evaluable_surface eps s -> evaluable_surface eps s' -> surfaces_agree eps s s' (same_params s) one).
Proof.
  intros He Hok Hn Hu Hr. destruct (insertU_ok s u r Hok Hu Hr) as (idx & k1 & n1 & E & K1 & A1 & A2 & A3 & A4 & A5 & A6 & J).
  eexists idx, _. split; [exact E|].
  destruct (rows_surface s (insF s u r) k1 n1 (s_u1 s) (s_u2 s) Hok K1 ltac:(intros j Hj; apply J, Hj)) as (Hok' & N1 & N2 & HR).
  cbv zeta in *. set (s' := with_u s _ _ _ _) in *.
  assert (Hn' : natural_surface s').
  { destruct Hn as (B1 & B2 & B3 & B4). unfold natural_surface. rewrite N1, N2. unfold s'; cbn [with_u s_u1 s_u2 s_v1 s_v2 s_ku s_kv s_degU s_degV]. rewrite A3, A4. auto. }
  split; [exact Hok'|]. split; [exact Hn'|]. do 3 (split; [reflexivity|]). split; [exact A5|]. split; [exact A6|].
  split. { intros x y. unfold in_surface, in_rect. rewrite N1, N2. unfold s'. cbn [with_u s_ku s_kv s_degU s_degV]. rewrite A1, A2. tauto. }
  intros Hev Hev' x y x' y' du dv ([Hx Hy] & -> & ->).
  assert (Hx' : kn (s_ku s') (s_degU s') <= x <= kn (s_ku s') (s_nU s')) by (rewrite N1; unfold s'; cbn [with_u s_ku s_degU]; lra).
  rewrite (surf_value_in s) by (auto; split; auto). rewrite (surf_value_in s') by (auto; split; auto).
  unfold one. eapply (row_transfer (s_ku s) (s_nU s) (s_ku s') (s_nU s') (s_degU s) (s_kv s) (s_nV s) (s_degV s)); auto.
  intros j c Hj. rewrite Rmult_1_l. rewrite N1, HR by auto. destruct (J j Hj) as (_ & LJ & VJ).
  pose proof Hok as (Hku & _). unfold evaluable_surface in Hev'. rewrite N1 in Hev', Hx'.
  apply (CV_val (s_ku s) (s_nU s) (s_degU s) k1 n1); auto.
  - apply row_length.
  - apply (ev2_1 _ _ _ _ _ _ _ Hev).
  - apply (ev2_1 _ _ _ _ _ _ _ Hev').
Qed.

(** ** Exchange of the parameters *)
Lemma invert_ok (s : surf R) : surface_ok s ->
  exists T, inverted_uv_poles pzero (s_poles s) (s_nV s) = Ok T /\
    invertUV s = Ok (mks (s_degV s) (s_degU s) T (s_kv s) (s_ku s) (kn (s_kv s) 0) (kn (s_kv s) (s_nV s + s_degV s))
                       (kn (s_ku s) 0) (kn (s_ku s) (s_nU s + s_degU s))) /\
    length T = (s_nV s * s_nU s)%nat /\
    (forall i, (i < s_nU s)%nat -> row T (s_nV s) i = col (s_poles s) (s_nU s) (s_nV s) i) /\
    (forall j, (j < s_nV s)%nat -> col T (s_nV s) (s_nU s) j = row (s_poles s) (s_nU s) j) /\
    (forall i j, (i < s_nU s)%nat -> (j < s_nV s)%nat ->
       nth (j + s_nV s * i) T pzero = nth (i + s_nU s * j) (s_poles s) pzero).
Proof.
  intros Hok. pose proof Hok as ((LU & HpU & _) & (LV & HpV & _) & L).
  destruct (inverted_spec pzero pzero (s_poles s) (s_nU s) (s_nV s) ltac:(lia) L) as (T & E & LT & V).
  exists T. split; [exact E|]. split; [|split; [|split; [|split]]].
  - unfold invertUV. rewrite nPolesV_ok by auto. cbn [bind]. rewrite E. cbn [bind].
    rewrite !back_kn by lia. rewrite !front_kn by (intros Z; rewrite Z in *; simpl in *; lia). cbn [bind].
    rewrite LU, LV. rewrite !Nat.add_sub. reflexivity.
  - lia.
  - intros i Hi. unfold row, col. apply map_ext_in. intros j Hj. apply in_seq in Hj. apply V; lia.
  - intros j Hj. unfold row, col. apply map_ext_in. intros i Hi. apply in_seq in Hi. apply V; lia.
  - exact V.
Qed.


Lemma invert_prop (s : surf R) : 0 <= eps -> surface_ok s -> natural_surface s ->
  exists s', invertUV s = Ok s' /\ surface_ok s' /\ natural_surface s' /\
    s_degU s' = s_degV s /\ s_degV s' = s_degU s /\ s_ku s' = s_kv s /\ s_kv s' = s_ku s /\
    (forall i j, (i < s_nU s)%nat -> (j < s_nV s)%nat ->
       nth (j + s_nV s * i) (s_poles s') pzero = nth (i + s_nU s * j) (s_poles s) pzero) /\
    invertUV s' = Ok s /\
    (evaluable_surface eps s -> forall u v du dv, in_surface s u v ->
       exists z z', surf_value s u v du dv = Ok z /\ surf_value s' v u dv du = Ok z' /\ forall c, z' c = z c).
Proof.
  intros He Hok Hn. destruct (invert_ok s Hok) as (T & E & EI & LT & R1 & C1 & V).
  pose proof Hok as (HkU & HkV & L). pose proof HkU as (LU & HpU & _). pose proof HkV as (LV & HpV & _).
  eexists. split; [exact EI|]. set (s' := mks _ _ _ _ _ _ _ _ _).
  assert (Hok' : surface_ok s') by (split; [exact HkV|split; [exact HkU|exact LT]]).
  assert (Hn' : natural_surface s') by (split; [|split; [|split]]; reflexivity).
  split; [exact Hok'|]. split; [exact Hn'|]. do 4 (split; [reflexivity|]). split; [exact V|]. split.
  - destruct (invert_ok s' Hok') as (T2 & E2 & EI2 & _). rewrite EI2.
    change (inverted_uv_poles pzero T (s_nU s) = Ok T2) in E2. rewrite (inverted_twice pzero (s_poles s) T (s_nU s) (s_nV s) ltac:(lia) ltac:(lia) L E) in E2. injection E2 as <-.
    destruct Hn as (B1 & B2 & B3 & B4). f_equal. destruct s; cbn in *. rewrite B1, B2, B3, B4. reflexivity.
  - intros Hev u v du dv [Hu Hv].
    assert (Hev' : evaluable_surface eps s').
    { destruct Hev as [[? ?]|(? & ? & ? & ? & ?)]; [left; split; auto|right; repeat split; auto]. }
    rewrite (surf_value_in s) by (auto; split; auto). rewrite (surf_value_in s') by (auto; split; auto).
    destruct (surf_total eps _ _ _ _ _ _ _ Hok Hev u v du dv (conj Hu Hv)) as (z & Ez).
    destruct (surf_total eps _ _ _ _ _ _ _ Hok' Hev' v u dv du (conj Hv Hu)) as (z' & Ez').
    exists z, z'. split; [exact Ez|]. split; [exact Ez'|]. intros c.
    destruct (span_pack eps (s_ku s) (s_nU s) (s_degU s) u HkU Hu) as (l1 & _ & Hl1 & Hs1 & _).
    pose proof (surf_cols eps _ _ _ _ _ _ _ Hok Hev u v du dv c l1 Hv Hl1 Hs1) as A.
    pose proof (surf_rows eps _ _ _ _ _ _ _ Hok' Hev' v u dv du c l1 Hv Hl1 Hs1) as A'.
    unfold SVal in A, A'. rewrite Ez in A. rewrite Ez' in A'. cbn [val] in A, A'. rewrite A, A'. cbn [s_degU s_degV s_ku s_kv s'].
    destruct (Nat.leb_spec du (s_degU s)); [|reflexivity]. apply PS_ext. intros i Hi. cbn [s_poles].
    change (s_nU s') with (s_nV s). rewrite R1 by lia. reflexivity.
Qed.
End AtR.
