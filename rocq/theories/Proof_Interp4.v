(** Interpolation: no undefined behaviour, batches, examples. *)
From Coq Require Import List Arith ZArith Reals Lia Lra Bool Permutation.
From Verif Require Import Model_Base Model_Knots Model_Basis Model_Curve Model_Interp
  Spec_Base Spec_Basis Spec_Eval Spec_Knots Spec_Interp Proof_Base Proof_Blossom Proof_Basis Proof_Ders Proof_Eval
  Proof_PropBasis Proof_Ctor Proof_Curve Proof_Builders Proof_Band Proof_Interp Proof_Interp2 Proof_Interp3.
Import ListNotations.
Local Open Scope R_scope.

(** ** Batches *)
Section Batch.
Context {T : Type} {NT : Num T}.

Lemma bind_assoc {A B C} (r : result A) (f : A -> result B) (g : B -> result C) :
  bind (bind r f) g = bind r (fun a => bind (f a) g).
Proof. destruct r; reflexivity. Qed.

Lemma mapM_app {A B} (f : A -> result B) l l' :
  mapM f (l ++ l') = (let* a := mapM f l in let* b := mapM f l' in Ok (a ++ b)).
Proof.
  induction l as [|x l IH]; cbn [app mapM].
  - cbn [bind]. destruct (mapM f l'); reflexivity.
  - destruct (f x); cbn [bind]; try reflexivity. rewrite IH. destruct (mapM f l); cbn [bind]; try reflexivity.
    destruct (mapM f l'); reflexivity.
Qed.

Lemma mapM_concat {A B} (f : A -> result B) ls :
  mapM f (concat ls) = (let* r := mapM (mapM f) ls in Ok (concat r)).
Proof.
  induction ls as [|l ls IH]; cbn [concat mapM]; [reflexivity|].
  rewrite mapM_app, IH. destruct (mapM f l); cbn [bind]; try reflexivity.
  destruct (mapM (mapM f) ls); reflexivity.
Qed.

Lemma mapM_map {A B C} (f : B -> result C) (g : A -> B) l : mapM f (map g l) = mapM (fun a => f (g a)) l.
Proof. induction l as [|a l IH]; cbn [map mapM]; [reflexivity|]. rewrite IH. reflexivity. Qed.

Lemma mapM_post {A B C} (f : A -> result B) (g : B -> C) l :
  mapM (fun a => let* b := f a in Ok (g b)) l = (let* r := mapM f l in Ok (map g r)).
Proof.
  induction l as [|a l IH]; cbn [map mapM]; [reflexivity|]. rewrite IH.
  destruct (f a); cbn [bind]; try reflexivity. destruct (mapM f l); reflexivity.
Qed.

Lemma mapM_ext {A B} (f g : A -> result B) l : (forall a, In a l -> f a = g a) -> mapM f l = mapM g l.
Proof.
  induction l as [|a l IH]; intros H; cbn [mapM]; [reflexivity|].
  rewrite (H a) by (simpl; auto). rewrite IH by (intros; apply H; simpl; auto). reflexivity.
Qed.

Lemma mapM_length {A B} (f : A -> result B) l r : mapM f l = Ok r -> length r = length l.
Proof. intros E. apply (mapM_nth _ _ _ E). Qed.

Lemma mapM_mapM_len {A B} (f : A -> result B) m ls : forall rs, (forall l, In l ls -> length l = m) ->
  mapM (mapM f) ls = Ok rs -> length rs = length ls /\ forall r, In r rs -> length r = m.
Proof.
  induction ls as [|l ls IH]; intros rs H E; cbn [mapM] in E.
  - injection E as <-. split; [reflexivity|]. intros r [].
  - apply bind_inv in E as (a & Ea & E). apply bind_inv in E as (b & Eb & E). injection E as <-.
    destruct (IH b) as (I1 & I2); [intros; apply H; simpl; auto|exact Eb|]. split; [simpl; lia|].
    intros r [<-|Hr]; [|auto]. rewrite (mapM_length _ _ _ Ea). apply H; simpl; auto.
Qed.

(** the c-th block of a concatenation of blocks of the same length *)
Lemma block_of {A} m (rs : list (list A)) : (forall r, In r rs -> length r = m) ->
  map (fun c => firstn m (skipn (c * m) (concat rs))) (seq 0 (length rs)) = rs.
Proof.
  induction rs as [|r rs IH]; intros H; [reflexivity|].
  assert (Hr : length r = m) by (apply H; simpl; auto).
  cbn [length seq map concat]. f_equal.
  - cbn [Nat.mul skipn]. rewrite firstn_app, Hr, Nat.sub_diag. cbn [firstn]. rewrite app_nil_r. rewrite <- Hr. apply firstn_all.
  - rewrite <- (IH) at 2 by (intros; apply H; simpl; auto). rewrite <- seq_shift, map_map. apply map_ext. intros c. f_equal.
    rewrite skipn_app, Hr. replace (skipn (S c * m) r) with (@nil A).
    + cbn [app]. f_equal. lia.
    + symmetry. apply skipn_all2. lia.
Qed.

Lemma batch_ok sparse dim nc (Qs : list (list (list (pt T)))) (k u : list T) p m :
  (forall Q, In Q Qs -> length Q = m) ->
  build_poles_batch sparse dim nc Qs k u p =
  (let* r := mapM (fun Q => build_poles sparse dim nc Q k u p) Qs in Ok (concat r)).
Proof.
  intros H. unfold build_poles_batch. destruct Qs as [|Q0 Qs']; [reflexivity|].
  set (Qs := Q0 :: Qs') in *. assert (H0 : length Q0 = m) by (apply H; simpl; auto). rewrite H0.
  rewrite (mapM_ok _ (fun Q => map (rhs_column Q) (seq 0 dim))).
  2:{ intros Q HQ. rewrite (H Q HQ). rewrite Nat.leb_refl. rewrite <- (H Q HQ), firstn_all. reflexivity. }
  cbn [bind].
  rewrite (mapM_ext _ (fun Q => let* X := collocation_solve sparse k u p nc (m * nc) (map (rhs_column Q) (seq 0 dim)) in
     Ok (poles_of_columns (m * nc) X))) by (intros Q HQ; unfold build_poles; rewrite (H Q HQ); reflexivity).
  rewrite mapM_post.
  assert (G : forall (g : list T -> result (list T)),
    (let* X := mapM g (concat (map (fun Q => map (rhs_column Q) (seq 0 dim)) Qs)) in
     Ok (concat (map (fun c => poles_of_columns (m * nc) (firstn dim (skipn (c * dim) X))) (seq 0 (length Qs))))) =
    (let* r := (let* r := mapM (fun Q => mapM g (map (rhs_column Q) (seq 0 dim))) Qs in Ok (map (poles_of_columns (m * nc)) r)) in
     Ok (concat r))).
  { intros g. rewrite mapM_concat, mapM_map. rewrite !bind_assoc.
    destruct (mapM (fun Q => mapM g (map (rhs_column Q) (seq 0 dim))) Qs) as [rs| | |] eqn:E; cbn [bind]; try reflexivity.
    rewrite <- (mapM_map (mapM g) (fun Q => map (rhs_column Q) (seq 0 dim))) in E.
    assert (Hrs : forall l, In l (map (fun Q => map (rhs_column Q) (seq 0 dim)) Qs) -> length l = dim).
    { intros l Hl. apply in_map_iff in Hl as (Q & <- & _). rewrite map_length, seq_length. reflexivity. }
    destruct (mapM_mapM_len g dim _ rs Hrs E) as (Lr & Hr).
    rewrite map_length in Lr. f_equal. f_equal. rewrite <- Lr.
    rewrite <- (map_map (fun c => firstn dim (skipn (c * dim) (concat rs))) (poles_of_columns (m * nc))).
    rewrite block_of by exact Hr. reflexivity. }
  unfold collocation_solve. destruct (assemble_and_factorize k u p nc (m * nc)) as [[B|]| | |].
  - cbn [bind]. apply G.
  - cbn [bind]. destruct (assemble_collocation_sparse k u p nc (m * nc)) as [N| | |]; cbn [bind];
      [apply G|reflexivity|reflexivity|reflexivity].
  - reflexivity.
  - reflexivity.
  - reflexivity.
Qed.
End Batch.

Section AtR.
Variable eps : R.
Local Hint Extern 0 (Num R) => exact (NumR eps) : typeclass_instances.

(** ** No undefined behaviour *)
Lemma mapM_defined {A B} (f : A -> result B) l : (forall a, In a l -> defined (f a)) -> defined (mapM f l).
Proof.
  induction l as [|a l IH]; intros H; cbn [mapM]; [exact I|].
  pose proof (H a (or_introl eq_refl)) as Ha. destruct (f a); try exact I; try destruct Ha. cbn [bind].
  assert (Hl : defined (mapM f l)) by (apply IH; intros; apply H; simpl; auto).
  destruct (mapM f l); try exact I; destruct Hl.
Qed.

Lemma mapM_all_ok {A B} (f : A -> result B) l : (forall a, In a l -> exists b, f a = Ok b) -> exists r, mapM f l = Ok r.
Proof.
  induction l as [|a l IH]; intros H; cbn [mapM]; [eexists; reflexivity|].
  destruct (H a (or_introl eq_refl)) as (b & ->). cbn [bind].
  destruct IH as (r & ->); [intros; apply H; simpl; auto|]. eexists; reflexivity.
Qed.

Section Rows.
Variables (k : list R) (n p : nat).
Hypothesis Hk : knots_ok k n p.

(** [collocation_solve] is the band solver, or the sparse solver on the collocation matrix *)
Lemma collocation_cases sparse nc (u : list R) cols : 0 <= eps ->
  (1 <= nc)%nat -> eval_dom eps k n p -> (nc * length u = n)%nat ->
  (forall x, In x u -> inside k n p x) -> (forall b, In b cols -> length b = n) ->
  (exists X, collocation_solve sparse k u p nc n cols = Ok X) \/
  exists N, collocation_solve sparse k u p nc n cols = mapM (sparse N) cols /\ m_rows N = n /\ m_cols N = n /\
    forall i d b, (i < length u)%nat -> (d < nc)%nat -> m_cell N (nc * i + d) b = rv eps k n p (nth i u 0) d b.
Proof.
  intros He Hnc Hdom Hn Hu Hcols. unfold collocation_solve, assemble_and_factorize, assemble_collocation_sparse.
  destruct (matrix_ok eps k n p Hk nc u n Hnc Hdom Hu ltac:(lia)) as (N & EN & HR & HC & HV & _).
  destruct (Nat.ltb_spec stack_max p) as [Hp|Hp].
  { right. exists N. cbn [bind]. rewrite EN. cbn [bind]. auto. }
  destruct (assemble_ok eps k n p Hk nc u n Hnc Hp Hu ltac:(lia)) as (kl & ku & M & sc & EB & LM & Hsc & _).
  rewrite EB. cbn [bind].
  destruct (factorize_spec eps kl ku n M sc He Hsc LM) as (o & Eo & Ho). rewrite Eo. cbn [bind].
  destruct o as [F|].
  - left. apply mapM_all_ok. intros b Hb. destruct Ho as (_ & Ho). destruct (Ho b (Hcols b Hb)) as (x & E & _). eauto.
  - right. exists N. rewrite EN. cbn [bind]. auto.
Qed.

Lemma build_poles_defined sparse dim nc (Q : list (list (pt R))) (u : list R) : 0 <= eps -> (1 <= nc)%nat ->
  eval_dom eps k n p -> length u = length Q -> (length Q * nc = n)%nat -> (forall q, In q Q -> length q = nc) ->
  (forall x, In x u -> inside k n p x) ->
  (forall N b, m_rows N = m_cols N -> length b = m_rows N -> defined (sparse N b)) ->
  defined (build_poles sparse dim nc Q k u p).
Proof.
  intros He Hnc Hdom Hul Hn HQ Hu Hsp. unfold build_poles. rewrite Hn.
  assert (Hc : forall b, In b (map (rhs_column Q) (seq 0 dim)) -> length b = n).
  { intros b Hb. apply in_map_iff in Hb as (c & <- & _). unfold rhs_column. rewrite map_length.
    etransitivity; [apply (concat_len Q nc HQ)|lia]. }
  destruct (collocation_cases sparse nc u (map (rhs_column Q) (seq 0 dim)) He Hnc Hdom ltac:(lia) Hu Hc)
    as [(X & ->)|(N & -> & HR & HC & _)]; [exact I|].
  assert (Hm : defined (mapM (sparse N) (map (rhs_column Q) (seq 0 dim)))).
  { apply mapM_defined. intros b Hb. apply Hsp; [congruence|]. rewrite HR. auto. }
  destruct (mapM _ _); try exact I; destruct Hm.
Qed.
End Rows.

Lemma interpolate_defined sparse dim (Q : list (pt R)) (u : list R) p :
  (forall N b, m_rows N = m_cols N -> length b = m_rows N -> defined (sparse N b)) ->
  0 <= eps -> (1 <= p <= 24)%nat -> (p < length Q)%nat -> length u = length Q -> strictly_increasing u ->
  defined (interpolate sparse dim Q u p).
Proof.
  intros Hsp He Hp HpQ Hu Hs. unfold interpolate.
  destruct (build_simple_spec eps u p ltac:(lia) ltac:(lia) Hs) as (k & Ek & (Lk & Hnd & Ka & Kb & _) & _ & Kst).
  rewrite Ek. cbn [bind]. rewrite Hu in *.
  assert (Hk : knots_ok k (length Q) p).
  { split; [exact Lk|]. split; [lia|]. split; [exact Hnd|].
    replace (length Q) with (S (length Q - 1)) at 2 by lia. apply Kst; lia. }
  assert (Hin : forall x, In x u -> kn k p <= x <= kn k (length Q)).
  { intros x Hx. destruct (In_nth u x 0 Hx) as (i & Hi & <-). change (nth i u 0) with (kn u i).
    rewrite (Ka p), (Kb (length Q)) by lia. split; apply (strict_mono u Hs); lia. }
  assert (Hd : eval_dom eps k (length Q) p) by (left; unfold stack_max; lia).
  assert (D : defined (build_poles sparse dim 1 (map (fun q => [q]) Q) k u p)).
  { apply (build_poles_defined k (length Q) p Hk); auto.
    - rewrite map_length; exact Hu.
    - rewrite map_length; lia.
    - intros q Hq. apply in_map_iff in Hq as (x & <- & _). reflexivity. }
  destruct (build_poles sparse dim 1 (map (fun q => [q]) Q) k u p) as [P| | |] eqn:EP; try exact I; try destruct D.
  cbn [bind].
  assert (LP : length P = length Q).
  { unfold build_poles in EP. apply bind_inv in EP as (X & _ & EP). injection EP as <-.
    etransitivity; [apply poles_length|]. rewrite map_length. lia. }
  rewrite (mk_curve_accepts eps) by (rewrite ?LP; auto; lia). exact I.
Qed.
End AtR.

(** ** Examples *)
(** A solver for one or two unknowns (Cramer's rule). *)
Definition cramer (N : @mat R) (b : list R) : result (list R) :=
  match m_rows N, m_cols N, b with
  | 1%nat, 1%nat, [b0] => if Req_EM_T (m_cell N 0 0) 0 then Throw RuntimeError else Ok [b0 / m_cell N 0 0]
  | 2%nat, 2%nat, [b0; b1] =>
    let det := m_cell N 0 0 * m_cell N 1 1 - m_cell N 0 1 * m_cell N 1 0 in
    if Req_EM_T det 0 then Throw RuntimeError
    else Ok [(b0 * m_cell N 1 1 - b1 * m_cell N 0 1) / det; (b1 * m_cell N 0 0 - b0 * m_cell N 1 0) / det]
  | _, _, _ => Throw RuntimeError
  end.

Lemma cramer_exact : exact_solver cramer.
Proof.
  intros N b x E Hb. unfold cramer in E.
  destruct (m_rows N) as [|[|[|]]] eqn:ER; destruct (m_cols N) as [|[|[|]]] eqn:EC; try discriminate;
    destruct b as [|b0 [|b1 [|]]]; try discriminate.
  - destruct (Req_EM_T (m_cell N 0 0) 0); [discriminate|]. injection E as <-.
    split; [reflexivity|]. split; [reflexivity|]. intros [|i] Hi; [|lia]. simpl. field. exact n.
  - match type of E with (if ?c then _ else _) = _ => destruct c as [|Hd]; [discriminate|] end. injection E as <-.
    split; [reflexivity|]. split; [reflexivity|].
    intros [|[|i]] Hi; [| |lia]; simpl; field; exact Hd.
Qed.

Lemma cramer_defined N b : m_rows N = m_cols N -> length b = m_rows N -> defined (cramer N b).
Proof.
  intros _ _. unfold cramer. destruct (m_rows N) as [|[|[|]]]; try exact I; destruct (m_cols N) as [|[|[|]]]; try exact I;
    destruct b as [|b0 [|b1 [|]]]; try exact I; destruct (Req_EM_T _ _); exact I.
Qed.

(** Degree 1, clamped, simple knots: the basis at the knots *)
Lemma gdiv_self x : x <> 0 -> gdiv x x = 1.
Proof. intros H. unfold gdiv. destruct (Req_EM_T x 0); [contradiction|]. field. exact H. Qed.
Lemma gdiv_num0 d : gdiv 0 d = 0.
Proof. unfold gdiv. destruct (Req_EM_T d 0); [reflexivity|]. unfold Rdiv. ring. Qed.

Lemma hat_at (k : nat -> R) n i j : (2 <= n)%nat -> k 0%nat = k 1%nat -> k (S n) = k n ->
  (forall a b, (1 <= a < b)%nat -> (b <= n)%nat -> k a < k b) -> (i < n)%nat -> (j < n)%nat ->
  Nbas k n 1 j (k (S i)) = if Nat.eqb i j then 1 else 0.
Proof.
  intros Hn H0 HS Hs Hi Hj.
  assert (Hm : forall a b, (a <= b)%nat -> (b <= n)%nat -> k a <= k b).
  { intros a b Hab Hb. destruct (Nat.eq_dec a b) as [->|]; [lra|].
    destruct a as [|a]; [|left; apply Hs; lia]. rewrite H0. destruct (Nat.eq_dec b 1) as [->|]; [lra|]. left; apply Hs; lia. }
  unfold Nbas. destruct (Rlt_dec (k (S i)) (k n)) as [Hl|Hl].
  - assert (Hin : (S i < n)%nat).
    { destruct (Nat.eq_dec (S i) n) as [E|]; [exfalso; rewrite E in Hl; lra|lia]. }
    assert (N0 : forall l, (l <= n)%nat -> N k 0 l (k (S i)) = if Nat.eqb l (S i) then 1 else 0).
    { intros l Hll. cbn [N]. destruct (Rle_dec (k l) (k (S i))) as [H1|H1], (Rlt_dec (k (S i)) (k (S l))) as [H2|H2];
        destruct (Nat.eqb_spec l (S i)) as [El|El]; try reflexivity; exfalso.
      - destruct (Nat.lt_ge_cases l (S i)) as [Hlt|Hge].
        + assert (k (S l) <= k (S i)) by (apply Hm; lia). lra.
        + assert (k (S i) < k l) by (apply Hs; lia). lra.
      - subst l. apply H2. apply Hs; lia.
      - subst l. apply H1. lra.
      - subst l. apply H1. lra. }
    cbn [N]. fold (N k 0 j (k (S i))). fold (N k 0 (S j) (k (S i))).
    change (if Rle_dec (k j) (k (S i)) then if Rlt_dec (k (S i)) (k (S j)) then 1 else 0 else 0) with (N k 0 j (k (S i))).
    change (if Rle_dec (k (S j)) (k (S i)) then if Rlt_dec (k (S i)) (k (S (S j))) then 1 else 0 else 0) with (N k 0 (S j) (k (S i))).
    rewrite !N0 by lia. replace (j + 1 + 1)%nat with (S (S j)) by lia. replace (j + 1)%nat with (S j) by lia.
    destruct (Nat.eqb_spec i j) as [->|Hij].
    + destruct (Nat.eqb_spec j (S j)); [lia|]. rewrite Nat.eqb_refl.
      assert (k (S j) < k (S (S j))) by (apply Hs; lia). rewrite (gdiv_self (k (S (S j)) - k (S j))) by lra. ring.
    + destruct (Nat.eqb_spec (S j) (S i)); [lia|]. destruct (Nat.eqb_spec j (S i)) as [->|]; [|ring].
      replace (k (S i) - k (S i)) with 0 by ring. rewrite gdiv_num0. ring.
  - assert (Ein : S i = n).
    { destruct (Nat.eq_dec (S i) n); [assumption|]. exfalso. apply Hl, Hs; lia. }
    rewrite Ein.
    assert (N0 : forall l, (l <= n)%nat -> NL k 0 l (k n) = if Nat.eqb (S l) n then 1 else 0).
    { intros l Hll. cbn [NL]. destruct (Rlt_dec (k l) (k n)) as [H1|H1], (Rle_dec (k n) (k (S l))) as [H2|H2];
        destruct (Nat.eqb_spec (S l) n) as [El|El]; try reflexivity; exfalso.
      - assert (k (S l) < k n). { destruct (Nat.eq_dec l n) as [->|]; [lra|]. apply Hs; lia. } lra.
      - rewrite El in H2. lra.
      - apply H1. destruct l as [|l]; [lia|]. rewrite <- El. apply Hs; lia.
      - apply H1. destruct l as [|l]; [lia|]. rewrite <- El. apply Hs; lia. }
    cbn [NL].
    change (if Rlt_dec (k j) (k n) then if Rle_dec (k n) (k (S j)) then 1 else 0 else 0) with (NL k 0 j (k n)).
    change (if Rlt_dec (k (S j)) (k n) then if Rle_dec (k n) (k (S (S j))) then 1 else 0 else 0) with (NL k 0 (S j) (k n)).
    rewrite !N0 by lia. replace (j + 1 + 1)%nat with (S (S j)) by lia. replace (j + 1)%nat with (S j) by lia.
    destruct (Nat.eqb_spec i j) as [->|Hij].
    + rewrite Ein, Nat.eqb_refl. destruct (Nat.eqb_spec (S n) n); [lia|].
      assert (k j < k n) by (destruct j as [|j']; [lia|]; rewrite <- Ein; apply Hs; lia). rewrite gdiv_self by lra. ring.
    + destruct (Nat.eqb_spec (S j) n); [lia|]. destruct (Nat.eqb_spec (S (S j)) n) as [E2|]; [|ring].
      rewrite E2. replace (k n - k n) with 0 by ring. rewrite gdiv_num0. ring.
Qed.

(** A solver that knows the identity matrix only. *)
Definition is_ident (N : @mat R) : bool :=
  forallb (fun i => forallb (fun j => if Req_EM_T (m_cell N i j) (if Nat.eqb i j then 1 else 0) then true else false)
     (seq 0 (m_cols N))) (seq 0 (m_rows N)).
Definition ident_solver (N : @mat R) (b : list R) : result (list R) :=
  if Nat.eqb (m_rows N) (m_cols N) && is_ident N then Ok b else Throw RuntimeError.

Lemma is_ident_iff N : is_ident N = true <->
  forall i j, (i < m_rows N)%nat -> (j < m_cols N)%nat -> m_cell N i j = if Nat.eqb i j then 1 else 0.
Proof.
  unfold is_ident. rewrite forallb_forall. split.
  - intros H i j Hi Hj. specialize (H i ltac:(apply in_seq; lia)). rewrite forallb_forall in H.
    specialize (H j ltac:(apply in_seq; lia)). destruct (Req_EM_T _ _) as [E|]; [exact E|discriminate].
  - intros H i Hi. apply in_seq in Hi. rewrite forallb_forall. intros j Hj. apply in_seq in Hj.
    rewrite H by lia. destruct (Req_EM_T _ _); [reflexivity|contradiction].
Qed.

Lemma sumn_delta n i (f : nat -> R) : (i < n)%nat -> sumn n (fun j => (if Nat.eqb i j then 1 else 0) * f j) = f i.
Proof.
  intros Hi. rewrite (sumn_single n _ i Hi); [rewrite Nat.eqb_refl; ring|].
  intros j _ Hj. destruct (Nat.eqb_spec i j); [congruence|ring].
Qed.

Lemma ident_exact : exact_solver ident_solver.
Proof.
  intros N b x E Hb. unfold ident_solver in E. destruct (Nat.eqb_spec (m_rows N) (m_cols N)) as [Hrc|]; [|discriminate].
  cbn [andb] in E. destruct (is_ident N) eqn:EI; [|discriminate]. injection E as <-.
  split; [congruence|]. split; [exact Hb|]. intros i Hi.
  rewrite (sumn_ext _ _ (fun j => (if Nat.eqb i j then 1 else 0) * nth j b 0)).
  - apply sumn_delta. lia.
  - intros j Hj. rewrite (proj1 (is_ident_iff N) EI i j Hi Hj). reflexivity.
Qed.

(** degree 1 collocation at the knots is the identity *)
Section Hat.
Variables (eps : R) (k : list R) (n : nat) (u : list R).
Local Hint Extern 0 (Num R) => exact (NumR eps) : typeclass_instances.
Hypothesis (He : 0 <= eps) (Hn : (2 <= n)%nat) (Hu : length u = n) (Hs : strictly_increasing u).
Hypothesis (Hc : clamped_vector k n 1 (kn u 0) (kn u (n - 1))).
Hypothesis (Kv : forall i, (i < n)%nat -> kn k (S i) = kn u i).

Lemma hat_knots : knots_ok k n 1.
Proof.
  destruct Hc as (Lk & Hnd & Ka & Kb & _).
  split; [exact Lk|]. split; [lia|]. split; [exact Hnd|].
  replace n with (S (n - 1)) at 2 by lia. replace (n - 1)%nat with (S (n - 2)) at 1 by lia.
  rewrite !Kv by lia. apply Hs; lia.
Qed.
Lemma hat_dom : eval_dom eps k n 1.
Proof. left; unfold stack_max; lia. Qed.
Lemma hat_in : forall x, In x u -> inside k n 1 x.
Proof.
  destruct Hc as (Lk & Hnd & Ka & Kb & _).
  intros x Hx. destruct (In_nth u x 0 Hx) as (i & Hi & <-). change (nth i u 0) with (kn u i). unfold inside.
  rewrite (Ka 1%nat), (Kb n) by lia. split; apply (strict_mono u Hs); lia.
Qed.
Lemma hat_rows i j : (i < n)%nat -> (j < n)%nat -> rv eps k n 1 (nth i u 0) 0 j = if Nat.eqb i j then 1 else 0.
Proof.
  destruct Hc as (Lk & Hnd & Ka & Kb & _).
  intros Hi Hj. change (nth i u 0) with (kn u i).
  pose proof (rv_spline eps k n 1 hat_knots hat_dom (kn u i) (map (fun l => (fun _ => if Nat.eqb j l then 1 else 0) : pt R) (seq 0 n)) 0
      ltac:(apply hat_in, nth_In; lia) ltac:(rewrite map_length, seq_length; reflexivity)) as E.
  unfold spline in E.
  rewrite (sumn_ext n (fun j0 => rv eps k n 1 (kn u i) 0 j0 * _) (fun l => (if Nat.eqb j l then 1 else 0) * rv eps k n 1 (kn u i) 0 l)) in E
      by (intros l Hl; rewrite nth_map_seq by exact Hl; ring).
  rewrite (sumn_ext n (fun i0 => Nbas (kn k) n 1 i0 (kn u i) * _) (fun l => (if Nat.eqb j l then 1 else 0) * Nbas (kn k) n 1 l (kn u i))) in E
      by (intros l Hl; rewrite nth_map_seq by exact Hl; ring).
  rewrite !sumn_delta in E by exact Hj. rewrite E, <- Kv by exact Hi.
  apply hat_at; auto; try lia.
  - rewrite !Ka by lia. reflexivity.
  - rewrite !Kb by lia. reflexivity.
  - intros a b Hab Hb. destruct a as [|a]; [lia|]. destruct b as [|b]; [lia|]. rewrite !Kv by lia. apply Hs; lia.
Qed.

Lemma hat_poles dim (Q : list (list (pt R))) : length Q = n -> (forall q, In q Q -> length q = 1%nat) ->
  exists P, build_poles ident_solver dim 1 Q k u 1 = Ok P /\ length P = n.
Proof.
  intros LQ HQ. unfold build_poles. rewrite LQ. rewrite Nat.mul_1_r.
  assert (Hcol : forall b, In b (map (rhs_column Q) (seq 0 dim)) -> length b = n).
  { intros b Hb. apply in_map_iff in Hb as (c & <- & _). unfold rhs_column. rewrite map_length.
    transitivity (1 * length Q)%nat; [apply (concat_len Q 1 HQ)|rewrite LQ; lia]. }
  destruct (collocation_cases eps k n 1 hat_knots ident_solver 1 u (map (rhs_column Q) (seq 0 dim)) He (le_n 1) hat_dom ltac:(lia) hat_in Hcol)
    as [(X & ->)|(N & -> & HR & HC & HV)].
  2: destruct (mapM_all_ok (ident_solver N) (map (rhs_column Q) (seq 0 dim))) as (X & ->).
  2:{ intros b Hb. exists b. unfold ident_solver. rewrite HR, HC, Nat.eqb_refl.
      rewrite (proj2 (is_ident_iff N)); [reflexivity|]. intros i j Hi Hj.
      rewrite <- hat_rows by lia. rewrite <- (HV i 0%nat j) by lia. f_equal. lia. }
  all: cbn [bind].
  all: eexists; split; [reflexivity|apply poles_length].
Qed.
End Hat.

Lemma simple_hat eps (u : list R) k : (2 <= length u)%nat -> strictly_increasing u ->
  @build_simple_mult_flat_knots R (NumR eps) u 1 = Ok k ->
  clamped_vector k (length u) 1 (kn u 0) (kn u (length u - 1)) /\
  forall i, (i < length u)%nat -> kn k (S i) = kn u i.
Proof.
  intros Hn Hs Ek.
  destruct (build_simple_spec eps u 1 ltac:(lia) ltac:(lia) Hs) as (k1 & Ek1 & Hcl & _).
  destruct (build_simple_vals eps u 1 ltac:(lia) ltac:(lia)) as (k' & Ek' & _ & _ & _ & Kav).
  rewrite Ek in Ek', Ek1. injection Ek' as <-. injection Ek1 as <-. split; [exact Hcl|].
  destruct Hcl as (_ & _ & Ka & Kb & _). intros i Hi. destruct (Nat.eq_dec i 0) as [->|]; [apply Ka; lia|].
  destruct (Nat.eq_dec i (length u - 1)) as [->|]; [replace (S (length u - 1)) with (length u) by lia; apply Kb; lia|].
  rewrite (Kav (S i)) by lia. replace (S i - 1)%nat with i by lia.
  unfold avg. simpl. rewrite ?Nat.add_0_r. field.
Qed.

Lemma polyline eps (Q : list (pt R)) (u : list R) dim : 0 <= eps -> (2 <= length Q)%nat -> length u = length Q ->
  strictly_increasing u -> exists c, @interpolate R (NumR eps) ident_solver dim Q u 1 = Ok c.
Proof.
  intros He HQ Hu Hs. unfold interpolate.
  destruct (build_simple_spec eps u 1 ltac:(lia) ltac:(lia) Hs) as (k & Ek & _).
  destruct (simple_hat eps u k ltac:(lia) Hs Ek) as (Hcl & Kv). rewrite Ek. cbn [bind]. rewrite Hu in *.
  destruct (hat_poles eps k (length Q) u He HQ Hu Hs Hcl Kv dim (map (fun q => [q]) Q)) as (P & EP & LP).
  { apply map_length. } { intros q Hq. apply in_map_iff in Hq as (x & <- & _). reflexivity. }
  rewrite EP. cbn [bind]. destruct Hcl as (Lk & Hnd & _).
  rewrite (mk_curve_accepts eps) by (rewrite ?LP; auto; lia). eexists; reflexivity.
Qed.

Lemma inc3 : strictly_increasing [0; 1; 2].
Proof.
  intros i j Hij Hj. simpl in Hj. destruct i as [|[|[|i]]], j as [|[|[|j]]]; try lia; unfold kn; simpl; lra.
Qed.
Lemma hat3 : clamped_vector [0; 0; 1; 2; 2] 3 1 (kn [0; 1; 2] 0) (kn [0; 1; 2] (3 - 1)) /\
  forall i, (i < 3)%nat -> kn [0; 0; 1; 2; 2] (S i) = kn [0; 1; 2] i.
Proof.
  split.
  - split; [reflexivity|]. split.
    { intros i j Hij Hj. simpl in Hj. destruct i as [|[|[|[|[|i]]]]], j as [|[|[|[|[|j]]]]]; try lia; unfold kn; simpl; lra. }
    split; [intros i Hi; destruct i as [|[|i]]; try lia; unfold kn; simpl; lra|].
    split; [intros i Hi; destruct i as [|[|[|[|[|i]]]]]; try lia; unfold kn; simpl; lra|].
    intros i Hi; destruct i as [|[|[|i]]]; try lia; unfold kn; simpl; lra.
  - intros i Hi; destruct i as [|[|[|i]]]; try lia; unfold kn; simpl; lra.
Qed.

Lemma hermite_ex eps (q0 q1 q2 : pt R) dim : 0 <= eps ->
  exists c, @interpolate_hermite R (NumR eps) ident_solver dim 1 [[q0]; [q1]; [q2]] [0; 1; 2] = Ok c /\
    evaluable eps (c_knots c) (1 * 3) (2 * 1 - 1).
Proof.
  intros He. unfold interpolate_hermite.
  assert (Ek : flat_knots [0; 1; 2] ((1 + 1)%nat :: repeat 1%nat 1 ++ [(1 + 1)%nat]) = Ok [0; 0; 1; 2; 2]) by reflexivity.
  cbn [length Nat.mul Nat.sub Nat.add]. cbn [Nat.add] in Ek. rewrite Ek. cbn [bind].
  destruct hat3 as (Hcl & Kv).
  destruct (hat_poles eps _ 3 [0; 1; 2] He ltac:(lia) eq_refl inc3 Hcl Kv dim [[q0]; [q1]; [q2]]) as (P & EP & LP).
  { reflexivity. } { simpl. intros q Hq. intuition (subst; reflexivity). }
  rewrite EP. cbn [bind]. destruct Hcl as (Lk & Hnd & _).
  rewrite (mk_curve_accepts eps) by (rewrite ?LP; auto; simpl; lia). eexists; split; [reflexivity|].
  left. cbn. lia.
Qed.

Lemma ident_columns (N : @mat R) n dim (vals : nat -> list R) : m_rows N = n -> m_cols N = n ->
  (forall i j, (i < n)%nat -> (j < n)%nat -> m_cell N i j = if Nat.eqb i j then 1 else 0) ->
  exists X, mapM (fun d => ident_solver N (vals d)) (seq 0 dim) = Ok X.
Proof.
  intros HR HC HV. apply mapM_all_ok. intros d _. exists (vals d). unfold ident_solver. rewrite HR, HC, Nat.eqb_refl.
  rewrite (proj2 (is_ident_iff N)); [reflexivity|]. rewrite HR, HC. exact HV.
Qed.

Lemma constraints_ex eps (q0 q1 q2 : pt R) dim : 0 <= eps ->
  let k := [0; 0; 1; 2; 2] in let Q := [mkcp q0 0 0; mkcp q1 1 0; mkcp q2 2 0] in
  knots_ok k 3 1 /\ evaluable eps k 3 1 /\ length Q = 3%nat /\ (forall q, In q Q -> kn k 1 <= cp_u q <= kn k 3) /\
  exists P, @build_poles_constraints R (NumR eps) ident_solver (fun l => l) dim Q k 1 = Ok P.
Proof.
  intros He k Q. destruct hat3 as (Hcl & Kv).
  assert (Hk : knots_ok k 3 1) by exact (hat_knots k 3 [0; 1; 2] ltac:(lia) eq_refl inc3 Hcl Kv).
  assert (Hd : evaluable eps k 3 1) by (left; lia).
  split; [exact Hk|]. split; [exact Hd|]. split; [reflexivity|].
  assert (Hin : forall q, In q Q -> kn k 1 <= cp_u q <= kn k 3).
  { unfold kn, Q, k. simpl. intros q Hq. intuition (subst; simpl; lra). }
  split; [exact Hin|]. unfold build_poles_constraints.
  assert (Hin' : forall x, In x (map cp_u Q) -> inside k 3 1 x).
  { intros x Hx. apply in_map_iff in Hx as (q & <- & Hq). apply Hin; exact Hq. }
  destruct (cassemble_ok eps k 3 1 Hk (map cp_u Q) (map cp_d Q) He eq_refl eq_refl Hin') as (o & Eo & Ho).
  rewrite Eo. cbn [bind]. destruct o as [F|].
  - destruct (mapM_all_ok (fun d => @band_solve R (NumR eps) F (map (fun q => cp_v q d) Q)) (seq 0 dim)) as (X & ->).
    { intros d _. destruct (Ho (map (fun q => cp_v q d) Q) eq_refl) as (x & E & _). eauto. }
    cbn [bind]. eexists; reflexivity.
  - destruct (fill_rows_ok eps k 3 1 Hk (map cp_u Q) (map cp_d Q)
        (fun i N => let* q := get Q i in @fill_basis_row R (NumR eps) N i (cp_u q) k 1 (cp_d q)) Hd eq_refl Hin') as (N & EN & HR & HC & HV).
    { intros i N Hi. destruct i as [|[|[|i]]]; try lia; reflexivity. }
    cbn [length Q]. rewrite EN. cbn [bind].
    destruct (ident_columns N 3 dim (fun d => map (fun q => cp_v q d) Q) HR HC) as (X & EX).
    { intros i j Hi Hj. rewrite HV by exact Hi.
      rewrite <- (hat_rows eps k 3 [0; 1; 2] ltac:(lia) eq_refl inc3 Hcl Kv i j Hi Hj).
      destruct i as [|[|[|i]]]; try lia; reflexivity. }
    rewrite EX. cbn [bind]. eexists; reflexivity.
Qed.

Lemma end_constraints_ex eps (q0 q1 q2 : pt R) dim : 0 <= eps ->
  exists c, @interpolate_constraints R (NumR eps) ident_solver dim 0 q0 2 q2 [mkcp q1 1 0] 1 = Ok c /\
    knots_ok (c_knots c) 3 1 /\ evaluable eps (c_knots c) 3 1.
Proof.
  intros He. unfold interpolate_constraints. cbn [length Nat.add Nat.ltb Nat.leb].
  assert (Eu : fold_left (fun u c => @insert_ordered R (NumR eps) u (cp_u c)) [mkcp q1 1 0] [0; 2] = [0; 1; 2]).
  { cbn [fold_left cp_u]. unfold insert_ordered. cbn [lower_bound nltb NumR].
    destruct (Rltb_spec 0 1); [|lra]. destruct (Rltb_spec 2 1); [lra|]. reflexivity. }
  rewrite Eu.
  destruct (build_simple_spec eps [0; 1; 2] 1 ltac:(lia) ltac:(simpl; lia) inc3) as (k & Ek & _).
  destruct (simple_hat eps [0; 1; 2] k ltac:(simpl; lia) inc3 Ek) as (Hcl & Kv). rewrite Ek. cbn [bind].
  cbn [length] in Hcl, Kv.
  pose proof (hat_knots k 3 [0; 1; 2] ltac:(lia) eq_refl inc3 Hcl Kv) as Hk.
  assert (Hd : eval_dom eps k 3 1) by (left; unfold stack_max; lia). pose proof (hat_in k 3 [0; 1; 2] ltac:(lia) eq_refl inc3 Hcl) as Hin.
  pose proof (hat_rows eps k 3 [0; 1; 2] ltac:(lia) eq_refl inc3 Hcl Kv) as Hr.
  destruct (fill_row_ok eps k 3 1 Hk (@mzero R (NumR eps) 3 3) 0 0 0) as (N1 & E1 & R1 & C1 & V1);
    [apply Hin; simpl; auto|exact Hd|simpl; lia|reflexivity|reflexivity|].
  rewrite E1. cbn [bind]. cbn [for_ get nth_error bind cp_u cp_d Nat.add].
  destruct (fill_row_ok eps k 3 1 Hk N1 1 1 0) as (N2 & E2 & R2 & C2 & V2);
    [apply Hin; simpl; auto|exact Hd|rewrite R1; simpl; lia|exact C1|intros b; rewrite V1; reflexivity|].
  rewrite E2. cbn [bind Nat.sub].
  destruct (fill_row_ok eps k 3 1 Hk N2 2 2 0) as (N3 & E3 & R3 & C3 & V3);
    [apply Hin; simpl; auto|exact Hd|rewrite R2, R1; simpl; lia|exact C2|intros b; rewrite V2, V1; reflexivity|].
  rewrite E3. cbn [bind].
  destruct (ident_columns N3 3 dim (fun d => q0 d :: map (fun c => cp_v c d) [mkcp q1 1 0] ++ [q2 d])) as (X & EX).
  { rewrite R3, R2, R1. reflexivity. } { exact C3. }
  { intros i j Hi Hj. rewrite <- (Hr i j Hi Hj). rewrite V3, V2, V1.
    destruct i as [|[|[|i]]]; try lia; reflexivity. }
  rewrite EX. cbn [bind]. destruct Hcl as (Lk & Hnd & _).
  rewrite (mk_curve_accepts eps) by (rewrite ?poles_length; auto; simpl; lia).
  eexists; split; [reflexivity|]. split; [exact Hk|exact Hd].
Qed.

(** Four points, three poles of degree 1, ends fixed *)
Lemma approx_ex eps (q0 q1 q2 q3 : pt R) : 0 <= eps ->
  exists c, @approx R (NumR eps) cramer 1 [q0; q1; q2; q3] 1 3 [0; 1; 2; 3] true = Ok c.
Proof.
  intros He. unfold approx, check_approx_sizes. cbn [Nat.ltb Nat.leb Nat.add length bind front].
  assert (Eb : back [0; 1; 2; 3] = Ok 3) by reflexivity. rewrite Eb. cbn [bind].
  destruct (build_range_spec eps 0 3 3 1 ltac:(lia) ltac:(lra)) as (k & Ek & (Lk & Hnd & Ka & Kb & _) & Kv).
  rewrite Ek. cbn [bind].
  assert (K1 : kn k 1 = 0) by (apply Ka; lia). assert (K0 : kn k 0 = 0) by (apply Ka; lia).
  assert (K2 : kn k 2 = 1). { pose proof (Kv 1%nat ltac:(lia)) as E. simpl in E. lra. }
  assert (K3 : kn k 3 = 3) by (apply Kb; lia). assert (K4 : kn k 4 = 3) by (apply Kb; lia).
  assert (Hk : knots_ok k 3 1).
  { split; [exact Lk|]. split; [lia|]. split; [exact Hnd|]. simpl. lra. }
  assert (Hin : forall x, In x [0; 1; 2; 3] -> inside k 3 1 x).
  { intros x Hx. unfold inside. rewrite K1, K3. simpl in Hx. intuition (subst; lra). }
  assert (Hd : evaluable eps k 3 1) by (left; unfold stack_max; lia).
  destruct (inner_rows_ok eps k 3 1 Hk Hd [0; 1; 2; 3] ltac:(simpl; lia) Hin) as (N & EN & HR & HC & HV).
  cbn [length Nat.sub] in HR, HV.
  assert (H01 : m_cell N 0 1 = 1).
  { rewrite (HV 0%nat 1%nat) by lia. cbn [nth Nat.add].
    pose proof (rv_spline eps k 3 1 Hk Hd 1 [fun _ => 0; fun _ => 1; fun _ => 0] 0 (Hin 1 ltac:(simpl; auto)) eq_refl) as E.
    unfold spline in E. simpl in E.
    assert (Hh : Nbas (kn k) 3 1 1 1 = 1).
    { transitivity (Nbas (kn k) 3 1 1 (kn k 2)); [rewrite K2; reflexivity|]. rewrite (hat_at (kn k) 3 1 1); [reflexivity|lia|lra|lra| |lia|lia].
      intros a b Hab Hb. destruct a as [|[|[|a]]]; try lia; destruct b as [|[|[|[|b]]]]; try lia; lra. }
    rewrite Hh in E. lra. }
  unfold approx_bound_fixed, check_approx_sizes. cbn [Nat.ltb Nat.leb Nat.add length bind front].
  rewrite EN. cbn [bind]. cbn [subi Nat.leb bind Nat.sub].
  assert (Eb' : back [q0; q1; q2; q3] = Ok q3) by reflexivity. rewrite Eb'. cbn [bind].
  cbn [mapM seq]. unfold get. cbn [nth_error Nat.add bind]. unfold mget. rewrite HR, HC. cbn [Nat.ltb Nat.leb andb bind].
  unfold solve_approx_banded. cbn [length m_rows Nat.eqb].
  unfold cramer, gram, trans_mul. cbn [m_rows m_cols m_cell seq map].
  rewrite !nsum_R. cbn [sumn Nat.add m_rows m_cols m_cell]. rewrite H01.
  match goal with |- context [Req_EM_T ?a 0] => destruct (Req_EM_T a 0) as [E|E] end.
  - exfalso. revert E. nsimp. pose proof (Rle_0_sqr (m_cell N 1 1)) as Hs. unfold Rsqr in Hs. intros E. lra.
  - cbn [bind]. rewrite (mk_curve_accepts eps) by (auto; simpl; lia). eexists; reflexivity.
Qed.

(** A tridiagonal matrix that is factorised. *)
Definition tri_M : list R := [0; 2; 1; 1; 2; 1; 1; 2; 0].
Definition tri_L (i m : nat) : R :=
  if Nat.eqb i m then 1 else match i, m with 1%nat, 0%nat => 1 / 2 | 2%nat, 1%nat => 2 / 3 | _, _ => 0 end.
Definition tri_U (m j : nat) : R :=
  match m, j with 0%nat, 0%nat => 2 | 0%nat, 1%nat => 1 | 1%nat, 1%nat => 3 / 2 | 1%nat, 2%nat => 1 | 2%nat, 2%nat => 4 / 3 | _, _ => 0 end.
Lemma tri_factors : lu_factors 3 (banded 1 1 tri_M) (piv_tol (1 / 1000) 2) 10000 tri_L tri_U.
Proof.
  unfold lu_factors, piv_tol.
  split. { intros i m Hm. unfold tri_L. destruct (Nat.eqb_spec i m); [lia|]. destruct i as [|[|[|i]]], m as [|[|m]]; try lia; reflexivity. }
  split. { intros i. unfold tri_L. rewrite Nat.eqb_refl. reflexivity. }
  split. { intros m j Hj. destruct m as [|[|[|m]]], j as [|[|[|j]]]; try lia; reflexivity. }
  split. { intros m Hm. destruct m as [|[|[|m]]]; try lia; simpl; rewrite Rabs_right; lra. }
  split. { intros i m Hm. destruct i as [|[|[|i]]], m as [|[|[|m]]]; try lia; unfold tri_L; simpl; rewrite Rabs_right; lra. }
  intros i j Hi Hj. destruct i as [|[|[|i]]]; try lia; destruct j as [|[|[|j]]]; try lia;
    unfold banded, tri_M; simpl; unfold tri_L; simpl; lra.
Qed.
