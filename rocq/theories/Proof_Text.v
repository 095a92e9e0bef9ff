From Coq Require Import List Arith Bool Ascii Lia.
From Verif Require Import Model_Base Proof_Base Model_Text Spec_Text.
Import ListNotations.
Local Open Scope nat_scope.

Lemma find_at_app c p rest k : ~ In c p -> find_at (p ++ c :: rest) c k = Some (k + length p).
Proof.
  revert k. induction p as [|x p IH]; intros k N; cbn.
  - rewrite Ascii.eqb_refl. f_equal. lia.
  - destruct (Ascii.eqb_spec x c) as [->|E]; [exfalso; apply N; left; reflexivity|].
    rewrite IH; [f_equal; lia|]. intros I. apply N. right. exact I.
Qed.
Lemma find_at_none c p k : ~ In c p -> find_at p c k = None.
Proof.
  revert k. induction p as [|x p IH]; intros k N; cbn; [reflexivity|].
  destruct (Ascii.eqb_spec x c) as [->|E]; [exfalso; apply N; left; reflexivity|].
  apply IH. intros I. apply N. right. exact I.
Qed.
Lemma skipn_skipn {A} (n m : nat) (l : list A) : skipn n (skipn m l) = skipn (n + m) l.
Proof.
  revert l. induction m as [|m IH]; intros l; [rewrite Nat.add_0_r; reflexivity|].
  rewrite Nat.add_succ_r. destruct l; cbn [skipn]; [apply skipn_nil|apply IH].
Qed.
Lemma skipn_len {A} (l : list A) i r : skipn i l = r -> length r = length l - i.
Proof. intros <-. apply skipn_length. Qed.

Lemma split_loop_ok c s rest : forall p q i v fuel,
  (forall x, In x (p :: q :: rest) -> ~ In c x) -> i <= length s -> skipn i s = join c (p :: q :: rest) ->
  length s - i < fuel ->
  split_loop fuel s c i (find s c i) v = Ok (v ++ p :: q :: rest).
Proof.
  induction rest as [|r rest IH]; intros p q i v fuel N Li E F.
  - cbn [join] in E. unfold find at 1. rewrite E.
    rewrite find_at_app by (apply N; left; reflexivity).
    destruct fuel as [|fuel]; [lia|]. cbn [split_loop]. unfold substr at 1.
    destruct (Nat.ltb_spec (length s) i); [lia|]. cbn [bind]. rewrite E.
    replace (i + length p - i) with (length p) by lia. rewrite firstn_app, firstn_all, Nat.sub_diag. cbn [firstn]. rewrite app_nil_r.
    pose proof (skipn_len _ _ _ E) as L. rewrite app_length in L. cbn [length] in L.
    assert (E2 : skipn (i + length p + 1) s = q).
    { replace (i + length p + 1) with (length p + 1 + i) by lia. rewrite <- skipn_skipn, E.
      rewrite skipn_app, skipn_all2 by lia. replace (length p + 1 - length p) with 1 by lia. reflexivity. }
    unfold find. rewrite E2. rewrite find_at_none by (apply N; right; left; reflexivity).
    unfold substr. destruct (Nat.ltb_spec (length s) (i + length p + 1)); [lia|]. cbn [bind]. rewrite E2.
    rewrite firstn_all2 by (pose proof (skipn_len _ _ _ E2); lia). destruct fuel; cbn [split_loop]; rewrite <- app_assoc; reflexivity.
  - change (join c (p :: q :: r :: rest)) with (p ++ c :: join c (q :: r :: rest)) in E. unfold find at 1. rewrite E.
    rewrite find_at_app by (apply N; left; reflexivity).
    destruct fuel as [|fuel]; [lia|]. cbn [split_loop]. unfold substr at 1.
    destruct (Nat.ltb_spec (length s) i); [lia|]. cbn [bind]. rewrite E.
    replace (i + length p - i) with (length p) by lia. rewrite firstn_app, firstn_all, Nat.sub_diag. cbn [firstn]. rewrite app_nil_r.
    pose proof (skipn_len _ _ _ E) as L. rewrite app_length in L. cbn [length] in L.
    assert (E2 : skipn (i + length p + 1) s = join c (q :: r :: rest)).
    { replace (i + length p + 1) with (length p + 1 + i) by lia. rewrite <- skipn_skipn, E.
      rewrite skipn_app, skipn_all2 by lia. replace (length p + 1 - length p) with 1 by lia. reflexivity. }
    assert (Q : find s c (i + length p + 1) = Some (i + length p + 1 + length q)).
    { unfold find. rewrite E2. change (join c (q :: r :: rest)) with (q ++ c :: join c (r :: rest)). apply find_at_app. apply N. right; left; reflexivity. }
    rewrite Q. cbn [bind]. rewrite <- Q. rewrite (IH q r).
    + rewrite <- app_assoc. reflexivity.
    + intros x I. apply N. right. exact I.
    + lia.
    + exact E2.
    + lia.
Qed.

Lemma blank_dec n : n < 128 -> blank (ascii_of_nat n) = ((n =? 32) || ((9 <=? n) && (n <=? 13))).
Proof. intros L. do 128 (destruct n as [|n]; [reflexivity|]). lia. Qed.
Lemma isspace_ok x : nat_of_ascii x < 128 -> isspace x = Ok (blank x).
Proof.
  intros L. unfold isspace. destruct (Nat.leb_spec 128 (nat_of_ascii x)); [lia|].
  rewrite <- blank_dec by exact L. rewrite ascii_nat_embedding. reflexivity.
Qed.
Lemma erase_ok s : plain s -> erase_spaces s = Ok (without_blanks s).
Proof.
  induction s as [|x s IH]; intros P; [reflexivity|]. cbn [erase_spaces].
  rewrite isspace_ok by (apply P; left; reflexivity). cbn [bind]. rewrite IH by (intros y I; apply P; right; exact I).
  cbn [bind]. unfold without_blanks. cbn [filter]. destruct (blank x); reflexivity.
Qed.
Lemma blank_empty s : (length (without_blanks s) =? 0) = is_blank s.
Proof.
  induction s as [|x s IH]; [reflexivity|]. unfold without_blanks, is_blank in *. cbn [filter forallb].
  destruct (blank x); cbn; [exact IH|reflexivity].
Qed.
Lemma fields_ok ps : filter (fun x : str => negb (length x =? 0)) (map without_blanks ps) = fields ps.
Proof.
  unfold fields. induction ps as [|p ps IH]; [reflexivity|]. cbn [map filter]. rewrite blank_empty.
  destruct (is_blank p); cbn [negb]; [exact IH|]. cbn [map]. rewrite IH. reflexivity.
Qed.
Lemma in_join c ps p x : In p ps -> In x p -> In x (join c ps).
Proof.
  induction ps as [|q ps IH]; intros I J; [destruct I|]. destruct ps as [|r ps].
  - destruct I as [->|[]]. exact J.
  - change (join c (q :: r :: ps)) with (q ++ c :: join c (r :: ps)). apply in_or_app. destruct I as [->|I]; [left; exact J|].
    right. right. apply IH; auto.
Qed.
Lemma mapM_map {A B} (f : A -> result B) (g : A -> B) l : (forall a, In a l -> f a = Ok (g a)) -> mapM f l = Ok (map g l).
Proof.
  induction l as [|a l IH]; intros E; [reflexivity|]. cbn [mapM map]. rewrite E by (left; reflexivity). cbn [bind].
  rewrite IH by (intros b I; apply E; right; exact I). reflexivity.
Qed.

Lemma split_fields c s p q rest v : plain s -> pieces c s (p :: q :: rest) -> (forall x, In x v -> plain x) ->
  split s c v = Ok (fields (v ++ p :: q :: rest)).
Proof.
  intros P (_ & E & N) PV. unfold split. rewrite (split_loop_ok c s rest p q); auto; try lia.
  cbn [bind]. rewrite (mapM_map erase_spaces without_blanks).
  - cbn [bind]. rewrite fields_ok. reflexivity.
  - intros a I. apply erase_ok. apply in_app_or in I as [I|I]; [apply PV, I|]. intros x J. apply P. rewrite E. eapply in_join; eauto.
Qed.
Lemma split_lone c s v : ~ In c s -> (forall x, In x v -> plain x) -> split s c v = Ok (fields v).
Proof.
  intros N PV. unfold split. unfold find. cbn [skipn]. rewrite find_at_none by exact N. cbn [split_loop bind].
  rewrite (mapM_map erase_spaces without_blanks); [cbn [bind]; rewrite fields_ok; reflexivity|]. intros a I. apply erase_ok, PV, I.
Qed.

Lemma pieces_exist c s : exists ps, pieces c s ps.
Proof.
  induction s as [|x s (ps & N & E & H)].
  - exists [[]]. split; [discriminate|]. split; [reflexivity|]. intros p [<-|[]] [].
  - destruct ps as [|p ps]; [congruence|]. destruct (ascii_dec x c) as [->|D].
    + exists ([] :: p :: ps). split; [discriminate|]. split; [rewrite E; reflexivity|].
      intros r [<-|I]; [intros []|]. apply H, I.
    + exists ((x :: p) :: ps). split; [discriminate|]. split.
      * rewrite E. destruct ps; reflexivity.
      * intros r [<-|I]; [|apply H; right; exact I]. intros [?|J]; [congruence|]. apply (H p (or_introl eq_refl) J).
Qed.
Lemma pieces_head (c : ascii) (p rest p' rest' : str) : ~ In c p -> ~ In c p' -> p ++ c :: rest = p' ++ c :: rest' -> p = p' /\ rest = rest'.
Proof.
  revert p'. induction p as [|x p IH]; intros [|y p'] N N' E.
  - injection E as <-. auto.
  - injection E as <- E. exfalso. apply N'. left. reflexivity.
  - injection E as <- E. exfalso. apply N. left. reflexivity.
  - injection E as <- E. destruct (IH p') as (-> & ->); auto; intros I; [apply N|apply N']; right; exact I.
Qed.
Lemma pieces_unique c : forall ps ps' s, pieces c s ps -> pieces c s ps' -> ps = ps'.
Proof.
  induction ps as [|p ps IH]; intros ps' s (N & E & H) (N' & E' & H'); [congruence|].
  destruct ps' as [|p' ps']; [congruence|]. destruct ps as [|q ps]; destruct ps' as [|q' ps'].
  - cbn in E, E'. congruence.
  - cbn [join] in E. change (join c (p' :: q' :: ps')) with (p' ++ c :: join c (q' :: ps')) in E'.
    exfalso. apply (H p (or_introl eq_refl)). rewrite <- E, E'. apply in_or_app. right. left. reflexivity.
  - cbn [join] in E'. change (join c (p :: q :: ps)) with (p ++ c :: join c (q :: ps)) in E.
    exfalso. apply (H' p' (or_introl eq_refl)). rewrite <- E', E. apply in_or_app. right. left. reflexivity.
  - change (join c (p :: q :: ps)) with (p ++ c :: join c (q :: ps)) in E.
    change (join c (p' :: q' :: ps')) with (p' ++ c :: join c (q' :: ps')) in E'.
    rewrite E in E'. apply pieces_head in E' as (-> & E2); [|apply H; left; reflexivity|apply H'; left; reflexivity].
    f_equal. apply (IH (q' :: ps') (join c (q :: ps))).
    + split; [discriminate|]. split; [reflexivity|]. intros r I. apply H. right. exact I.
    + split; [discriminate|]. split; [exact E2|]. intros r I. apply H'. right. exact I.
Qed.

Lemma mapM_ok_iff {A B} (f : A -> result B) l bs : mapM f l = Ok bs <-> Forall2 (fun a b => f a = Ok b) l bs.
Proof.
  revert bs. induction l as [|a l IH]; intros bs; cbn [mapM].
  - split; [intros [= <-]; constructor|]. intros F. inversion F. reflexivity.
  - split.
    + destruct (f a) as [b| | |] eqn:E; cbn [bind]; try discriminate. destruct (mapM f l) as [r| | |] eqn:M; cbn [bind]; try discriminate.
      intros [= <-]. constructor; [exact E|]. apply IH. reflexivity.
    + intros F. inversion F as [|? b ? r E F']; subst. rewrite E. cbn [bind]. rewrite (proj2 (IH r) F'). reflexivity.
Qed.

Lemma read_line_ok {T} (parse : str -> option T) dim c s p q rest ts : plain s -> pieces c s (p :: q :: rest) ->
  (read_line parse dim c s = Ok ts <->
   length (fields (p :: q :: rest)) = dim /\ map parse (fields (p :: q :: rest)) = map Some ts).
Proof.
  intros P D. unfold read_line. rewrite (split_fields c s p q rest [] P D) by (intros x []). cbn [bind app].
  destruct (Nat.eqb_spec (length (fields (p :: q :: rest))) dim) as [E|E]; cbn [negb].
  - rewrite mapM_ok_iff. split.
    + intros F. split; [exact E|]. clear - F. induction F as [|a b l r Ha F IH]; [reflexivity|]. cbn [map]. rewrite IH.
      destruct (parse a); [injection Ha as ->; reflexivity|discriminate].
    + intros (_ & M). clear E. revert ts M. induction (fields (p :: q :: rest)) as [|a l IH]; intros [|t ts] M; try discriminate; constructor.
      * cbn in M. injection M as -> _. reflexivity.
      * apply IH. cbn in M. injection M as _ M. exact M.
  - split; [discriminate|]. intros (K & _). congruence.
Qed.
Lemma read_line_wrong {T} (parse : str -> option T) dim c s p q rest : plain s -> pieces c s (p :: q :: rest) ->
  length (fields (p :: q :: rest)) <> dim -> read_line parse dim c s = Throw RuntimeError.
Proof.
  intros P D E. unfold read_line. rewrite (split_fields c s p q rest [] P D) by (intros x []). cbn [bind app].
  destruct (Nat.eqb_spec (length (fields (p :: q :: rest))) dim) as [E'|_]; [congruence|]. reflexivity.
Qed.

Lemma read_points_wrong {T} (parse : str -> option T) dim skip c lines pts i line p q rest :
  read_points parse dim skip c lines = Ok pts -> skip <= i -> nth_error lines i = Some line ->
  plain line -> pieces c line (p :: q :: rest) -> length (fields (p :: q :: rest)) = dim.
Proof.
  unfold read_points. rewrite mapM_ok_iff. intros F Hs Hl P D.
  assert (K : nth_error (skipn skip lines) (i - skip) = Some line).
  { rewrite <- Hl. clear - Hs. revert i lines Hs. induction skip as [|k IH]; intros [|i] [|l lines] Hs; cbn; auto; try lia.
    - destruct (i - k); reflexivity.
    - apply IH. lia. }
  clear Hl. revert K. generalize (i - skip). intros n K.
  assert (exists ts, read_line parse dim c line = Ok ts) as (ts & R).
  { revert n K. induction F as [|a b l r Ha F IH]; intros [|n] K; try discriminate; [cbn in K; injection K as <-; eauto|eauto]. }
  apply (read_line_ok parse dim c line p q rest ts P D) in R. tauto.
Qed.
Lemma read_points_ok {T} (parse : str -> option T) dim skip c lines pts :
  Forall2 (fun line pt => plain line /\ length pt = dim /\
             exists p q rest, pieces c line (p :: q :: rest) /\ map parse (fields (p :: q :: rest)) = map Some pt)
    (skipn skip lines) pts ->
  read_points parse dim skip c lines = Ok pts.
Proof.
  unfold read_points. rewrite mapM_ok_iff. intros F. induction F as [|a b l r H F IH]; constructor; [|exact IH].
  destruct H as (P & L & p & q & rest & D & M). apply (read_line_ok parse dim c a p q rest b P D). split; [|exact M].
  rewrite <- L, <- (map_length parse (fields (p :: q :: rest))), M. apply map_length.
Qed.
