(** Polar forms of the polynomial pieces of the B-spline basis.  [NH k l args i] is
    the (homogeneous) polar form, at the arguments [args], of the restriction of
    N_{i,p} to the span [k_l, k_{l+1}); p = length args; an argument (u,1) stands for
    the parameter u and (1,0) for the direction of differentiation. *)
From Coq Require Import List Arith Reals Lia Lra Permutation.
From Verif Require Import Spec_Base Spec_Basis Proof_Base.
Import ListNotations.
Local Open Scope R_scope.

Fixpoint NH (k : nat -> R) (l : nat) (args : list (R * R)) (i : nat) : R :=
  match args with
  | [] => if (i =? l)%nat then 1 else 0
  | (a, w) :: rest =>
    let q := length rest in
    (a - w * k i) / (k (i + S q)%nat - k i) * NH k l rest i
    + (w * k (i + S (S q))%nat - a) / (k (i + S (S q))%nat - k (S i)) * NH k l rest (S i)
  end.

Definition lc (c : R) (x : R * R) (d : R) (y : R * R) : R * R :=
  (c * fst x + d * fst y, c * snd x + d * snd y).

(** Symmetric, linear in each argument (on lists of length p). *)
Definition symml (p : nat) (f : list (R * R) -> R) : Prop :=
  (forall a b, length a = p -> Permutation a b -> f a = f b) /\
  (forall c d x y r, S (length r) = p ->
     f (lc c x d y :: r) = c * f (x :: r) + d * f (y :: r)).

(** Consecutive knots k_{i+1} .. k_{i+q} as arguments. *)
Definition kargs (k : nat -> R) (i q : nat) : list (R * R) :=
  map (fun j => (k j, 1)) (seq (S i) q).

Lemma kargs_length k i q : length (kargs k i q) = q.
Proof. unfold kargs; rewrite map_length, seq_length; reflexivity. Qed.
Lemma kargs_S k i q : kargs k i (S q) = (k (S i), 1) :: kargs k (S i) q.
Proof. reflexivity. Qed.
Lemma kargs_snoc k i q : kargs k i (S q) = kargs k i q ++ [(k (i + S q)%nat, 1)].
Proof.
  unfold kargs. rewrite seq_S, map_app. simpl. do 4 f_equal. lia.
Qed.
Lemma kargs_ext k1 k2 i q :
  (forall j, (i < j <= i + q)%nat -> k1 j = k2 j) -> kargs k1 i q = kargs k2 i q.
Proof.
  intros H; unfold kargs. apply map_ext_in. intros j Hj; apply in_seq in Hj.
  rewrite H by lia; reflexivity.
Qed.

Section Blossom.
  Variable k : nat -> R.
  Variables l M : nat.
  Hypothesis mono : forall i j, (i <= j)%nat -> (j <= M)%nat -> k i <= k j.
  Hypothesis span : k l < k (S l).
  Notation NHl := (NH k l).

  Lemma den_pos i q : (i <= l)%nat -> (l < i + q)%nat -> (i + q <= M)%nat ->
    k i < k (i + q)%nat.
  Proof.
    intros H1 H2 H3. assert (k i <= k l) by (apply mono; lia).
    assert (k (S l) <= k (i + q)%nat) by (apply mono; lia). lra.
  Qed.

  Lemma NH_out args i : (l < i \/ i + length args < l)%nat -> NHl args i = 0.
  Proof.
    revert i; induction args as [|[a w] rest IH]; intros i Hi; simpl in *.
    - destruct (Nat.eqb_spec i l); auto; lia.
    - rewrite !IH by lia; lra.
  Qed.

  Lemma NH_lin c x d y r i :
    NHl (lc c x d y :: r) i = c * NHl (x :: r) i + d * NHl (y :: r) i.
  Proof. destruct x as [a w], y as [b v]; simpl; unfold Rdiv; ring. Qed.

  Lemma NH_swap x y r i : (l + S (S (length r)) <= M)%nat ->
    NHl (x :: y :: r) i = NHl (y :: x :: r) i.
  Proof.
    intros HM. destruct x as [a w], y as [b v]. cbn [NH length].
    set (q := length r) in *.
    replace (S i + S q)%nat with (i + S (S q))%nat by lia.
    replace (S i + S (S q))%nat with (i + S (S (S q)))%nat by lia.
    set (g0 := NHl r i). set (g2 := NHl r (S (S i))).
    destruct (Nat.le_gt_cases (S i) l) as [H1|H1].
    2:{ rewrite (NH_out r (S i)) by lia. unfold g2. rewrite (NH_out r (S (S i))) by lia.
        unfold Rdiv; ring. }
    destruct (Nat.le_gt_cases l (S i + q)) as [H2|H2].
    2:{ rewrite (NH_out r (S i)) by (fold q; lia). unfold Rdiv; ring. }
    assert (Hy : k i <= k (S i)) by (apply mono; lia).
    assert (Hz : k (S i) < k (i + S (S q))%nat).
    { replace (i + S (S q))%nat with (S i + S q)%nat by lia. apply den_pos; lia. }
    destruct (Nat.eq_dec (S i) l) as [El|El].
    - (* g2 = 0 and the k(i+q+3) factors only meet nonzero differences *)
      assert (Ht2 : k (i + S (S q))%nat <= k (i + S (S (S q)))%nat) by (apply mono; lia).
      set (g1 := NHl r (S i)). set (x0 := k i) in *. set (y0 := k (S i)) in *.
      set (z := k (i + S (S q))%nat) in *. set (t := k (i + S (S (S q)))%nat) in *.
      unfold g2; rewrite (NH_out r (S (S i))) by lia.
      assert (E : (a - w * x0) / (z - x0) * ((v * z - b) / (z - y0))
                + (w * t - a) / (t - y0) * ((b - v * y0) / (z - y0))
                = (b - v * x0) / (z - x0) * ((w * z - a) / (z - y0))
                + (v * t - b) / (t - y0) * ((a - w * y0) / (z - y0))).
      { field; repeat split; lra. }
      match goal with |- ?L = ?R => 
        replace L with ((a - w * x0) / (z - x0) * ((b - v * x0) / (k (i + S q)%nat - x0)) * g0
          + ((a - w * x0) / (z - x0) * ((v * z - b) / (z - y0))
                + (w * t - a) / (t - y0) * ((b - v * y0) / (z - y0))) * g1) by ring;
        replace R with ((a - w * x0) / (z - x0) * ((b - v * x0) / (k (i + S q)%nat - x0)) * g0
          + ((b - v * x0) / (z - x0) * ((w * z - a) / (z - y0))
                + (v * t - b) / (t - y0) * ((a - w * y0) / (z - y0))) * g1) by (unfold Rdiv; ring)
      end. rewrite E; reflexivity.
    - assert (Ht2 : k (i + S (S q))%nat <= k (i + S (S (S q)))%nat) by (apply mono; lia).
      set (g1 := NHl r (S i)). set (x0 := k i) in *. set (y0 := k (S i)) in *.
      set (z := k (i + S (S q))%nat) in *. set (t := k (i + S (S (S q)))%nat) in *.
      assert (E : (a - w * x0) / (z - x0) * ((v * z - b) / (z - y0))
                + (w * t - a) / (t - y0) * ((b - v * y0) / (z - y0))
                = (b - v * x0) / (z - x0) * ((w * z - a) / (z - y0))
                + (v * t - b) / (t - y0) * ((a - w * y0) / (z - y0))).
      { field; repeat split; lra. }
      set (D2 := t - k (S (S i))).
      match goal with |- ?L = ?R => 
        replace L with ((a - w * x0) / (z - x0) * ((b - v * x0) / (k (i + S q)%nat - x0)) * g0
          + ((a - w * x0) / (z - x0) * ((v * z - b) / (z - y0))
                + (w * t - a) / (t - y0) * ((b - v * y0) / (z - y0))) * g1
          + (w * t - a) / (t - y0) * ((v * t - b) / D2) * g2) by ring;
        replace R with ((a - w * x0) / (z - x0) * ((b - v * x0) / (k (i + S q)%nat - x0)) * g0
          + ((b - v * x0) / (z - x0) * ((w * z - a) / (z - y0))
                + (v * t - b) / (t - y0) * ((a - w * y0) / (z - y0))) * g1
          + (w * t - a) / (t - y0) * ((v * t - b) / D2) * g2) by (unfold Rdiv; ring)
      end. rewrite E; reflexivity.
  Qed.

  Lemma NH_perm a b : Permutation a b -> (l + length a <= M)%nat ->
    forall i, NHl a i = NHl b i.
  Proof.
    induction 1 as [|[x w] a b HP IH|x y r|a b c HP1 IH1 HP2 IH2]; intros HM i; auto.
    - cbn [NH]. rewrite <- (Permutation_length HP). simpl in HM.
      rewrite !IH by lia; reflexivity.
    - apply NH_swap; simpl in *; lia.
    - rewrite IH1 by auto. apply IH2. rewrite <- (Permutation_length HP1); auto.
  Qed.

  Lemma NH_symml p P n : (l + p <= M)%nat ->
    symml p (fun args => sumn n (fun i => NHl args i * P i)).
  Proof.
    intros HM; split.
    - intros a b Ha HP. apply sumn_ext; intros i _. rewrite (NH_perm a b) by (auto; lia); auto.
    - intros c d x y r _. rewrite <- !sumn_scal, <- sumn_plus.
      apply sumn_ext; intros i _. rewrite NH_lin; ring.
  Qed.

  (** Reproduction of symmetric multilinear functions (de Boor's algorithm). *)
  Lemma NH_repro_gen f p args : symml p f -> (length args <= l)%nat -> (l + p <= M)%nat ->
    forall pre, length (pre ++ args) = p ->
    sumn (S l) (fun i => NHl args i * f (pre ++ kargs k i (length args))) = f (pre ++ args).
  Proof.
    intros [Hsym Hlin] Hl HM. induction args as [|[a w] rest IH]; intros pre Hp.
    - cbn [length]. rewrite (sumn_single (S l) _ l).
      + unfold kargs; simpl. rewrite Nat.eqb_refl; lra.
      + lia.
      + intros i Hi Hne. simpl. apply Nat.eqb_neq in Hne; rewrite Hne; lra.
    - simpl in Hl. rewrite app_length in Hp; simpl in Hp.
      assert (IH' := IH ltac:(lia) (pre ++ [(a, w)])).
      rewrite <- app_assoc in IH'. cbn [app] in IH'. rewrite <- IH' by (rewrite app_length; simpl; lia).
      set (q := length rest) in *. cbn [NH length]. fold q.
      (* split the two terms and shift the second *)
      set (A := fun i => (a - w * k i) / (k (i + S q)%nat - k i) * NHl rest i
                         * f (pre ++ kargs k i (S q))).
      set (B := fun i => (w * k (i + S (S q))%nat - a) / (k (i + S (S q))%nat - k (S i))
                         * NHl rest (S i) * f (pre ++ kargs k i (S q))).
      rewrite (sumn_ext _ _ (fun i => A i + B i)) by (intros; unfold A, B; ring).
      rewrite sumn_plus.
      assert (HB : sumn (S l) B = sumn l B).
      { cbn [sumn]. unfold B at 2. rewrite (NH_out rest (S l)) by lia. ring. }
      rewrite HB. rewrite (sumn_shift l A).
      assert (HA0 : A 0%nat = NHl rest 0 * f (pre ++ (a, w) :: kargs k 0 q)).
      { unfold A. rewrite (NH_out rest 0) by (fold q; lia). ring. }
      rewrite HA0, Rplus_assoc, <- sumn_plus.
      rewrite (sumn_shift l). f_equal.
      { do 2 f_equal. rewrite <- app_assoc; reflexivity. }
      apply sumn_ext; intros i Hi. unfold A, B. rewrite <- app_assoc; cbn [app].
      destruct (Nat.le_gt_cases l (S i + q)) as [H2|H2].
      2:{ rewrite (NH_out rest (S i)) by (fold q; lia). ring. }
      replace (S i + S q)%nat with (i + S (S q))%nat by lia.
      assert (Hd : k (S i) < k (i + S (S q))%nat).
      { replace (i + S (S q))%nat with (S i + S q)%nat by lia. apply den_pos; lia. }
      set (z := k (i + S (S q))%nat) in *.
      set (c := (a - w * k (S i)) / (z - k (S i))).
      set (d := (w * z - a) / (z - k (S i))).
      assert (Hx : (a, w) = lc c (z, 1) d (k (S i), 1)).
      { unfold lc; simpl. f_equal; unfold c, d; field; lra. }
      assert (Hpre : forall y, f (pre ++ y :: kargs k (S i) q) = f (y :: pre ++ kargs k (S i) q)).
      { intros y. apply Hsym.
        - rewrite app_length; simpl; rewrite kargs_length; lia.
        - symmetry; apply Permutation_middle. }
      rewrite Hpre, Hx, Hlin by (rewrite app_length, kargs_length; lia).
      rewrite <- !Hpre, <- kargs_S.
      assert (Hz : f (pre ++ (z, 1) :: kargs k (S i) q) = f (pre ++ kargs k (S i) (S q))).
      { apply Hsym.
        - rewrite app_length; simpl; rewrite kargs_length; lia.
        - apply Permutation_app_head. rewrite kargs_snoc.
          replace (S i + S q)%nat with (i + S (S q))%nat by lia. fold z.
          apply Permutation_cons_append. }
      rewrite Hz. ring.
  Qed.

  Lemma NH_repro f p args : symml p f -> length args = p -> (p <= l)%nat -> (l + p <= M)%nat ->
    sumn (S l) (fun i => NHl args i * f (kargs k i p)) = f args.
  Proof.
    intros Hf Hp Hl HM. rewrite <- Hp. apply (NH_repro_gen f p args Hf ltac:(lia) HM []).
    exact Hp.
  Qed.

  (** Dual property: the pole P_j is the polar form at k_{j+1}..k_{j+p}. *)
  Lemma NH_dual p j i : (j <= l)%nat -> (l <= j + p)%nat -> (l + p <= M)%nat ->
    NHl (kargs k j p) i = if (i =? j)%nat then 1 else 0.
  Proof.
    revert j i; induction p as [|p IH]; intros j i H1 H2 HM.
    - simpl. replace j with l by lia. reflexivity.
    - destruct (Nat.eq_dec j l) as [->|Hne].
      + rewrite kargs_snoc.
        rewrite (NH_perm _ ((k (l + S p)%nat, 1) :: kargs k l p)).
        2: symmetry; apply Permutation_cons_append.
        2: rewrite app_length, kargs_length; simpl; lia.
        cbn [NH]. rewrite kargs_length. rewrite !IH by lia.
        destruct (Nat.eqb_spec i l) as [->|Hi].
        * replace (S l =? l)%nat with false by (symmetry; apply Nat.eqb_neq; lia).
          assert (k l < k (l + S p)%nat) by (apply den_pos; lia). rewrite Rmult_0_r. field. lra.
        * destruct (Nat.eqb_spec (S i) l) as [Hi2|Hi2]; [|ring].
          replace (i + S (S p))%nat with (l + S p)%nat by lia. unfold Rdiv; ring.
      + rewrite kargs_S. cbn [NH]. rewrite kargs_length. rewrite !IH by lia.
        change (S i =? S j)%nat with (i =? j)%nat.
        destruct (Nat.eqb_spec i j) as [->|Hi].
        * replace (j =? S j)%nat with false by (symmetry; apply Nat.eqb_neq; lia).
          replace (j + S (S p))%nat with (S j + S p)%nat by lia.
          assert (k (S j) < k (S j + S p)%nat) by (apply den_pos; lia). rewrite Rmult_0_r. field; lra.
        * destruct (Nat.eqb_spec i (S j)) as [->|Hi2]; [|ring]. unfold Rdiv; ring.
  Qed.

  (** Poles are recovered from the polar form. *)
  Lemma NH_dual_sum p j P : (j <= l)%nat -> (l <= j + p)%nat -> (l + p <= M)%nat ->
    sumn (S l) (fun i => NHl (kargs k j p) i * P i) = P j.
  Proof.
    intros H1 H2 HM. rewrite (sumn_single (S l) _ j); [|lia|].
    - rewrite NH_dual, Nat.eqb_refl by auto; ring.
    - intros i Hi Hne. rewrite NH_dual by auto. apply Nat.eqb_neq in Hne; rewrite Hne; ring.
  Qed.

  Lemma NH_sum args : (length args <= l)%nat -> (l + length args <= M)%nat ->
    sumn (S l) (fun i => NHl args i) = fold_right Rmult 1 (map snd args).
  Proof.
    intros Hl HM.
    set (f := fun a : list (R * R) => fold_right Rmult 1 (map snd a)).
    assert (Hf : symml (length args) f).
    { split.
      - intros a b _ HP. unfold f. induction HP; simpl; try lra.
        + rewrite IHHP; reflexivity.
      - intros c d x y r _. unfold f; simpl; ring. }
    change (fold_right Rmult 1 (map snd args)) with (f args).
    rewrite <- (NH_repro f (length args) args Hf eq_refl Hl HM).
    apply sumn_ext; intros i Hi. unfold f, kargs. rewrite map_map. simpl.
    replace (fold_right Rmult 1 (map (fun _ : nat => 1) (seq (S i) (length args)))) with 1; [ring|].
    induction (seq (S i) (length args)); simpl; lra.
  Qed.

  (** Non-negativity on the span. *)
  Lemma NH_nonneg q i u : k l <= u -> u <= k (S l) -> (l + q <= M)%nat ->
    0 <= NHl (repeat (u, 1) q) i.
  Proof.
    intros Hu1 Hu2. revert i; induction q as [|q IH]; intros i HM.
    - simpl. destruct (i =? l)%nat; lra.
    - cbn [repeat NH]. rewrite repeat_length.
      assert (T1 : 0 <= (u - 1 * k i) / (k (i + S q)%nat - k i) * NHl (repeat (u, 1) q) i).
      { destruct (Nat.le_gt_cases i l) as [H1|H1];
          [|rewrite NH_out by (rewrite ?repeat_length; lia); lra].
        destruct (Nat.le_gt_cases l (i + q)) as [H2|H2];
          [|rewrite NH_out by (rewrite ?repeat_length; lia); lra].
        assert (k i < k (i + S q)%nat) by (apply den_pos; lia).
        assert (k i <= k l) by (apply mono; lia).
        apply Rmult_le_pos; [|apply IH; lia].
        apply Rmult_le_pos; [lra|]. left; apply Rinv_0_lt_compat; lra. }
      assert (T2 : 0 <= (1 * k (i + S (S q))%nat - u) / (k (i + S (S q))%nat - k (S i))
                        * NHl (repeat (u, 1) q) (S i)).
      { destruct (Nat.le_gt_cases (S i) l) as [H1|H1];
          [|rewrite (NH_out _ (S i)) by (rewrite ?repeat_length; lia); lra].
        destruct (Nat.le_gt_cases l (S i + q)) as [H2|H2];
          [|rewrite (NH_out _ (S i)) by (rewrite ?repeat_length; lia); lra].
        replace (i + S (S q))%nat with (S i + S q)%nat by lia.
        assert (k (S i) < k (S i + S q)%nat) by (apply den_pos; lia).
        assert (k (S l) <= k (S i + S q)%nat) by (apply mono; lia).
        apply Rmult_le_pos; [|apply IH; lia].
        apply Rmult_le_pos; [lra|]. left; apply Rinv_0_lt_compat; lra. }
      lra.
  Qed.

  (** Derivative of the diagonal. *)
  Lemma NH_deriv0 q i u : (l + S q <= M)%nat ->
    derivable_pt_lim (fun x => NHl (repeat (x, 1) (S q)) i) u
      (INR (S q) * NHl ((1, 0) :: repeat (u, 1) q) i).
  Proof.
    revert i; induction q as [|q IH]; intros i HM.
    - set (c1 := / (k (i + 1)%nat - k i)). set (c2 := / (k (i + 2)%nat - k (S i))).
      assert (E : forall x, NHl (repeat (x, 1) 1) i =
        (c1 * NHl [] i - c2 * NHl [] (S i)) * x
        + (k (i + 2)%nat * c2 * NHl [] (S i) - k i * c1 * NHl [] i)).
      { intros x; cbn [repeat NH length]. unfold Rdiv. fold c1 c2. ring. }
      intros e He. exists (mkposreal 1 Rlt_0_1). intros h Hh _. rewrite !E.
      match goal with |- Rabs ?X < _ => replace X with 0; [rewrite Rabs_R0; exact He|] end.
      cbn [repeat NH length]. simpl INR. unfold Rdiv. fold c1 c2. field. exact Hh.
    - set (c1 := / (k (i + S (S q))%nat - k i)).
      set (z := k (i + S (S (S q)))%nat).
      set (c2 := / (z - k (S i))).
      set (g := fun j x => NHl (repeat (x, 1) (S q)) j).
      set (f := fun x => ((x - k i) * c1) * g i x + ((z - x) * c2) * g (S i) x).
      assert (Ef : forall x, NHl (repeat (x, 1) (S (S q))) i = f x).
      { intros x. unfold f, g. change (repeat (x, 1) (S (S q))) with ((x, 1) :: repeat (x, 1) (S q)).
        cbn [NH]. rewrite repeat_length. fold z. unfold Rdiv. fold c1 c2. ring. }
      set (g' := fun j => INR (S q) * NHl ((1, 0) :: repeat (u, 1) q) j).
      assert (Hg : forall j, derivable_pt_lim (g j) u (g' j)) by (intros j; apply IH; lia).
      assert (H1 : derivable_pt_lim (fun x => (x - k i) * c1) u c1).
      { intros e He. exists (mkposreal 1 Rlt_0_1). intros h Hh _.
        match goal with |- Rabs ?X < _ => replace X with 0; [rewrite Rabs_R0; exact He|] end.
        field; exact Hh. }
      assert (H2 : derivable_pt_lim (fun x => (z - x) * c2) u (- c2)).
      { intros e He. exists (mkposreal 1 Rlt_0_1). intros h Hh _.
        match goal with |- Rabs ?X < _ => replace X with 0; [rewrite Rabs_R0; exact He|] end.
        field; exact Hh. }
      assert (Hf : derivable_pt_lim f u
         ((c1 * g i u + ((u - k i) * c1) * g' i) + ((- c2) * g (S i) u + ((z - u) * c2) * g' (S i)))).
      { apply (derivable_pt_lim_plus (fun x => ((x - k i) * c1) * g i x)
                 (fun x => ((z - x) * c2) * g (S i) x)).
        - apply (derivable_pt_lim_mult (fun x => (x - k i) * c1) (g i)); auto.
        - apply (derivable_pt_lim_mult (fun x => (z - x) * c2) (g (S i))); auto. }
      intros e He. destruct (Hf e He) as [dl Hd]. exists dl. intros h Hh Hhd.
      rewrite !Ef.
      replace (INR (S (S q)) * NHl ((1, 0) :: repeat (u, 1) (S q)) i) with
        ((c1 * g i u + ((u - k i) * c1) * g' i) + ((- c2) * g (S i) u + ((z - u) * c2) * g' (S i)));
        [apply Hd; auto|].
      transitivity (NHl ((1, 0) :: repeat (u, 1) (S q)) i
                    + INR (S q) * NHl ((u, 1) :: (1, 0) :: repeat (u, 1) q) i).
      + assert (X1 : NHl ((1, 0) :: repeat (u, 1) (S q)) i = c1 * g i u - c2 * g (S i) u).
        { cbn [NH]. rewrite repeat_length. fold z. unfold Rdiv. fold c1 c2.
          fold (g i u) (g (S i) u). ring. }
        assert (X2 : NHl ((u, 1) :: (1, 0) :: repeat (u, 1) q) i =
          (u - k i) * c1 * NHl ((1, 0) :: repeat (u, 1) q) i
          + (z - u) * c2 * NHl ((1, 0) :: repeat (u, 1) q) (S i)).
        { remember ((1, 0) :: repeat (u, 1) q) as rr eqn:Err. cbn [NH].
          replace (length rr) with (S q) by (rewrite Err; simpl; rewrite repeat_length; auto).
          fold z. unfold Rdiv. fold c1 c2. ring. }
        rewrite X1, X2. unfold g'. ring.
      + rewrite NH_swap by (rewrite repeat_length; lia).
        change ((u, 1) :: repeat (u, 1) q) with (repeat (u, 1) (S q)).
        rewrite (S_INR (S q)). ring.
  Qed.

  Lemma NH_deriv pre q i u : (l + S q <= M)%nat ->
    derivable_pt_lim (fun x => NHl (pre ++ repeat (x, 1) (S q)) i) u
      (INR (S q) * NHl (pre ++ (1, 0) :: repeat (u, 1) q) i).
  Proof.
    intros HM. revert i; induction pre as [|[a w] pre IH]; intros i.
    - apply NH_deriv0; auto.
    - cbn [app NH].
      set (L := length (pre ++ (1, 0) :: repeat (u, 1) q)).
      assert (HL : forall x, length (pre ++ repeat (x, 1) (S q)) = L).
      { intros x; unfold L; rewrite !app_length; simpl; rewrite !repeat_length; lia. }
      set (A := (a - w * k i) / (k (i + S L)%nat - k i)).
      set (B := (w * k (i + S (S L))%nat - a) / (k (i + S (S L))%nat - k (S i))).
      assert (D : derivable_pt_lim (fun x => A * NHl (pre ++ repeat (x, 1) (S q)) i
                   + B * NHl (pre ++ repeat (x, 1) (S q)) (S i)) u
              (A * (INR (S q) * NHl (pre ++ (1, 0) :: repeat (u, 1) q) i)
               + B * (INR (S q) * NHl (pre ++ (1, 0) :: repeat (u, 1) q) (S i)))).
      { apply (derivable_pt_lim_plus (fun x => A * NHl (pre ++ repeat (x, 1) (S q)) i)
                 (fun x => B * NHl (pre ++ repeat (x, 1) (S q)) (S i))).
        - apply (derivable_pt_lim_scal (fun x => NHl (pre ++ repeat (x, 1) (S q)) i)). apply IH.
        - apply (derivable_pt_lim_scal (fun x => NHl (pre ++ repeat (x, 1) (S q)) (S i))). apply IH. }
      intros e He. destruct (D e He) as [dl Hd]. exists dl. intros h Hh Hhd.
      specialize (Hd h Hh Hhd). rewrite !HL. fold A B.
      match goal with |- Rabs ?X < _ => match type of Hd with Rabs ?Y < _ =>
        replace X with Y; [exact Hd|] end end. ring.
  Qed.
End Blossom.

(** ** Agreement with the Cox - de Boor definition *)
Lemma N_NH k l M p i u :
  (forall a b, (a <= b)%nat -> (b <= M)%nat -> k a <= k b) ->
  (S l <= M)%nat -> k l <= u -> u < k (S l) -> (i + p + 1 <= M)%nat ->
  N k p i u = NH k l (repeat (u, 1) p) i.
Proof.
  intros mono HlM Hu1 Hu2. revert i; induction p as [|p IH]; intros i Hi.
  - simpl. destruct (Nat.eqb_spec i l) as [->|Hne].
    + destruct (Rle_dec (k l) u); [|lra]. destruct (Rlt_dec u (k (S l))); lra.
    + destruct (Rle_dec (k i) u); auto. destruct (Rlt_dec u (k (S i))); auto.
      destruct (Nat.lt_ge_cases i l).
      * assert (k (S i) <= k l) by (apply mono; lia). lra.
      * assert (k (S l) <= k i) by (apply mono; lia). lra.
  - cbn [N repeat NH]. rewrite repeat_length.
    rewrite !IH by lia. replace (i + S p + 1)%nat with (i + S (S p))%nat by lia.
    rewrite !Rmult_1_l. unfold gdiv. f_equal.
    + destruct (Req_EM_T (k (i + S p)%nat - k i) 0) as [E|E]; auto.
      rewrite NH_out; [ring|]. rewrite repeat_length.
      destruct (Nat.le_gt_cases i l); [|lia]. destruct (Nat.le_gt_cases l (i + p)); [|lia].
      assert (k i <= k l) by (apply mono; lia).
      assert (k (S l) <= k (i + S p)%nat) by (apply mono; lia). lra.
    + destruct (Req_EM_T (k (i + S (S p))%nat - k (S i)) 0) as [E|E]; auto.
      rewrite NH_out; [ring|]. rewrite repeat_length.
      destruct (Nat.le_gt_cases (S i) l); [|lia]. destruct (Nat.le_gt_cases l (S i + p)); [|lia].
      assert (k (S i) <= k l) by (apply mono; lia).
      assert (k (S l) <= k (i + S (S p))%nat) by (apply mono; lia). lra.
Qed.

Lemma NL_NH k l M p i u :
  (forall a b, (a <= b)%nat -> (b <= M)%nat -> k a <= k b) ->
  (S l <= M)%nat -> k l < u -> u <= k (S l) -> (i + p + 1 <= M)%nat ->
  NL k p i u = NH k l (repeat (u, 1) p) i.
Proof.
  intros mono HlM Hu1 Hu2. revert i; induction p as [|p IH]; intros i Hi.
  - simpl. destruct (Nat.eqb_spec i l) as [->|Hne].
    + destruct (Rlt_dec (k l) u); [|lra]. destruct (Rle_dec u (k (S l))); lra.
    + destruct (Rlt_dec (k i) u); auto. destruct (Rle_dec u (k (S i))); auto.
      destruct (Nat.lt_ge_cases i l).
      * assert (k (S i) <= k l) by (apply mono; lia). lra.
      * assert (k (S l) <= k i) by (apply mono; lia). lra.
  - cbn [NL repeat NH]. rewrite repeat_length.
    rewrite !IH by lia. replace (i + S p + 1)%nat with (i + S (S p))%nat by lia.
    rewrite !Rmult_1_l. unfold gdiv. f_equal.
    + destruct (Req_EM_T (k (i + S p)%nat - k i) 0) as [E|E]; auto.
      rewrite NH_out; [ring|]. rewrite repeat_length.
      destruct (Nat.le_gt_cases i l); [|lia]. destruct (Nat.le_gt_cases l (i + p)); [|lia].
      assert (k i <= k l) by (apply mono; lia).
      assert (k (S l) <= k (i + S p)%nat) by (apply mono; lia). lra.
    + destruct (Req_EM_T (k (i + S (S p))%nat - k (S i)) 0) as [E|E]; auto.
      rewrite NH_out; [ring|]. rewrite repeat_length.
      destruct (Nat.le_gt_cases (S i) l); [|lia]. destruct (Nat.le_gt_cases l (S i + p)); [|lia].
      assert (k (S i) <= k l) by (apply mono; lia).
      assert (k (S l) <= k (i + S (S p))%nat) by (apply mono; lia). lra.
Qed.
