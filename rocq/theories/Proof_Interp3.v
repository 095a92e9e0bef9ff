(** Least squares approximation. *)
From Coq Require Import List Arith ZArith Reals Lia Lra Bool Permutation.
From Verif Require Import Model_Base Model_Knots Model_Basis Model_Curve Model_Interp
  Spec_Base Spec_Basis Spec_Eval Spec_Knots Spec_Interp Proof_Base Proof_Blossom Proof_Basis Proof_Ders Proof_Eval
  Proof_PropBasis Proof_Ctor Proof_Curve Proof_Builders Proof_Band Proof_Interp Proof_Interp2.
Import ListNotations.
Local Open Scope R_scope.

Section AtR.
Variable eps : R.
Local Hint Extern 0 (Num R) => exact (NumR eps) : typeclass_instances.

Lemma nsum_R n f : nsum n f = sumn n f.
Proof.
  unfold nsum. apply (forp_inv (fun m s => s = sumn m f) (fun i s => nadd s (f i)) 0 n); [reflexivity|].
  intros i s _ ->. reflexivity.
Qed.

Lemma nth_map_seq {A} (f : nat -> A) n j d : (j < n)%nat -> nth j (map f (seq 0 n)) d = f j.
Proof.
  intros Hj. rewrite (nth_indep _ d (f 0%nat)) by (rewrite map_length, seq_length; exact Hj).
  rewrite map_nth, seq_nth by exact Hj. reflexivity.
Qed.

Lemma front_nth {A} (l : list A) d : (0 < length l)%nat -> front l = Ok (nth 0 l d).
Proof. destruct l; simpl; [lia|reflexivity]. Qed.
Lemma back_nth {A} (l : list A) d : (0 < length l)%nat -> back l = Ok (nth (length l - 1) l d).
Proof.
  intros H. unfold back. rewrite <- (rev_involutive l) at 2 3. rewrite <- (rev_length l) in H.
  destruct (rev l) as [|a t]; [simpl in H; lia|]. simpl. rewrite app_length. simpl.
  rewrite app_nth2 by lia. rewrite Nat.add_sub, Nat.sub_diag. reflexivity.
Qed.

(** Normal equations give the least squares. *)
Lemma lsq_opt m n (A : nat -> nat -> R) (x b y : nat -> R) :
  (forall j, (j < n)%nat -> sumn m (fun r => A r j * (sumn n (fun l => A r l * x l) - b r)) = 0) ->
  sumn m (fun r => (sumn n (fun l => A r l * x l) - b r) ^ 2) <=
  sumn m (fun r => (sumn n (fun l => A r l * y l) - b r) ^ 2).
Proof.
  intros H. set (e := fun l => y l - x l). set (res := fun r => sumn n (fun l => A r l * x l) - b r).
  set (Ae := fun r => sumn n (fun l => A r l * e l)).
  assert (E : forall r, sumn n (fun l => A r l * y l) - b r = res r + Ae r).
  { intros r. unfold res, Ae, e. rewrite (sumn_ext n (fun l => A r l * (y l - x l)) (fun l => A r l * y l - A r l * x l)) by (intros; ring).
    rewrite sumn_minus. ring. }
  rewrite (sumn_ext m (fun r => (sumn n (fun l => A r l * y l) - b r) ^ 2)
     (fun r => res r ^ 2 + (2 * (res r * Ae r) + Ae r ^ 2))) by (intros r _; rewrite E; ring).
  rewrite !sumn_plus, sumn_scal.
  assert (Z : sumn m (fun r => res r * Ae r) = 0).
  { rewrite (sumn_ext m _ (fun r => sumn n (fun l => res r * (A r l * e l)))) by (intros r _; unfold Ae; rewrite sumn_scal; reflexivity).
    rewrite sumn_swap. rewrite (sumn_ext n _ (fun l => e l * sumn m (fun r => A r l * res r))).
    - rewrite (sumn_ext n _ (fun _ => 0)); [apply sumn_zero; auto|]. intros l Hl. unfold res. rewrite H by exact Hl. ring.
    - intros l _. rewrite <- sumn_scal. apply sumn_ext. intros; ring. }
  rewrite Z. pose proof (sumn_nonneg m (fun r => Ae r ^ 2)) as Hn.
  assert (0 <= sumn m (fun r => Ae r ^ 2)) by (apply Hn; intros; apply pow2_ge_0). clear E H Hn. change (sumn m (fun r => res r ^ 2) <= sumn m (fun r => res r ^ 2) + (2 * 0 + sumn m (fun r => Ae r ^ 2))). lra.
Qed.

Lemma solve_lsq ldlt N b x : exact_solver ldlt -> solve_approx_banded ldlt N b = Ok x ->
  length b = m_rows N /\ length x = m_cols N /\
  forall j, (j < m_cols N)%nat ->
    sumn (m_rows N) (fun r => m_cell N r j * (sumn (m_cols N) (fun l => m_cell N r l * nth l x 0) - nth r b 0)) = 0.
Proof.
  intros Hex E. unfold solve_approx_banded in E. destruct (Nat.eqb_spec (length b) (m_rows N)) as [Hb|]; [|discriminate].
  destruct (Hex _ _ _ E) as (Lx & _ & Hs). { unfold trans_mul, gram. rewrite map_length, seq_length. reflexivity. }
  split; [exact Hb|]. split; [exact Lx|]. intros j Hj. specialize (Hs j Hj).
  cbn [gram m_cols m_rows m_cell] in Hs. unfold trans_mul in Hs.
  rewrite nth_map_seq in Hs by exact Hj. rewrite nsum_R in Hs.

  rewrite (sumn_ext _ _ (fun r => m_cell N r j * sumn (m_cols N) (fun l => m_cell N r l * nth l x 0) - m_cell N r j * nth r b 0))
    by (intros; ring).
  rewrite sumn_minus. apply Rminus_diag_eq.
  etransitivity; [|etransitivity; [exact Hs|]].
  - rewrite (sumn_ext (m_cols N) _ (fun l => sumn (m_rows N) (fun r => m_cell N r j * m_cell N r l * nth l x 0))).
    + rewrite sumn_swap. apply sumn_ext. intros r _. rewrite <- sumn_scal. apply sumn_ext. intros; ring.
    + intros l _. rewrite nsum_R. rewrite Rmult_comm, <- sumn_scal. apply sumn_ext. intros r _. nsimp. ring.
  - apply sumn_ext. intros r Hr. rewrite (nth_error_nth' b 0) by lia. nsimp. reflexivity.
Qed.

Section Rows.
Variables (k : list R) (n p : nat).
Hypothesis Hk : knots_ok k n p.
Hypothesis Hev : evaluable eps k n p.
Notation rv := (rv eps k n p).
Notation inside := (inside k n p).

Lemma rv_spline u (P : list (pt R)) c : inside u -> length P = n ->
  sumn n (fun j => rv u 0 j * nth j P (fun _ => 0) c) = spline (kn k) n p (fun j => nth j P (fun _ => 0) c) u.
Proof.
  intros Hu HP. destruct (rv_eval eps k n p Hk u 0 P Hu HP Hev) as (q & E & V).
  destruct (eval_value_correct eps k n p P u Hk HP Hev Hu) as (q' & E' & V').
  rewrite E in E'. injection E' as <-. exact (eq_trans (eq_sym (V c)) (V' c)).
Qed.

Lemma inner_rows_ok (u : list R) : (2 <= length u)%nat -> (forall x, In x u -> inside x) ->
  exists N, inner_rows k u p n = Ok N /\ m_rows N = (length u - 2)%nat /\ m_cols N = n /\
    forall i b, (i < length u - 2)%nat -> m_cell N i b = rv (nth (1 + i) u 0) 0 b.
Proof.
  intros H2 Hu. unfold inner_rows, subi. destruct (Nat.leb_spec 2 (length u)); [|lia]. cbn [bind].
  set (m := (length u - 2)%nat).
  destruct (for_inv (fun j N => m_rows N = m /\ m_cols N = n /\
      forall a b, m_cell N a b = if (a <? j)%nat then rv (nth (1 + a) u 0) 0 b else 0)
    (fun i N => let* ui := get u (i + 1) in fill_basis_row N i ui k p 0) 0 m (mzero m n)) as (N & E & R1 & C1 & V1).
  - split; [reflexivity|]. split; [reflexivity|]. intros a b. reflexivity.
  - intros i N Hi (R1 & C1 & V1). rewrite (get_nth u _ 0) by (unfold m in *; lia). cbn [bind].
    rewrite (Nat.add_comm i 1).
    destruct (fill_row_ok eps k n p Hk N i (nth (1 + i) u 0) 0) as (N' & E' & R' & C' & V');
      [apply Hu, nth_In; unfold m in *; lia|exact Hev|lia|exact C1| |].
    { intros b. rewrite V1. destruct (Nat.ltb_spec i i); [lia|reflexivity]. }
    exists N'. split; [exact E'|]. split; [congruence|]. split; [exact C'|]. intros a b. rewrite V', V1.
    destruct (Nat.eqb_spec a i) as [->|].
    + destruct (Nat.ltb_spec i (S i)); [reflexivity|lia].
    + destruct (Nat.ltb_spec a i), (Nat.ltb_spec a (S i)); try lia; reflexivity.
  - exists N. split; [exact E|]. split; [exact R1|]. split; [exact C1|]. intros i b Hi. rewrite V1.
    destruct (Nat.ltb_spec i (0 + m)); [reflexivity|unfold m in *; lia].
Qed.

(** rows of a system, columns 1..n-2 and the two ends *)
Lemma split_ends (f : nat -> R) : (2 <= n)%nat -> sumn n f = f 0%nat + sumn (n - 2) (fun j => f (j + 1)%nat) + f (n - 1)%nat.
Proof.
  intros Hn. destruct n as [|[|m]] eqn:En; try lia. clear.
  replace (S (S m) - 2)%nat with m by lia. replace (S (S m) - 1)%nat with (S m) by lia.
  change (sumn (S (S m)) f) with (sumn (S m) f + f (S m)). f_equal.
  induction m as [|m IH]; [simpl; lra|].
  change (sumn (S (S m)) f) with (sumn (S m) f + f (S m)). rewrite IH. simpl. rewrite Nat.add_1_r. lra.
Qed.

Lemma nth_app_mid {A} (a z : A) l i d : (0 < i <= length l)%nat -> nth i (a :: l ++ [z]) d = nth (i - 1) l d.
Proof.
  intros Hi. destruct i as [|i]; [lia|]. cbn [nth]. rewrite app_nth1 by lia. f_equal; lia.
Qed.
Lemma nth_app_last {A} (a z : A) l d : nth (length l + 1) (a :: l ++ [z]) d = z.
Proof.
  rewrite Nat.add_1_r. cbn [nth]. rewrite app_nth2 by lia. rewrite Nat.sub_diag. reflexivity.
Qed.

Lemma bound_fixed_ok ldlt dim (pts : list (pt R)) (u : list R) c :
  exact_solver ldlt -> (2 <= n)%nat -> length u = length pts -> (forall x, In x u -> inside x) ->
  approx_bound_fixed ldlt dim pts p n u k = Ok c ->
  c_deg c = p /\ c_knots c = k /\ length (c_poles c) = n /\ (n <= length pts)%nat /\
  nth 0 (c_poles c) (fun _ => 0) = nth 0 pts (fun _ => 0) /\
  nth (n - 1) (c_poles c) (fun _ => 0) = nth (length pts - 1) pts (fun _ => 0) /\
  forall P' co, (co < dim)%nat -> length P' = n ->
    nth 0 P' (fun _ => 0) co = nth 0 pts (fun _ => 0) co ->
    nth (n - 1) P' (fun _ => 0) co = nth (length pts - 1) pts (fun _ => 0) co ->
    sq_err k n p (c_poles c) u pts co 1 (length pts - 2) <= sq_err k n p P' u pts co 1 (length pts - 2).
Proof.
  intros Hex Hn2 Hu Hin E. unfold approx_bound_fixed in E. apply bind_inv in E as ([] & Ec & E).
  unfold check_approx_sizes in Ec. destruct (Nat.ltb_spec n (p + 1)); [discriminate|].
  destruct (Nat.ltb_spec (length pts) n); [discriminate|]. clear Ec.
  destruct (inner_rows_ok u ltac:(lia) Hin) as (Nf & EN & R1 & C1 & V1). rewrite EN in E. cbn [bind] in E.
  assert (Es : forall a, (2 <= a)%nat -> subi a 2 = Ok (a - 2)%nat).
  { intros a Ha. unfold subi. destruct (Nat.leb_spec 2 a); [reflexivity|lia]. }
  rewrite Es in E by lia. cbn [bind] in E.
  assert (Ef : front pts = Ok (nth 0 pts (fun _ => 0))) by (apply front_nth; lia).
  assert (Eb : back pts = Ok (nth (length pts - 1) pts (fun _ => 0))) by (apply back_nth; lia).
  rewrite Ef, Eb in E. cbn [bind] in E. rewrite Es in E by lia. cbn [bind] in E.
  set (pb := nth 0 pts (fun _ => 0)) in *. set (pe := nth (length pts - 1) pts (fun _ => 0)) in *.
  apply bind_inv in E as (X & EX & E).
  set (mid := poles_of_columns (n - 2) X) in *.
  assert (Lmid : length mid = (n - 2)%nat) by apply poles_length.
  assert (Lall : length (pb :: mid ++ [pe]) = n).
  { simpl. rewrite app_length, Lmid. simpl. lia. }
  pose proof Hk as (Lk & Hpn & Hnd & _).
  rewrite (mk_curve_accepts eps) in E by (rewrite ?Lall; auto; lia). injection E as <-.
  cbn [c_deg c_knots c_poles].
  split; [reflexivity|]. split; [reflexivity|]. split; [exact Lall|]. split; [lia|]. split; [reflexivity|].
  split. { replace (n - 1)%nat with (length mid + 1)%nat by lia. apply nth_app_last. }
  intros P' co Hco LP' HP0 HP1. unfold sq_err.
  destruct (mapM_nth _ _ _ EX) as (HL & HI). rewrite seq_length in HL.
  destruct (HI co co) as (x & Hx & Esol).
  { rewrite (nth_error_nth' _ 0%nat) by (rewrite seq_length; lia). rewrite seq_nth by lia. reflexivity. }
  apply bind_inv in Esol as (b & Ebb & Esol).
  destruct (mapM_nth _ _ _ Ebb) as (Lb & Hb). rewrite seq_length in Lb.
  assert (Vb : forall r, (r < length pts - 2)%nat -> nth r b 0 =
     nth (1 + r) pts (fun _ => 0) co - pb co * rv (nth (1 + r) u 0) 0 0 - pe co * rv (nth (1 + r) u 0) 0 (n - 1)).
  { intros r Hr. destruct (Hb r r) as (v & Ev & Ec).
    { rewrite (nth_error_nth' _ 0%nat) by (rewrite seq_length; lia). rewrite seq_nth by lia. reflexivity. }
    rewrite (get_nth pts _ (fun _ => 0)) in Ec by lia. cbn [bind] in Ec. unfold mget in Ec.
    rewrite R1, C1, Hu in Ec. destruct (Nat.ltb_spec r (length pts - 2)); [|lia].
    destruct (Nat.ltb_spec 0 n); [|lia]. destruct (Nat.ltb_spec (n - 1) n); [|lia]. cbn [andb bind] in Ec.
    rewrite !V1 in Ec by lia. injection Ec as <-. rewrite (nth_error_nth b r 0 Ev). nsimp.
    rewrite (Nat.add_comm r 1). reflexivity. }
  destruct (solve_lsq ldlt _ b x Hex Esol) as (Lb' & Lx & Hne).
  cbn [m_rows m_cols m_cell] in *. rewrite R1, Hu in *.
  (* residuals in terms of the inner unknowns *)
  assert (G : forall (P : list (pt R)) r, length P = n -> (r < length pts - 2)%nat ->
     nth 0 P (fun _ => 0) co = pb co -> nth (n - 1) P (fun _ => 0) co = pe co ->
     spline (kn k) n p (fun j => nth j P (fun _ => 0) co) (nth (1 + r) u 0) - nth (1 + r) pts (fun _ => 0) co =
     sumn (n - 2) (fun l => m_cell Nf r (l + 1) * nth (l + 1) P (fun _ => 0) co) - nth r b 0).
  { intros P r LP Hr P0 P1.
    assert (Hi : inside (nth (1 + r) u 0)) by (apply Hin, nth_In; lia).
    rewrite <- (rv_spline _ P co Hi LP). rewrite split_ends by exact Hn2. rewrite P0, P1, Vb by exact Hr.
    rewrite (sumn_ext (n - 2) (fun l => m_cell Nf r (l + 1) * _) (fun l => rv (nth (1 + r) u 0) 0 (l + 1) * nth (l + 1) P (fun _ => 0) co))
      by (intros l Hl; rewrite V1 by lia; reflexivity). ring. }
  rewrite (sumn_ext _ _ (fun r => (sumn (n - 2) (fun l => m_cell Nf r (l + 1) * nth (l + 1) (pb :: mid ++ [pe]) (fun _ => 0) co) - nth r b 0) ^ 2)).
  2:{ intros r Hr. rewrite G; auto. replace (n - 1)%nat with (length mid + 1)%nat by lia. rewrite nth_app_last. reflexivity. }
  rewrite (sumn_ext (length pts - 2) (fun i => (spline (kn k) n p (fun j => nth j P' _ co) _ - _) ^ 2) (fun r => (sumn (n - 2) (fun l => m_cell Nf r (l + 1) * nth (l + 1) P' (fun _ => 0) co) - nth r b 0) ^ 2)).
  2:{ intros r Hr. rewrite G; auto. }
  assert (Hxm : forall l, (l < n - 2)%nat -> nth (l + 1) (pb :: mid ++ [pe]) (fun _ => 0) co = nth l x 0).
  { intros l Hl. rewrite nth_app_mid by lia. replace (l + 1 - 1)%nat with l by lia.
    exact (poles_cell eps (n - 2) X co l x Hx Hl Lx). }
  apply (lsq_opt (length pts - 2) (n - 2) (fun r l => m_cell Nf r (l + 1)) _ (fun r => nth r b 0)
     (fun l => nth (l + 1) P' (fun _ => 0) co)).
  intros j Hj. etransitivity; [|exact (Hne j Hj)]. apply sumn_ext. intros r _. f_equal. f_equal.
  apply sumn_ext. intros l Hl. f_equal. exact (Hxm l Hl).
Qed.

Lemma free_ok ldlt dim (pts : list (pt R)) (u : list R) c :
  exact_solver ldlt -> length u = length pts -> (forall x, In x u -> inside x) ->
  approx_free ldlt dim pts p n u k = Ok c ->
  c_deg c = p /\ c_knots c = k /\ length (c_poles c) = n /\ (n <= length pts)%nat /\
  forall P' co, (co < dim)%nat -> length P' = n ->
    sq_err k n p (c_poles c) u pts co 0 (length pts) <= sq_err k n p P' u pts co 0 (length pts).
Proof.
  intros Hex Hu Hin E. unfold approx_free in E. apply bind_inv in E as ([] & Ec & E).
  unfold check_approx_sizes in Ec. destruct (Nat.ltb_spec n (p + 1)); [discriminate|].
  destruct (Nat.ltb_spec (length pts) n); [discriminate|]. clear Ec.
  destruct (matrix_ok eps k n p Hk 1 u (length u) (le_n 1) Hev Hin ltac:(lia)) as (N & EN & R1 & C1 & V1 & _).
  rewrite EN in E. cbn [bind] in E. apply bind_inv in E as (X & EX & E).
  pose proof Hk as (Lk & Hpn & Hnd & _).
  assert (LP : length (poles_of_columns n X) = n) by apply poles_length.
  rewrite (mk_curve_accepts eps) in E by (rewrite ?LP; auto; lia). injection E as <-.
  cbn [c_deg c_knots c_poles].
  split; [reflexivity|]. split; [reflexivity|]. split; [exact LP|]. split; [lia|].
  intros P' co Hco LP'. unfold sq_err.
  destruct (mapM_nth _ _ _ EX) as (HL & HI). rewrite seq_length in HL.
  destruct (HI co co) as (x & Hx & Esol).
  { rewrite (nth_error_nth' _ 0%nat) by (rewrite seq_length; lia). rewrite seq_nth by lia. reflexivity. }
  destruct (solve_lsq ldlt _ _ x Hex Esol) as (_ & Lx & Hne).
  rewrite R1, C1, Hu in *.
  assert (Hcol : forall r, nth r (map (fun q : pt R => q co) pts) 0 = nth r pts (fun _ => 0) co).
  { intros r. apply (map_nth (fun q : pt R => q co) pts (fun _ => 0) r). }
  assert (G : forall (P : list (pt R)) r, length P = n -> (r < length pts)%nat ->
     spline (kn k) n p (fun j => nth j P (fun _ => 0) co) (nth (0 + r) u 0) - nth (0 + r) pts (fun _ => 0) co =
     sumn n (fun l => m_cell N r l * nth l P (fun _ => 0) co) - nth r (map (fun q : pt R => q co) pts) 0).
  { intros P r LPP Hr. cbn [Nat.add].
    assert (Hi : inside (nth r u 0)) by (apply Hin, nth_In; lia).
    rewrite <- (rv_spline _ P co Hi LPP). rewrite Hcol. f_equal. apply sumn_ext. intros l Hl.
    rewrite <- (V1 r 0%nat l) by lia. f_equal. f_equal; lia. }
  rewrite (sumn_ext _ _ (fun r => (sumn n (fun l => m_cell N r l * nth l (poles_of_columns n X) (fun _ => 0) co) - nth r (map (fun q : pt R => q co) pts) 0) ^ 2))
    by (intros r Hr; rewrite G; auto).
  rewrite (sumn_ext (length pts) (fun i => (spline (kn k) n p (fun j => nth j P' _ co) _ - _) ^ 2) (fun r => (sumn n (fun l => m_cell N r l * nth l P' (fun _ => 0) co) - nth r (map (fun q : pt R => q co) pts) 0) ^ 2))
    by (intros r Hr; rewrite G; auto).
  apply (lsq_opt (length pts) n (fun r l => m_cell N r l) _ (fun r => nth r (map (fun q : pt R => q co) pts) 0) (fun l => nth l P' (fun _ => 0) co)).
  intros j Hj. etransitivity; [|exact (Hne j Hj)]. apply sumn_ext. intros r _. f_equal. f_equal.
  apply sumn_ext. intros l Hl. f_equal. exact (poles_cell eps n X co l x Hx Hl Lx).
Qed.
End Rows.

(** sizes rejected *)
Lemma sizes_rejected ldlt dim (pts : list (pt R)) p n (u k : list R) fix_bound :
  (n < p + 1 \/ length pts < n)%nat ->
  approx_bound_fixed ldlt dim pts p n u k = Throw LengthError /\
  approx_free ldlt dim pts p n u k = Throw LengthError /\
  approx ldlt dim pts p n u fix_bound = Throw LengthError.
Proof.
  intros H. assert (E : check_approx_sizes n p (length pts) = Throw LengthError).
  { unfold check_approx_sizes. destruct (Nat.ltb_spec n (p + 1)); [reflexivity|].
    destruct (Nat.ltb_spec (length pts) n); [reflexivity|lia]. }
  unfold approx_bound_fixed, approx_free, approx. rewrite E. auto.
Qed.

Lemma bf_fields ldlt dim (pts : list (pt R)) p n (u k : list R) c :
  approx_bound_fixed ldlt dim pts p n u k = Ok c -> (0 < length k)%nat ->
  c_knots c = k /\ c_lo c = kn k 0 /\ c_hi c = kn k (length k - 1).
Proof.
  intros E Hl. unfold approx_bound_fixed in E. do 7 apply bind_inv in E as (? & _ & E).
  unfold mk_curve in E. apply bind_inv in E as (f & Hf & E). apply bind_inv in E as (b & Hb & E).
  apply bind_inv in E as (ok & _ & E). destruct ok; [|discriminate]. injection E as <-. cbn [c_lo c_hi c_knots].
  rewrite back_kn in Hb by exact Hl. injection Hb as <-. rewrite (front_nth k 0) in Hf by exact Hl. injection Hf as <-. auto.
Qed.

Lemma approx_ok ldlt dim (pts : list (pt R)) p n (u : list R) c :
  exact_solver ldlt -> 0 <= eps -> (1 <= p)%nat -> length u = length pts -> nondecreasing u -> kn u 0 < kn u (length u - 1) ->
  approx ldlt dim pts p n u true = Ok c -> evaluable eps (c_knots c) n p ->
  bounds c = (kn u 0, kn u (length pts - 1)) /\ c_deg c = p /\ length (c_poles c) = n /\
  passes eps dim c (kn u 0) 0 (nth 0 pts (fun _ => 0)) /\
  passes eps dim c (kn u (length pts - 1)) 0 (nth (length pts - 1) pts (fun _ => 0)) /\
  forall P' co, (co < dim)%nat -> length P' = n ->
    nth 0 P' (fun _ => 0) co = nth 0 pts (fun _ => 0) co ->
    nth (n - 1) P' (fun _ => 0) co = nth (length pts - 1) pts (fun _ => 0) co ->
    sq_err (c_knots c) n p (c_poles c) u pts co 1 (length pts - 2) <= sq_err (c_knots c) n p P' u pts co 1 (length pts - 2).
Proof.
  intros Hex He Hp Hu Hnd H01 E Hev. unfold approx in E. apply bind_inv in E as ([] & Ec & E).
  unfold check_approx_sizes in Ec. destruct (Nat.ltb_spec n (p + 1)) as [|Hn]; [discriminate|].
  destruct (Nat.ltb_spec (length pts) n) as [|Hpts]; [discriminate|]. clear Ec.
  destruct u as [|u0 u'] eqn:Eu; [simpl in *; lia|]. rewrite <- Eu in *.
  assert (Ef : front u = Ok (kn u 0)) by (rewrite Eu; reflexivity). rewrite Ef in E. cbn [bind] in E.
  rewrite back_kn in E by lia. cbn [bind] in E.
  destruct (build_range_spec eps (kn u 0) (kn u (length u - 1)) n p ltac:(lia) H01) as (k & Ek & (Lk & Kn & Ka & Kb & Kin) & _).
  rewrite Ek in E. cbn [bind] in E.
  assert (Hk : knots_ok k n p).
  { split; [exact Lk|]. split; [lia|]. split; [exact Kn|]. rewrite (Kb n) by lia.
    destruct (Nat.eq_dec (n - 1) p) as [->|]; [rewrite Ka by lia; exact H01|]. apply Kin; lia. }
  assert (Hc : c_knots c = k).
  { exact (proj1 (bf_fields _ _ _ _ _ _ _ _ E ltac:(lia))). }
  rewrite Hc in Hev.
  assert (Hin : forall x, In x u -> inside k n p x).
  { intros x Hx. destruct (In_nth u x 0 Hx) as (i & Hi & <-). change (nth i u 0) with (kn u i).
    unfold inside. rewrite (Ka p), (Kb n) by lia. split; apply Hnd; lia. }
  destruct (bound_fixed_ok k n p Hk Hev ldlt dim pts u c Hex ltac:(lia) Hu Hin E) as (A1 & A2 & A3 & A4 & A5 & A6 & A7).
  assert (Hb : c_lo c = kn u 0 /\ c_hi c = kn u (length u - 1)).
  { destruct (bf_fields _ _ _ _ _ _ _ _ E ltac:(lia)) as (_ & -> & ->).
    split; [apply (Ka 0%nat); lia|apply Kb; lia]. }
  destruct Hb as (Hlo & Hhi).
  split. { unfold bounds. rewrite Hlo, Hhi, Hu. reflexivity. } split; [exact A1|]. split; [exact A3|].
  rewrite Hc. split; [|split; [|exact A7]].
  - destruct (eval_value_start eps k n p (c_poles c) Hk A3 Hev) as (q & Eq & Vq).
    { intros i Hi. rewrite !Ka by lia. reflexivity. }
    { rewrite (Ka p) by lia. destruct (Nat.eq_dec (p + 1) n) as [Ee|]; [rewrite (Kb (p + 1)%nat) by lia; exact H01|apply Kin; lia]. }
    rewrite (Ka 0%nat) in Eq by lia.
    apply (passes_of eps c dim _ _ _ q He); [rewrite Hlo, Hhi; lra|rewrite A1, Hc; exact Eq|].
    intros i _. rewrite Vq. unfold polec. rewrite A5. reflexivity.
  - rewrite <- Hu. destruct (eval_value_end eps k n p (c_poles c) Hk A3 Hev) as (q & Eq & Vq).
    { intros i Hi. rewrite !Kb by lia. reflexivity. }
    rewrite (Kb n) in Eq by lia.
    apply (passes_of eps c dim _ _ _ q He); [rewrite Hlo, Hhi; lra|rewrite A1, Hc; exact Eq|].
    intros i _. rewrite Vq. unfold polec. rewrite A6, Hu. reflexivity.
Qed.
End AtR.
