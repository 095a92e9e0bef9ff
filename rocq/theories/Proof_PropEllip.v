(** The proofs behind Prop_Ellip.v that are about particular grids and meshes. *)
From Coq Require Import Reals QArith List Arith Bool Lia Lra Psatz.
From Verif Require Import Model_Base Model_Mesh Model_Geom Model_Ellip Spec_Mesh Spec_Geom Spec_Tess Spec_Ellip Proof_Base Proof_Mesh Proof_PropMesh Proof_PropMesh4
  Proof_PropTess Proof_PropTess2 Proof_Ellip Proof_Ellip2.
Import ListNotations.

Local Open Scope R_scope.
(** ** An oblique grid *)
Definition oblique : list (R * R) :=
  map (fun k => (INR (k / 3) + INR (k mod 3), 2 * INR (k mod 3))) (seq 0 12).
Ltac node_tac := unfold node; cbn; reflexivity.
Lemma oblique_fixed : forall i j, inside 0 3 0 2 i j -> exists p, node oblique 3 i j p /\ elliptic_at oblique 4 3 i j p.
Proof.
  intros i j ((I1 & I2) & J1 & J2). assert (j = 1%nat) by lia. subst. assert (HI : i = 1%nat \/ i = 2%nat) by lia.
  destruct HI; subst; (eexists; split; [node_tac|]; do 8 eexists; do 8 (split; [node_tac|]); cbv zeta; unfold slope, second, mixed; cbn [fst snd]; split; [|split]; cbn; try lra; field).
Qed.
(** The same with a node moved: it goes back. *)
Lemma oblique_size : length oblique = 12%nat. Proof. reflexivity. Qed.

Section AtQ.
Local Hint Extern 0 (Num Q) => exact NumQ : typeclass_instances.
Local Open Scope Q_scope.
Lemma hull_refuted : exists (g g' : list (Q * Q)) it e q,
  @elliptic_structured_smoothing Q NumQ g 3 0 2 0 2 1 (1 # 1000) = Ok (g', it, e) /\ In q g' /\ forall p, In p g -> fst p < fst q.
Proof.
  exists [(-12#1, 0); (-1#1, 0); (0, 0); (-1#1, -1#1); (0, 0); (1#1, 1#1); (0, 0); (1#1, 0); (-12#1, 0)].
  match goal with |- exists _ _ _ _, ?r = _ /\ _ => let v := eval vm_compute in r in
    match v with Ok (?l, ?it, ?e) => exists l, it, e; let q := eval vm_compute in (nth 4 l (0, 0)) in exists q end end.
  split; [vm_compute; reflexivity|]. split; [cbn; auto 10|]. intros p Ip. cbn [In] in Ip.
  repeat (destruct Ip as [<-|Ip]; [vm_compute; reflexivity|]). destruct Ip.
Qed.
Definition kinked : list (Q * Q) :=
  [(0,0);(1#1,0);(2#1,0); (0,1#1);(7#4,3#2);(2#1,1#1); (0,2#1);(1#1,2#1);(2#1,2#1); (0,3#1);(1#1,3#1);(2#1,3#1)].
Lemma binding_refuted (to_size : Q -> nat) : to_size (1 # 1000) = 0%nat -> exists q q' it e x y,
  @elliptic_structured_smoothing_py Q NumQ to_size kinked 3 0 3 0 2 2 (1 # 1000) = Ok q /\
  @elliptic_structured_smoothing Q NumQ kinked 3 0 3 0 2 2 (1 # 1000) = Ok (q', it, e) /\
  nth_error q 4 = Some x /\ nth_error q' 4 = Some y /\ ~ fst x == fst y.
Proof.
  intros TS. unfold elliptic_structured_smoothing_py. rewrite TS.
  do 6 eexists. split; [vm_compute; reflexivity|]. split; [vm_compute; reflexivity|]. split; [reflexivity|]. split; [reflexivity|].
  vm_compute. discriminate.
Qed.
End AtQ.

Lemma binding_one {T} {N : Num T} (to_size : T -> nat) (g : list (T * T)) nj i1 i2 j1 j2 n_it tol : to_size tol = 0%nat ->
  elliptic_structured_smoothing_py to_size g nj i1 i2 j1 j2 n_it tol =
  (let* (q, _, _) := elliptic_structured_smoothing g nj i1 i2 j1 j2 1 (ndiv n1 (nmul (nofnat 100) (nofnat 100))) in Ok q).
Proof. intros E. unfold elliptic_structured_smoothing_py. rewrite E. reflexivity. Qed.

(** ** The square *)
Lemma square_mesh : mesh_ok square [0; 1]%nat.
Proof. apply square_tri. Qed.
Lemma square_around : exists e, vedge_is square 0%nat (Some e) /\ live square [0; 1]%nat e /\ ends square e 0%nat.
Proof.
  destruct (square_ends 0%nat) as (e & L & V); [lia|]. exact (square_vertices e 0%nat L V).
Qed.
Lemma square_neighbours eps : @getNeighboringVertices R square 0%nat = Ok [Some 0%nat] /\
  exists h, @laplacian_smoothing R (NumR eps) square 0%nat = Ok h.
Proof.
  split; [reflexivity|].
  unfold laplacian_smoothing. replace (getNeighboringVertices square 0) with (@Ok (list ptr) [Some 0%nat]) by reflexivity. cbn [bind mapM deref].
  replace (get_v square 0) with (@Ok (hvert (R * R)) (mkhv (1, 0) (Some 0%nat))) by reflexivity. cbn [bind].
  rewrite !(nofnat_R eps). cbn [length]. repeat (rewrite (divc_good eps) by (cbn; lra); cbn [bind]). eexists. reflexivity.
Qed.
Ltac edge_tac := eexists; split; [reflexivity|]; try (split; [reflexivity|]).
Lemma square_adjacent : adjacent square [0; 1]%nat 0%nat 1%nat /\ adjacent square [0; 1]%nat 0%nat 2%nat /\ adjacent square [0; 1]%nat 0%nat 3%nat.
Proof.
  pose proof (proj2 (mesh_ok_iff _ _) (proj1 square_tmesh)) as M.
  assert (EI : forall e v, (e < 6)%nat -> (v < 4)%nat -> en square e = Some v -> ends square e v).
  { intros e v He Hv V. apply ends_iff. split; [unfold ne; cbn; lia|]. split; [auto|unfold nv; cbn; lia]. }
  assert (SI : forall e v, (e < 6)%nat -> (v < 4)%nat -> forall p, (p < 6)%nat -> he_prev (E square e) = Some p -> en square p = Some v -> starts square e v).
  { intros e v He Hv p Hp P V. exists (E square e), p. split; [|split; [auto|now apply EI]]. unfold is_edge.
    do 6 (destruct e as [|e]; [reflexivity|]). lia. }
  split; [exists 1%nat|split; [exists 0%nat|exists 5%nat]]; (split; [livetac M|]).
  - left. split; [apply (SI 1%nat 0%nat ltac:(lia) ltac:(lia) 0%nat)|apply EI]; try lia; reflexivity.
  - right. split; [apply (SI 0%nat 2%nat ltac:(lia) ltac:(lia) 2%nat)|apply EI]; try lia; reflexivity.
  - left. split; [apply (SI 5%nat 0%nat ltac:(lia) ltac:(lia) 3%nat)|apply EI]; try lia; reflexivity.
Qed.
Lemma square_coords : coords_are square 0%nat (1, 0) /\ coords_are square 1%nat (0, 1) /\ coords_are square 2%nat (0, 0) /\ coords_are square 3%nat (1, 1).
Proof. repeat split; eexists; split; reflexivity. Qed.
Lemma neighbours_refuted : exists (h : plane) fs v w l, mesh_ok h fs /\ v <> w /\ adjacent h fs v w /\
  getNeighboringVertices h v = Ok l /\ ~ In (Some w) l /\ In (Some v) l /\ ~ adjacent h fs v v.
Proof.
  exists square, [0; 1]%nat, 0%nat, 1%nat, [Some 0%nat]. split; [exact square_mesh|]. split; [lia|]. split; [apply square_adjacent|]. split; [reflexivity|].
  split; [cbn; intuition congruence|]. split; [cbn; auto|].
  intros (e & L & D). pose proof (proj2 (mesh_ok_iff _ _) (proj1 square_tmesh)) as M. apply (LiveI _ _ _ M) in L as (f & If & Ie).
  assert (S : starts square e 0%nat /\ ends square e 0%nat) by tauto. destruct S as (S & N).
  apply starts_iff in S as (_ & S & _). apply ends_iff in N as (_ & N & _).
  destruct If as [<-|[<-|[]]]; destruct Ie as [<-|[<-|[<-|[]]]]; cbn in S, N; congruence.
Qed.
Lemma laplacian_refuted : exists (h : plane) fs v w1 w2 w3 c c1 c2 c3, mesh_ok h fs /\
  (forall w, adjacent h fs v w <-> In w [w1; w2; w3]) /\
  coords_are h v c /\ coords_are h w1 c1 /\ coords_are h w2 c2 /\ coords_are h w3 c3 /\ ~ mean_of [c1; c2; c3] c /\
  forall eps, @laplacian_smoothing R (NumR eps) h v = Ok h.
Proof.
  exists square, [0; 1]%nat, 0%nat, 1%nat, 2%nat, 3%nat, (1, 0), (0, 1), (0, 0), (1, 1).
  split; [exact square_mesh|]. split; [|destruct square_coords as (A & B & C & D); do 4 (split; [assumption|]); split].
  - intros w. split.
    + intros (e & L & D). pose proof (proj2 (mesh_ok_iff _ _) (proj1 square_tmesh)) as M. apply (LiveI _ _ _ M) in L as (f & If & Ie).
      destruct D as [(S & N)|(S & N)]; apply starts_iff in S as (_ & S & _); apply ends_iff in N as (_ & N & _);
        destruct If as [<-|[<-|[]]]; destruct Ie as [<-|[<-|[<-|[]]]]; cbn in S, N; try congruence; try (injection N as <-); try (injection S as <-); cbn; auto.
    + destruct square_adjacent as (A1 & A2 & A3). intros [<-|[<-|[<-|[]]]]; assumption.
  - intros (E & _ & _). cbn in E. lra.
  - intros eps. destruct (square_neighbours eps) as (_ & h & Eh). rewrite Eh. apply f_equal.
    destruct square_around as (e & V & L & N). now apply (laplacian_still eps square [0; 1]%nat 0%nat e h square_mesh V L N).
Qed.
Lemma laplacian_corner eps : @laplacian_smoothing R (NumR eps) square 2%nat = Undef DivByZero.
Proof.
  unfold laplacian_smoothing. replace (getNeighboringVertices square 2) with (@Ok (list ptr) []) by reflexivity. cbn [bind mapM fold_left fst length].
  rewrite (nofnat_R eps). cbn [INR]. now rewrite (divc_zero eps).
Qed.
Lemma laplacian_nan_refuted : exists (h : plane) fs v e, mesh_ok h fs /\ live h fs e /\ ends h e v /\
  forall eps, @laplacian_smoothing R (NumR eps) h v = Undef DivByZero.
Proof.
  destruct (square_ends 2%nat) as (e & L & V); [lia|]. exists square, [0; 1]%nat, 2%nat, e. split; [exact square_mesh|]. split; [auto|]. split; [auto|]. exact laplacian_corner.
Qed.
