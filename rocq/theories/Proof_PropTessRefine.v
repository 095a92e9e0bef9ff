(** The statements of C90 to C92. *)
From Coq Require Import Reals QArith List Arith Bool Lia Lra Permutation.
From Verif Require Import Model_Base Model_Knots Model_Mesh Model_Geom Model_Tess Model_Refine Spec_Mesh Spec_MeshEdit Spec_Geom Spec_Tess Spec_Refine
  Proof_Base Proof_Mesh Proof_Mesh3 Proof_Tess Proof_Tess2 Proof_Tess5 Proof_Tess6 Proof_PropMesh Proof_PropMesh4 Proof_PropTess Proof_PropTess2 Proof_Ellip Proof_TessRefine Proof_TessRefine2.
Import ListNotations.
Local Open Scope nat_scope.

Lemma stop_prop : exists h fs, @delaunay2DBoyerWatson Q NumQ (fun l => l) [(0, -(1)); (0, 1); (-(10), 0); (10, 0)]%Q = Ok (h, fs) /\
  (forall f, In f fs -> exists c p, @MaxEdgeSize Q NumQ h f = Ok (c, p) /\ (c <= 5)%Q) /\
  exists h' fs', @refine Q NumQ (@MaxEdgeSize Q NumQ) 5%Q 500 h fs = Ok (h', fs') /\
  forall f, In f fs' -> exists c p, @MaxEdgeSize Q NumQ h' f = Ok (c, p) /\ (5 < c)%Q.
Proof.
  eexists _, _. split; [vm_compute; reflexivity|]. split.
  - intros f [<-|[<-|[]]]; eexists _, _; (split; [vm_compute; reflexivity|vm_compute; congruence]).
  - eexists _, _. split; [vm_compute; reflexivity|]. intros f [<-|[<-|[<-|[<-|[]]]]]; eexists _, _; (split; [vm_compute; reflexivity|reflexivity]).
Qed.
Lemma no_faces_prop eps (q : measure) limit n (h : plane) : @refine R (NumR eps) q limit (S n) h [] = Undef BadIterator.
Proof. reflexivity. Qed.

(** ** Examples *)
Lemma square_loop : face_loop square 0 [0; 1; 2] /\ face_loop square 1 [4; 3; 5].
Proof.
  split; apply face_loop_iff; [pose proof (tm_L _ [0; 1] 0 square_tmesh (or_introl eq_refl)) as L|pose proof (tm_L _ [0; 1] 1 square_tmesh (or_intror (or_introl eq_refl))) as L]; exact L.
Qed.
Lemma square_inner : inner_edge square 1 (1, 0)%R (0, 1)%R /\ ~ inner_edge square 0 (0, 0)%R (1, 0)%R.
Proof.
  split.
  - exact (op_inner square [0; 1] 0 1 square_tmesh (or_introl eq_refl) (or_intror (or_introl eq_refl)) ltac:(discriminate)).
  - intros (_ & o & r & IE & O). apply is_edge_iff in IE as (_ & IE). cbn in IE. subst r. discriminate.
Qed.
Lemma split_point_prop eps : exists (h : plane) fs f l e A B p, tri_mesh h fs /\ In f fs /\ face_loop h f l /\ In e l /\ inner_edge h e A B /\
  (forall e' A' B', In e' l -> inner_edge h e' A' B' -> e' = e) /\ @split_point R (NumR eps) h f = Ok p /\ p <> middle_of A B.
Proof.
  exists square, [0; 1], 0, [0; 1; 2], 1, (1, 0)%R, (0, 1)%R, (1/2, 0)%R. destruct square_inner as (I1 & _). destruct square_loop as (L1 & _).
  split; [apply square_tri|]. split; [now left|]. split; [exact L1|]. split; [cbn; auto|]. split; [exact I1|]. split; [|split].
  - intros e A B Ie (_ & o & r & IE & O). apply is_edge_iff in IE as (_ & IE). destruct Ie as [<-|[<-|[<-|[]]]]; [|reflexivity|]; cbn in IE; subst r; discriminate.
  - unfold split_point. rewrite (max_edge_prop square 0 0 [1; 2] _ L1). cbn [bind]. unfold edge_midpoint.
    apply face_loop_iff in L1. rewrite (floop_sc square 0 _ 0 L1) by (cbn; auto). rewrite (floop_ec square 0 _ 0 L1) by (cbn; auto). cbn [bind].
    change (sc square 0) with (0, 0)%R. change (ec square 0) with (1, 0)%R. unfold half. cbn. do 2 f_equal; lra.
  - unfold middle_of. cbn. intros [= Z1 Z2]. lra.
Qed.
Definition taxicab (a b : R * R) : R := (Rabs (fst b - fst a) + Rabs (snd b - snd a))%R.
Lemma taxicab_distance : distance_like taxicab.
Proof.
  unfold distance_like, taxicab. split; [|split].
  - intros x y. pose proof (Rabs_pos (fst y - fst x)). pose proof (Rabs_pos (snd y - snd x)). lra.
  - intros x y. now rewrite (Rabs_minus_sym (fst y)), (Rabs_minus_sym (snd y)).
  - intros x y z. pose proof (Rabs_triang (fst y - fst x) (fst z - fst y)) as A. pose proof (Rabs_triang (snd y - snd x) (snd z - snd y)) as B.
    replace (fst y - fst x + (fst z - fst y))%R with (fst z - fst x)%R in A by lra. replace (snd y - snd x + (snd z - snd y))%R with (snd z - snd x)%R in B by lra. lra.
Qed.
Lemma taxicab_apart a b : a <> b -> taxicab a b <> 0%R.
Proof.
  destruct a as [x y], b as [u v]. unfold taxicab. cbn. intros N Z. pose proof (Rabs_pos (u - x)). pose proof (Rabs_pos (v - y)).
  apply N. f_equal; [destruct (Req_dec (u - x) 0) as [E|E]|destruct (Req_dec (v - y) 0) as [E|E]]; try lra; apply Rabs_no_R0 in E; lra.
Qed.
Lemma taxicab_flat A B : A <> B -> excess taxicab (fun x => x) A B = 0%R.
Proof.
  intros N. unfold excess, taxicab, middle_of. cbn.
  replace ((fst A + fst B) / 2 - fst A)%R with ((fst B - fst A) * / 2)%R by lra. replace ((snd A + snd B) / 2 - snd A)%R with ((snd B - snd A) * / 2)%R by lra.
  replace (fst B - (fst A + fst B) / 2)%R with ((fst B - fst A) * / 2)%R by lra. replace (snd B - (snd A + snd B) / 2)%R with ((snd B - snd A) * / 2)%R by lra.
  rewrite !Rabs_mult. rewrite (Rabs_pos_eq (/ 2)) by lra. unfold Rdiv. apply Rmult_eq_0_compat_r. lra.
Qed.
Definition offset_square : plane := box (2, 1)%R (1, 2)%R (1, 1)%R (2, 2)%R.
Lemma offset_square_tmesh : tmesh offset_square [0; 1].
Proof. apply box_tmesh; lra. Qed.
Lemma flat_prop eps : exists (X : Type) (d : X -> X -> R) S (h : plane) fs f, distance_like d /\ (forall a b, a <> b -> d (S a) (S b) <> 0%R) /\
  tri_mesh h fs /\ In f fs /\ @DistanceMeshSurface2 R (NumR eps) (fun a b => Ok (d (S a) (S b))) h f = Ok (0, (0, 0))%R /\ ~ covered h fs (0, 0)%R.
Proof.
  exists (R * R)%type, taxicab, (fun x => x), offset_square, [0; 1], 0. pose proof offset_square_tmesh as TM. pose proof (proj2 (tri_mesh_iff _ _) TM) as TM'.
  split; [exact taxicab_distance|]. split; [exact taxicab_apart|]. split; [exact TM'|]. split; [now left|].
  assert (If : In 0 [0; 1]) by now left.
  split.
  - destruct (distance_prop eps taxicab (fun x => x) offset_square [0; 1] 0 (Lf offset_square 0) taxicab_distance TM' If) as (v & p & E & _ & K).
    + apply face_loop_iff. now apply (tm_L _ [0; 1]).
    + intros e A B Ie IE. destruct (inner_op _ [0; 1] 0 e A B TM If Ie IE) as (_ & -> & ->). apply taxicab_apart. now apply (tri_ends _ [0; 1] 0).
    + rewrite E. destruct K as [(e & A & B & Ie & IE & Q & _ & V)|(_ & -> & ->)]; [|reflexivity]. exfalso.
      destruct (inner_op _ [0; 1] 0 e A B TM If Ie IE) as (_ & EA & EB). rewrite taxicab_flat in Q by (subst A B; now apply (tri_ends _ [0; 1] 0)). lra.
  - intros (f & A & B & D & Ifs & X & Z). apply corners_inv in X as (e1 & e2 & e3 & _ & Q & -> & -> & ->).
    destruct Ifs as [<-|[<-|[]]]; [change (Lf offset_square 0) with [0; 1; 2] in Q|change (Lf offset_square 1) with [4; 3; 5] in Q]; injection Q as <- <- <-;
    [change (ec offset_square 0) with (2, 1)%R in Z; change (ec offset_square 1) with (1, 2)%R in Z; change (ec offset_square 2) with (1, 1)%R in Z
    |change (ec offset_square 4) with (1, 2)%R in Z; change (ec offset_square 3) with (2, 1)%R in Z; change (ec offset_square 5) with (2, 2)%R in Z].
    all: destruct Z as (r & s & t & Hr & Hs & Ht & Sum & Z); unfold mix in Z; cbn in Z; injection Z as Z1 Z2; lra.
Qed.
Lemma square_area : total_area square [0; 1] 1.
Proof.
  destruct square_corners as (C1 & C2). exists [1/2; 1/2]%R. split; [|cbn; lra]. repeat constructor.
  - exists (1, 0)%R, (0, 1)%R, (0, 0)%R. split; [exact C1|]. cbv -[Rlt Rminus Rmult Rdiv Rplus]. lra.
  - exists (0, 1)%R, (1, 0)%R, (1, 1)%R. split; [exact C2|]. cbv -[Rlt Rminus Rmult Rdiv Rplus]. lra.
Qed.
