(** Point insertion in triangulations: the statements of the property file. *)
From Coq Require Import List Arith Lia Bool Reals Lra Permutation ZArith.
From Verif Require Import Model_Base Model_Mesh Model_Geom Model_Tess Spec_Mesh Spec_MeshEdit Spec_Geom Spec_Tess Proof_Base
  Proof_Mesh Proof_Mesh9 Proof_Tess Proof_Tess2 Proof_Tess3 Proof_Tess4 Proof_Tess5.
Import ListNotations.
Local Open Scope nat_scope.

Lemma insertion_prop eps (h : plane) fs xy : tri_mesh h fs ->
  exists h' fs' r, @boyerWatson R (NumR eps) h fs xy = Ok (h', fs', r) /\
    tri_mesh h' fs' /\ (no_overlap h fs -> no_overlap h' fs') /\
    (forall q, covered h' fs' q <-> covered h fs q) /\
    (forall s, total_area h fs s <-> total_area h' fs' s) /\
    (forall q, on_border h' fs' q -> on_border h fs q) /\
    (forall q, corner_of h' fs' q -> q = xy \/ corner_of h fs q) /\
    match r with
    | None => h' = h /\ fs' = fs
    | Some (v, del, cre) => cre <> [] /\ coords_are h' v xy /\ fs' = without del fs ++ cre /\
        (forall f, In f del -> In f fs) /\
        (forall f A B D, In f (without del fs) -> (corners h' f A B D <-> corners h f A B D)) /\
        (forall f, In f cre -> ~ In f fs /\ exists A B, corners h' f A xy B) /\ v = length (h_v h)
    end.
Proof.
  intros TM. apply tri_mesh_iff in TM. destruct (boyerWatson_ok eps h fs xy TM) as (h' & fs' & r & A & I).
  pose proof (inserted_tmesh _ _ _ _ _ _ TM I) as TM'. pose proof (inserted_cov _ _ _ _ _ _ TM I) as SC.
  assert (SC' : same_cov h' fs' h fs) by (intros q; symmetry; apply SC).
  exists h', fs', r. split; [exact A|]. split; [now apply tri_mesh_iff|]. split.
  { rewrite !no_overlap_iff by auto. apply no_over_same; auto. }
  split.
  { intros q. rewrite !covered_iff by auto. split; apply region_same; auto. }
  split.
  { intros s. rewrite (total_area_sum h fs fs), (total_area_sum h' fs' fs') by (auto using incl_refl).
    assert (X : G cross h' (alle h' fs') = G cross h (alle h fs)); [|now rewrite X].
    inversion I as [|seed K es h0 _ _ IK NK HB NE ST FW]; subst; auto. apply (fw_sum _ _ _ _ _ _ FW). intros; apply cross_anti. }
  split.
  { intros q. rewrite !on_border_iff by auto. now apply (inserted_rim _ _ _ _ _ _ _ TM I). }
  split.
  { intros q. rewrite !corner_of_iff by auto. now apply (inserted_corners _ _ _ _ _ _ _ TM I). }
  destruct r as [[[v del] cre]|]; [now apply inserted_new|]. inversion I; auto.
Qed.
Lemma insertion_progress eps (h : plane) fs xy : tri_mesh h fs -> covered h fs xy -> ~ corner_of h fs xy -> ~ on_border h fs xy ->
  exists h' fs' v del cre, @boyerWatson R (NumR eps) h fs xy = Ok (h', fs', Some (v, del, cre)) /\ corner_of h' fs' xy.
Proof.
  intros TM CV NC NB. apply tri_mesh_iff in TM. destruct (boyerWatson_ok eps h fs xy TM) as (h' & fs' & r & A & I).
  destruct r as [[[v del] cre]|].
  - exists h', fs', v, del, cre. split; auto. destruct (inserted_new _ _ _ _ _ _ _ _ TM I) as (NE & _ & -> & _ & _ & X & _).
    destruct cre as [|f cre]; [congruence|]. destruct (X f (or_introl eq_refl)) as (_ & P & Q & Y). exists f, P, xy, Q.
    split; [apply in_or_app; right; now left|]. split; [exact Y|cbn; auto].
  - exfalso. rewrite corner_of_iff in NC by auto. rewrite on_border_iff in NB by auto. rewrite covered_iff in CV by auto.
    destruct (inserted_progress _ _ _ _ _ TM I) as [|[|]]; auto.
Qed.
