(** Transfinite interpolation: C44. *)
From Coq Require Import List Arith Reals Lra.
From Verif Require Import Model_Base Model_Interp Model_Wrap Model_Tfi
  Spec_Base Spec_Knots Spec_Interp Spec_Tfi Proof_Interp4 Proof_Tfi2.
Import ListNotations.
Local Open Scope R_scope.

(** C44: at the hard parameters the nodes are points of the curves: row hard(n_iso_eth, i) of
    the mesh lists points of curve i of the first set at non-decreasing parameters through
    the eth_j, and column hard(n_iso_ksi, j) points of curve j of the second set at
    parameters through the ksi_i. *)
Theorem C44_hard_nodes : forall eps abs_curv sparse dim P Q sc iso_ksi iso_eth ksi eth n_iso_ksi n_iso_eth p_srf pts nj ni,
  exact_solver sparse -> 0 <= eps -> (1 <= P)%nat -> (1 <= Q)%nat -> (P + sc <= 12)%nat -> (Q + sc <= 12)%nat ->
  (2 <= length ksi)%nat -> (2 <= length eth)%nat -> length iso_ksi = length ksi -> length iso_eth = length eth ->
  strictly_increasing ksi -> strictly_increasing eth -> lattice dim P Q iso_ksi iso_eth ksi eth p_srf ->
  @tfi_mesh R (NumR eps) abs_curv sparse P Q sc iso_ksi iso_eth ksi eth n_iso_ksi n_iso_eth p_srf = Ok (pts, nj, ni) ->
  exists t_ksi t_eth, length t_ksi = length iso_ksi /\ length t_eth = length iso_eth /\
    (forall i t, nth_error t_ksi i = Some t -> length t = nj /\ distribution n_iso_ksi eth t) /\
    (forall j t, nth_error t_eth j = Some t -> length t = ni /\ distribution n_iso_eth ksi t) /\
    length pts = (ni * nj)%nat /\
    (forall i j_ ck t, nth_error iso_ksi i = Some ck -> nth_error t_ksi i = Some t -> (j_ < nj)%nat ->
       agree dim (get pts (j_ + nj * hard n_iso_eth i)) (g_value ck (kn t j_) 0)) /\
    (forall j i_ ce t, nth_error iso_eth j = Some ce -> nth_error t_eth j = Some t -> (i_ < ni)%nat ->
       agree dim (get pts (hard n_iso_ksi j + nj * i_)) (g_value ce (kn t i_) 0)).
Proof. exact tfi_ok. Qed.
Print Assumptions C44_hard_nodes.

Example C44_nonvacuous : exact_solver ident_solver /\ strictly_increasing [0; 1; 2] /\
  lattice 3 1 1 patch_ksi patch_eth [0; 1; 2] [0; 1; 2] None /\
  exists pts, @tfi_mesh R (NumR (1 / 1000)) law ident_solver 1 1 0 patch_ksi patch_eth [0; 1; 2] [0; 1; 2]
    [2; 2]%nat [2; 2]%nat None = Ok (pts, 3%nat, 3%nat).
Proof. exact (conj ident_exact (conj inc3 (conj sq3 (tfi_ex (1 / 1000) ltac:(lra))))). Qed.

(** Asked for a section of one point the mesher has no defined result. *)
Theorem C44_short_section_refuted : forall eps, 0 < eps ->
  lattice 3 1 1 patch_ksi patch_eth [0; 1; 2] [0; 1; 2] None /\
  @tfi_mesh R (NumR eps) law ident_solver 1 1 0 patch_ksi patch_eth [0; 1; 2] [0; 1; 2]
    [1; 2]%nat [2; 2]%nat None = Undef BadIterator.
Proof. exact (fun eps He => conj sq3 (section_of_one eps He)). Qed.
Print Assumptions C44_short_section_refuted.
