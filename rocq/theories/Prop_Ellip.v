(** C89: smoothing structured grids and meshes. *)
From Coq Require Import List Arith Reals QArith.
From Verif Require Import Model_Base Model_Mesh Model_Geom Model_Ellip Spec_Mesh Spec_Tess Spec_Ellip
  Proof_Ellip Proof_Ellip2 Proof_PropTess2 Proof_PropEllip.
Import ListNotations.
Local Open Scope R_scope.

(** C89: elliptic smoothing of a window of a grid leaves every node that is not strictly
    inside the window where it was. *)
Theorem C89_window : forall eps (g : list (R * R)) nj i1 i2 j1 j2 n_it tol g' it e, (j2 <= nj)%nat ->
  @elliptic_structured_smoothing R (NumR eps) g nj i1 i2 j1 j2 n_it tol = Ok (g', it, e) ->
  length g' = length g /\
  forall i j, (j < nj)%nat -> ~ inside i1 i2 j1 j2 i j -> nth_error g' (j + nj * i) = nth_error g (j + nj * i).
Proof. exact smoothing_frame. Qed.
Print Assumptions C89_window.

(** It runs at least one pass and no more than n_it; each pass puts every node inside the
    window where the elliptic equations, with the slopes and the neighbours of the grid before
    the pass, put it; the passes stop at the first whose largest move, which is the error
    returned, is not above the tolerance, or at n_it. *)
Theorem C89_passes : forall eps (g : list (R * R)) nj i1 i2 j1 j2 n_it tol g' it e, (j2 <= nj)%nat ->
  @elliptic_structured_smoothing R (NumR eps) g nj i1 i2 j1 j2 n_it tol = Ok (g', it, e) ->
  (1 <= it <= Nat.max 1 n_it)%nat /\ passes_to (length g / nj) nj i1 i2 j1 j2 tol it g g' e /\ ((it < n_it)%nat -> e <= tol).
Proof. exact smoothing_spec. Qed.
Print Assumptions C89_passes.

(** A grid that satisfies the equations, for instance any oblique one, is left as it is. *)
Theorem C89_fixed : forall eps (g : list (R * R)) nj i1 i2 j1 j2 n_it tol, (2 <= length g / nj)%nat -> (2 <= nj)%nat -> 0 <= tol ->
  (forall i j, inside i1 i2 j1 j2 i j -> exists p, node g nj i j p /\ elliptic_at g (length g / nj) nj i j p) ->
  @elliptic_structured_smoothing R (NumR eps) g nj i1 i2 j1 j2 n_it tol = Ok (g, 1%nat, 0).
Proof. exact smoothing_fixed. Qed.
Print Assumptions C89_fixed.

(** When the window is within the grid nothing is read or written outside it: what can happen
    besides returning is a division by zero, the four neighbours of a node being two points. *)
Theorem C89_in_range : forall eps (g : list (R * R)) ni nj i1 i2 j1 j2 n_it tol,
  length g = (ni * nj)%nat -> (1 <= nj)%nat -> (i2 < ni)%nat -> (j2 < nj)%nat ->
  (exists r, @elliptic_structured_smoothing R (NumR eps) g nj i1 i2 j1 j2 n_it tol = Ok r) \/
  @elliptic_structured_smoothing R (NumR eps) g nj i1 i2 j1 j2 n_it tol = Undef DivByZero.
Proof. exact smoothing_fine. Qed.
Print Assumptions C89_in_range.

(** Smoothing the grid moved by (a, b) gives the smoothed grid moved by (a, b), after as many
    passes and with the same error. *)
Theorem C89_translation : forall eps a b (g : list (R * R)) nj i1 i2 j1 j2 n_it tol,
  @elliptic_structured_smoothing R (NumR eps) (map (shifted a b) g) nj i1 i2 j1 j2 n_it tol =
  (let* (q, it, e) := @elliptic_structured_smoothing R (NumR eps) g nj i1 i2 j1 j2 n_it tol in Ok (map (shifted a b) q, it, e)).
Proof. exact smoothing_shift. Qed.
Print Assumptions C89_translation.

(** A node may be put outside the box of the grid: beyond every node in the first
    coordinate. *)
Theorem C89_hull_refuted : exists (g g' : list (Q * Q)) it e q,
  @elliptic_structured_smoothing Q NumQ g 3 0 2 0 2 1 (1 # 1000)%Q = Ok (g', it, e) /\ In q g' /\
  forall p, In p g -> (fst p < fst q)%Q.
Proof. exact hull_refuted. Qed.
Print Assumptions C89_hull_refuted.

(** From Python, with a tolerance that the conversion to an integer makes 0, one pass is run
    whatever the number of iterations and the tolerance given ... *)
Theorem C89_binding_one_pass : forall {T} {N : Num T} (to_size : T -> nat) (g : list (T * T)) nj i1 i2 j1 j2 n_it tol, to_size tol = 0%nat ->
  elliptic_structured_smoothing_py to_size g nj i1 i2 j1 j2 n_it tol =
  (let* (q, _, _) := elliptic_structured_smoothing g nj i1 i2 j1 j2 1 (ndiv n1 (nmul (nofnat 100) (nofnat 100))) in Ok q).
Proof. exact @binding_one. Qed.
Print Assumptions C89_binding_one_pass.
(** ... so that the points returned are not those of the function it is documented to call. *)
Theorem C89_binding_refuted : forall (to_size : Q -> nat), to_size (1 # 1000)%Q = 0%nat -> exists q q' it e x y,
  @elliptic_structured_smoothing_py Q NumQ to_size kinked 3 0 3 0 2 2 (1 # 1000)%Q = Ok q /\
  @elliptic_structured_smoothing Q NumQ kinked 3 0 3 0 2 2 (1 # 1000)%Q = Ok (q', it, e) /\
  nth_error q 4 = Some x /\ nth_error q' 4 = Some y /\ ~ (fst x == fst y)%Q.
Proof. exact binding_refuted. Qed.
Print Assumptions C89_binding_refuted.

(** getNeighboringVertices returns only the vertex itself, on every mesh ... *)
Theorem C89_neighbours_self : forall (h : plane) fs v e l, mesh_ok h fs -> vedge_is h v (Some e) -> live h fs e -> ends h e v ->
  getNeighboringVertices h v = Ok l -> forall p, In p l -> p = Some v.
Proof. exact neighbours_only. Qed.
Print Assumptions C89_neighbours_self.
(** ... and not the vertices a half-edge joins to it. *)
Theorem C89_neighbours_refuted : exists (h : plane) fs v w l, mesh_ok h fs /\ v <> w /\ adjacent h fs v w /\
  getNeighboringVertices h v = Ok l /\ ~ In (Some w) l /\ In (Some v) l /\ ~ adjacent h fs v v.
Proof. exact neighbours_refuted. Qed.
Print Assumptions C89_neighbours_refuted.

(** So laplacian_smoothing never changes a mesh ... *)
Theorem C89_laplacian_still : forall eps (h : plane) fs v e h', mesh_ok h fs -> vedge_is h v (Some e) -> live h fs e -> ends h e v ->
  @laplacian_smoothing R (NumR eps) h v = Ok h' -> h' = h.
Proof. exact laplacian_still. Qed.
Print Assumptions C89_laplacian_still.
(** ... although the vertex is not at the mean of those it is joined to, ... *)
Theorem C89_laplacian_refuted : exists (h : plane) fs v w1 w2 w3 c c1 c2 c3, mesh_ok h fs /\
  (forall w, adjacent h fs v w <-> In w [w1; w2; w3]) /\
  coords_are h v c /\ coords_are h w1 c1 /\ coords_are h w2 c2 /\ coords_are h w3 c3 /\ ~ mean_of [c1; c2; c3] c /\
  forall eps, @laplacian_smoothing R (NumR eps) h v = Ok h.
Proof. exact laplacian_refuted. Qed.
Print Assumptions C89_laplacian_refuted.
(** ... and it divides by zero at a vertex of one triangle only. *)
Theorem C89_laplacian_corner_refuted : exists (h : plane) fs v e, mesh_ok h fs /\ live h fs e /\ ends h e v /\
  forall eps, @laplacian_smoothing R (NumR eps) h v = Undef DivByZero.
Proof. exact laplacian_nan_refuted. Qed.
Print Assumptions C89_laplacian_corner_refuted.

Example C89_nonvacuous_fixed : length oblique = 12%nat /\
  forall i j, inside 0 3 0 2 i j -> exists p, node oblique 3 i j p /\ elliptic_at oblique 4 3 i j p.
Proof. split; [reflexivity|exact oblique_fixed]. Qed.
Example C89_nonvacuous_passes : exists q, @elliptic_structured_smoothing Q NumQ kinked 3 0 3 0 2 2 (1 # 1000)%Q = Ok q /\
  snd (fst q) = 2%nat.
Proof. eexists. split; [vm_compute; reflexivity|reflexivity]. Qed.
Example C89_nonvacuous_returns : forall eps, @elliptic_structured_smoothing R (NumR eps) oblique 3 0 3 0 2 7 1 = Ok (oblique, 1%nat, 0).
Proof. intros eps. apply smoothing_fixed; [apply Nat.leb_le; reflexivity|apply Nat.leb_le; reflexivity|apply Rle_0_1|exact oblique_fixed]. Qed.
Example C89_nonvacuous_mesh : mesh_ok square [0; 1]%nat /\
  (exists e, vedge_is square 0%nat (Some e) /\ live square [0; 1]%nat e /\ ends square e 0%nat) /\
  forall eps, @getNeighboringVertices R square 0%nat = Ok [Some 0%nat] /\ exists h, @laplacian_smoothing R (NumR eps) square 0%nat = Ok h.
Proof. split; [exact square_mesh|]. split; [exact square_around|exact square_neighbours]. Qed.
