(** C58: writing curves and surfaces as JSON and reading them again. *)
From Coq Require Import List Arith ZArith QArith Reals String Lia Lra List.
From Verif Require Import Model_Base Model_Curve Model_Surface Model_Json
  Spec_Base Spec_Basis Spec_Eval Spec_Class Spec_Surface Spec_Json Proof_Json.
Import ListNotations.
Local Open Scope R_scope.

(** make_curve applied to the value make_json gives for a B-spline curve, a rational one, or
    a curve on such a surface: same degree, knots and poles (all homogeneous coordinates in
    the rational case). *)
Theorem C58_curve : forall eps dim g, 0 < eps -> storable eps dim g ->
  exists j g', @json_of_curve R (NumR eps) dim g = Ok j /\
    (forall fuel, (depth g <= fuel)%nat -> @make_curve R (NumR eps) fuel dim j = Ok g') /\
    restored dim g g'.
Proof. intros eps dim g. exact (curve_round eps g dim). Qed.
Print Assumptions C58_curve.

Theorem C58_surface : forall eps dim s, 0 < eps -> storable_s eps dim s ->
  exists j s', @json_of_surface R (NumR eps) dim s = Ok j /\ @make_surface R (NumR eps) dim j = Ok s' /\
    restored_s dim s s'.
Proof. exact surface_round. Qed.
Print Assumptions C58_surface.

(** Surfaces of revolution: also the axes and the angles. *)
Theorem C58_revolution : forall eps c2 (o z x : pt R) th1 th2, 0 < eps -> storable eps 2 c2 ->
  exists j c2' (o' z' x' : pt R), @json_of_surface3 R (NumR eps) (SRev c2 (o, z, x) th1 th2) = Ok j /\
    (forall fuel, (depth c2 <= fuel)%nat ->
       @make_surface3 R (NumR eps) fuel j = Ok (SRev c2' (o', z', x') th1 th2)) /\
    restored 2 c2 c2' /\ (forall c, (c < 3)%nat -> o' c = o c /\ z' c = z c /\ x' c = x c).
Proof. exact revolution_round. Qed.
Print Assumptions C58_revolution.

(** Read for another dimension, the value is refused. *)
Theorem C58_wrong_dim : forall eps fuel dim dim' (g : jcurve R) j,
  match g with CBS c | CRat c => c_poles c <> [] | _ => False end -> dim <> dim' ->
  @json_of_curve R (NumR eps) dim g = Ok j -> @make_curve R (NumR eps) (S fuel) dim' j = Throw InvalidArgument.
Proof. exact wrong_dim. Qed.
Print Assumptions C58_wrong_dim.

(** An entity of another type is refused; a list of knots, weights or coordinates with an
    entry that is not a floating-point number (an integer, say) is refused. *)
Theorem C58_unsupported : forall eps fuel dim m ty,
  find (fun kv => String.eqb (fst kv) "type") m = Some ("type"%string, @JInt R ty) ->
  (0 <= ty < 2 ^ 31)%Z -> ~ In ty [125; 126; 142]%Z ->
  @make_curve R (NumR eps) (S fuel) dim (JObj m) = Throw InvalidArgument.
Proof. exact unsupported_refused. Qed.
Print Assumptions C58_unsupported.
Theorem C58_not_a_real : forall l : list (json R), (exists v, In v l /\ forall x, v <> JReal x) ->
  make_vec get_real (JArr l) = Throw InvalidArgument.
Proof. exact not_reals_refused. Qed.
Print Assumptions C58_not_a_real.

(** ** What the round trip loses *)
(** Bounds other than the first and the last knot *)
Theorem C58_bounds_refuted : forall eps, 0 < eps < 1 -> exists (c : curve R) j c', storable_curve eps c /\
  @json_of_curve R (NumR eps) 1 (CBS c) = Ok j /\ @make_curve R (NumR eps) 1 1 j = Ok (CBS c') /\
  bounds c' <> bounds c.
Proof. exact bounds_lost. Qed.
Print Assumptions C58_bounds_refuted.
(** Knots closer than the tolerance are merged. *)
Theorem C58_close_knots_refuted : exists P k (c : curve Q) j c',
  @mk_curve Q NumQ P k 1 = Ok c /\
  @json_of_curve Q NumQ 1 (CBS c) = Ok j /\ @make_curve Q NumQ 1 1 j = Ok (CBS c') /\
  c_knots c' <> c_knots c.
Proof. exact close_knots_lost. Qed.
Print Assumptions C58_close_knots_refuted.
(** A trimmed curve is written and cannot be read. *)
Theorem C58_trimmed_refuted : forall eps fuel dim c (u1 u2 : R) j,
  @json_of_curve R (NumR eps) dim (CTrim c u1 u2) = Ok j ->
  @make_curve R (NumR eps) (S fuel) dim j = Throw InvalidArgument.
Proof. exact trimmed_refused. Qed.
Print Assumptions C58_trimmed_refuted.
(** A curve on a surface of revolution is written without its surface; reading it back
    accesses a member of a null value. *)
Theorem C58_on_revolution_refuted : forall eps fuel dim c2 c ax (th1 th2 : R) j, 0 < eps ->
  storable eps 2 c2 -> (depth c2 <= fuel)%nat ->
  @json_of_curve R (NumR eps) dim (COn c2 (SRev c ax th1 th2)) = Ok j ->
  @make_curve R (NumR eps) (S fuel) dim j = Undef BadIndex.
Proof. exact on_revolution_lost. Qed.
Print Assumptions C58_on_revolution_refuted.

(** A line in the plane on a bilinear patch of space *)
Example C58_case : storable (1 / 10) 3
  (COn (CBS (mk 1 [fun _ => 0; fun _ => 1] [0; 0; 1; 1] 0 1))
       (SRat (mks 1 1 [fun _ => 1; fun _ => 2; fun _ => 3; fun _ => 4] [0; 0; 1; 1] [0; 0; 1; 1] 0 1 0 1))).
Proof.
  assert (N : nondecreasing [0; 0; 1; 1]).
  { intros i j Hij Hj. cbn [length] in Hj. destruct i as [|[|[|[|i]]]]; destruct j as [|[|[|[|j]]]]; try lia; cbn; lra. }
  assert (S : separated (1 / 10) [0; 0; 1; 1]).
  { intros i j Hij Hj. cbn [length] in Hj.
    destruct i as [|[|[|[|i]]]]; destruct j as [|[|[|[|j]]]]; try lia; cbn; first [left; reflexivity | right; lra]. }
  split.
  - split; [|split; [exact S|reflexivity]]. split; [reflexivity|]. split; [unfold c_n; cbn; lia|exact N].
  - split.
    + unfold storable_surface, s_nU, s_nV. cbn [s_degU s_degV s_ku s_kv s_poles].
      repeat (split; [first [exact N | exact S | cbn; lia | reflexivity]|]). reflexivity.
    + intros i Hi. cbn [s_poles length] in Hi. unfold polec. cbn [s_poles].
      destruct i as [|[|[|[|i]]]]; cbn; try lra. lia.
Qed.
