(** Property C43: rotations and changes of frame. *)
From Coq Require Import List Arith Reals Lra.
From Verif Require Import Model_Base Model_Motion Spec_Build Spec_Motion Proof_Motion.
Local Open Scope R_scope.

(** Plane rotation: distances are kept, angles add up, -a undoes a, and the point at angle t
    on a circle about the origin goes to the angle t + a. *)
Theorem C43_rotation_plane : forall eps x y a b,
  let rot2 := @rotate2 R (NumR eps) cos sin in
  sqdist 2 (rot2 x a) (rot2 y a) = sqdist 2 x y /\
  same 2 (rot2 (rot2 x a) b) (rot2 x (a + b)) /\
  same 2 (rot2 (rot2 x a) (- a)) x /\
  (forall r t, x 0%nat = r * cos t -> x 1%nat = r * sin t ->
     rot2 x a 0%nat = r * cos (t + a) /\ rot2 x a 1%nat = r * sin (t + a)).
Proof. exact rotate2_laws. Qed.
Print Assumptions C43_rotation_plane.

(** The same about a centre O, which is fixed. *)
Theorem C43_rotation_centre : forall eps x y a O,
  let rotO := fun z t => @rotate2_about R (NumR eps) cos sin z t O in
  sqdist 2 (rotO x a) (rotO y a) = sqdist 2 x y /\
  same 2 (rotO O a) O /\
  same 2 (fun i => rotO x a i - O i) (@rotate2 R (NumR eps) cos sin (fun i => x i - O i) a) /\
  same 2 (rotO (rotO x a) (- a)) x.
Proof. exact rotate2_about_laws. Qed.
Print Assumptions C43_rotation_centre.

(** Rotation in space about the direction ax: it is the right-handed rotation, keeps
    distances, fixes the axis; angles add up and -a undoes a. *)
Theorem C43_rotation_space : forall eps ax a b x y, nonzero 3 ax ->
  let rot3 := @rotate3 R (NumR eps) sqrt cos sin in
  exists qx qy qz, rot3 x a ax = Ok qx /\ rot3 y a ax = Ok qy /\ rot3 ax a ax = Ok qz /\
    same 3 qx (rot (unit 3 ax) a x) /\
    sqdist 3 qx qy = sqdist 3 x y /\ same 3 qz ax /\
    exists r1 r2 r3, rot3 qx b ax = Ok r1 /\ rot3 x (a + b) ax = Ok r2 /\
      rot3 qx (- a) ax = Ok r3 /\ same 3 r1 r2 /\ same 3 r3 x.
Proof. exact rotate3_laws. Qed.
Print Assumptions C43_rotation_space.

(** A null axis: division of zero by zero. *)
Theorem C43_null_axis_refuted : forall eps ax a x, (forall i, (i < 3)%nat -> ax i = 0) ->
  @rotate3 R (NumR eps) sqrt cos sin x a ax = Undef DivByZero.
Proof. exact rotate3_zero. Qed.
Print Assumptions C43_null_axis_refuted.

(** The transformation of a frame F sends the local coordinates x to the point
    origin + x0 X + x1 (Z x X) + x2 Z, with X, Z the unit directions of F ... *)
Theorem C43_frame : forall eps F, nonzero 3 (f_z F) -> nonzero 3 (f_x F) ->
  exists M, @trf_loc_mat R (NumR eps) sqrt F = Ok (f_o F, M) /\
  forall x i, (i < 3)%nat -> @transform R (NumR eps) x (f_o F, M) i =
    f_o F i + x 0%nat * unit 3 (f_x F) i
            + x 1%nat * cross3 (unit 3 (f_z F)) (unit 3 (f_x F)) i
            + x 2%nat * unit 3 (f_z F) i.
Proof. exact frame_map. Qed.
Print Assumptions C43_frame.

(** ... and keeps distances if the two directions of F are orthogonal. *)
Theorem C43_frame_distance : forall eps F M, dot3 (f_z F) (f_x F) = 0 ->
  nonzero 3 (f_z F) -> nonzero 3 (f_x F) ->
  @trf_loc_mat R (NumR eps) sqrt F = Ok (f_o F, M) ->
  forall x y, sqdist 3 (@transform R (NumR eps) x (f_o F, M)) (@transform R (NumR eps) y (f_o F, M)) = sqdist 3 x y.
Proof. exact frame_dist. Qed.
Print Assumptions C43_frame_distance.

(** From the axes of the world placed at a point O to a frame F: the point of local
    coordinates x goes to the point of the same coordinates in F.
    Full statement: the same for every frame [from].  It is refuted below. *)
Theorem C43_from_to_partial : forall eps F O, nonzero 3 (f_z F) -> nonzero 3 (f_x F) ->
  exists LM, @trf_from_to R (NumR eps) sqrt (mkf O (@p3 R (NumR eps) 0 0 1) (@p3 R (NumR eps) 1 0 0)) F = Ok LM /\
  forall x i, (i < 3)%nat -> @transform R (NumR eps) (fun j => O j + x j) LM i =
    f_o F i + x 0%nat * unit 3 (f_x F) i
            + x 1%nat * cross3 (unit 3 (f_z F)) (unit 3 (f_x F)) i
            + x 2%nat * unit 3 (f_z F) i.
Proof. exact from_world. Qed.
Print Assumptions C43_from_to_partial.

(** From the frame F at the origin, with Z = (0,0,1) and X = (0,1,0), to F itself: the point
    (0,1,0) goes to (0,-1,0). *)
Theorem C43_from_to_refuted :
  let v := @p3 R (NumR 0) in
  let F := mkf (fun _ => 0) (v 0 0 1) (v 0 1 0) in
  exists LM, @trf_from_to R (NumR 0) sqrt F F = Ok LM /\ @transform R (NumR 0) (v 0 1 0) LM 1%nat = -1.
Proof. exact (from_to_wrong sqrt sqrt_1). Qed.
Print Assumptions C43_from_to_refuted.

Example ex_motion_hypotheses :
  let ax := fun i => match i with 0%nat => 1 | 1%nat => 2 | _ => -2 end in
  let w := fun i => match i with 0%nat => 2 | 1%nat => -1 | _ => 0 end in
  nonzero 3 ax /\ nonzero 3 w /\ dot3 ax w = 0.
Proof.
  split; [exists 0%nat; split; [auto with arith|lra]|].
  split; [exists 0%nat; split; [auto with arith|lra]|]. unfold dot3. lra.
Qed.
