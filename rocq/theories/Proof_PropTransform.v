(** Examples and refutations for the transformations of curves and surfaces. *)
From Coq Require Import List Arith ZArith QArith Reals Lia Lra Bool.
From Verif Require Import Model_Base Model_Vec Model_Basis Model_Rational Model_Curve Model_Surface Model_Motion Model_Transform
  Spec_Base Spec_Basis Spec_Eval Spec_Class Spec_Surface Spec_Transform Proof_PropSurface Proof_PropShape.
Import ListNotations.
Local Open Scope R_scope.

Definition ex_arc : curve R :=
  mk 2 [(fun c => match c with O => 1 | S O => 0 | _ => 1 end); (fun c => match c with O => 1 | S O => 1 | _ => 1 end);
        (fun c => match c with O => 0 | S O => 2 | _ => 2 end)] [0; 0; 0; 1; 1; 1] 0 1.

Lemma ex_fit : fit (1/1000) 2 (Curve_ ex_arc) /\ fit (1/1000) 2 (Rational_ ex_arc) /\
  fit (1/1000) 2 (Surface_ ex_surf) /\ fit (1/1000) 2 (RationalSurface_ ex_surf) /\
  admits (Rational_ ex_arc) (1/2, 0) /\ admits (RationalSurface_ ex_surf) (1/2, 1/3) /\
  0 < dot3 (fun _ => 1) (fun _ => 1).
Proof.
  assert (HC : curve_fit (1/1000) ex_arc).
  { unfold curve_fit, ex_arc. cbn [c_knots c_poles c_deg c_lo c_hi length]. split; [exact k6|]. split; [left; lia|].
    unfold kn; simpl; lra. }
  destruct ex_surface as (S1 & S2 & S3 & _ & _ & _ & _ & _ & _ & S4).
  assert (HS : surface_fit (1/1000) ex_surf) by (split; [exact S1|split; [exact S2|exact S3]]).
  split; [exact HC|]. split.
  { split; [exact HC|]. intros q Hq. cbn in Hq. destruct Hq as [<-|[<-|[<-|[]]]]; lra. }
  split; [exact HS|]. split.
  { split; [exact HS|]. intros q Hq. unfold ex_surf in Hq. cbn [s_poles] in Hq. apply in_map_iff in Hq as (i & <- & _). lra. }
  split; [unfold admits, ex_arc, kn; simpl; lra|]. split; [exact S4|]. unfold dot3. lra.
Qed.

Lemma arch_lost : exists c', @translate_geom Q NumQ 2 (fun _ => 0%Q) (Rational_ arch) = Ok (Rational_ c') /\
  at_q arch (1 # 2) = Ok (0%Q, 1%Q) /\ at_q c' (1 # 2) = Ok (0%Q, 0%Q).
Proof. eexists. split; [reflexivity|]. split; vm_compute; reflexivity. Qed.
