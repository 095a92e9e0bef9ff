(** Model of the curve and surface classes that wrap other curves, and of the analytic
    ones: gbs/curvetrimmed.h, curveReversed.h, curveextended.h, curvereparametrized.h,
    curvecomposite.h, curveonsurface.h, curveline.h, curvecircle.h,
    surfaceofrevolution.h.  An object of the abstract class Curve (Surface) is its
    bounds and its virtual function value.  No proofs in this file. *)
From Coq Require Import List Arith Bool.
From Verif Require Import Model_Base Model_Vec Model_Knots Model_Curve Model_Motion.
Import ListNotations.
Local Open Scope nat_scope.

(** class Curve, gbs/bscurve.h l.34-60: value(u, d) and bounds() *)
Record gcurve (T : Type) := mkg { g_lo : T; g_hi : T; g_value : T -> nat -> result (pt T) }.
Arguments mkg {T}. Arguments g_lo {T}. Arguments g_hi {T}. Arguments g_value {T}.
(** class Surface, gbs/bssurf.h: value(u, v, du, dv) *)
Definition gsurf (T : Type) := T -> T -> nat -> nat -> result (pt T).

Section Wrap.
Context {T : Type} `{Num T}.

(** A BSCurve seen as a Curve *)
Definition of_curve (c : curve T) : gcurve T := mkg (c_lo c) (c_hi c) (fun u d => value c u d).

(** CurveTrimmed, gbs/curvetrimmed.h l.8-27 *)
Definition trimmed (g : gcurve T) (u1 u2 : T) : gcurve T :=
  mkg u1 u2 (fun u d =>
    if nltb u (nsub u1 neps) || nltb (nadd u2 neps) u then Throw OutOfBoundsEval
    else g_value g u d).

(** CurveReversed, gbs/curveReversed.h l.39-53 *)
Definition reversed (g : gcurve T) : gcurve T :=
  mkg (g_lo g) (g_hi g) (fun u d =>
    let u := nsub (g_hi g) (nsub u (g_lo g)) in
    let sign := if Nat.even d then n1 else nopp n1 in
    let* q := g_value g u d in Ok (pscal sign q)).

(** CurveExtended, gbs/curveextended.h l.66-160; lowest and highest are the limits of
    the floating-point type *)
Definition extended (lowest highest : T) (g : gcurve T) (clamped : bool) : gcurve T :=
  mkg lowest highest (fun u d =>
    let at_end (e : T) :=
      if clamped then g_value g e d
      else match d with
           | 0 => let* val := g_value g e 0 in
                  let* deriv := g_value g e 1 in
                  Ok (fun i => nadd (val i) (nmul (deriv i) (nsub u e)))
           | 1 => g_value g e 1
           | _ => Ok pzero
           end in
    if nltb u (g_lo g) then at_end (g_lo g)
    else if nltb (g_hi g) u then at_end (g_hi g)
    else g_value g u d).

(** CurveReparametrized, gbs/curvereparametrized.h l.21-50; the parameter function
    (BSCfunction, gbs/bscurve.h) is coordinate 0 of a one-dimensional curve *)
Definition reparametrized (g f : gcurve T) : gcurve T :=
  mkg (g_lo f) (g_hi f) (fun m d =>
    let f_u (k : nat) : result T := let* q := g_value f m k in Ok (q 0) in
    match d with
    | 0 => let* fd0 := f_u 0 in g_value g fd0 0
    | 1 => let* fd0 := f_u 0 in let* c1 := g_value g fd0 1 in
           let* fd1 := f_u 1 in Ok (pscal fd1 c1)
    | 2 => let* fd0 := f_u 0 in let* fd1 := f_u 1 in let* fd2 := f_u 2 in
           let* c1 := g_value g fd0 1 in let* c2 := g_value g fd0 2 in
           Ok (padd (pscal fd2 c1) (pscal fd1 (pscal fd1 c2)))
    | _ => Throw RuntimeError
    end).

(** CurveComposite, gbs/curvecomposite.h l.14-24: the cumulated parameters u_; the
    assertion that the list is not empty is a precondition *)
Definition composite_params (l : list (gcurve T)) : result (list T) :=
  let* f := front l in
  let n := length l in
  for_ 0 n (fun i u_ =>
    let* g := get l i in
    let* ui := get u_ i in
    set u_ (i + 1) (nadd ui (nsub (g_hi g) (g_lo g)))) (filled (n + 1) (g_lo f)).

(** ... and value, gbs/curvecomposite.h l.29-44 *)
Definition composite (l : list (gcurve T)) : result (gcurve T) :=
  let* u_ := composite_params l in
  let* lo := front u_ in
  let* hi := back u_ in
  Ok (mkg lo hi (fun u d =>
    let pos := upper_bound u_ u in
    let back_by := if pos =? length u_ then 2 else 1 in
    if pos <? back_by then Undef BadIterator else
    let i := pos - back_by in
    let* crv_loc := get l i in
    let* upos := get u_ i in
    g_value crv_loc (nadd (nsub u upos) (g_lo crv_loc)) d)).

(** CurveOnSurface, gbs/curveonsurface.h l.31-68 *)
Definition on_surface (g : gcurve T) (s : gsurf T) : gcurve T :=
  mkg (g_lo g) (g_hi g) (fun u d =>
    let* uv := g_value g u 0 in
    let u_ := uv 0 in let v_ := uv 1 in
    match d with
    | 0 => s u_ v_ 0 0
    | 1 =>
      let* d1 := g_value g u 1 in
      let du_ := d1 0 in let dv_ := d1 1 in
      let* D1U := s u_ v_ 1 0 in
      let* D1V := s u_ v_ 0 1 in
      Ok (padd (pscal du_ D1U) (pscal dv_ D1V))
    | 2 =>
      let* d1 := g_value g u 1 in
      let du_ := d1 0 in let dv_ := d1 1 in
      let* d2 := g_value g u 2 in
      let d2u_ := d2 0 in let d2v_ := d2 1 in
      let* D1U := s u_ v_ 1 0 in
      let* D1V := s u_ v_ 0 1 in
      let* D2U := s u_ v_ 2 0 in
      let* D2V := s u_ v_ 0 2 in
      let* D2UV := s u_ v_ 1 1 in
      let V2 := padd (padd (pscal d2u_ D1U) (pscal d2u_ D1V))
                     (pscal (nmul (nmul (nadd n1 n1) du_) dv_) D2UV) in
      Ok (padd (padd (pscal (nmul du_ du_) D2U) (pscal (nmul dv_ dv_) D2V)) V2)
    | _ => Throw RuntimeError
    end).

Variables sqrtf cosf sinf : T -> T.
Variable pi : T.

(** Line, gbs/curveline.h l.17-47; tiny and huge are numeric_limits::min() and max() *)
Definition line_points (tiny huge : T) (dim : nat) (a b : pt T) : result (gcurve T) :=
  let* dir := pdiv (psub b a) (norm sqrtf dim (psub b a)) in
  Ok (mkg tiny huge (fun u d =>
    match d with
    | 0 => Ok (padd a (pscal u dir))
    | 1 => Ok dir
    | _ => Ok pzero
    end)).
Definition line_axis (tiny huge : T) (dim : nat) (o dir : pt T) : result (gcurve T) :=
  line_points tiny huge dim o (padd o dir).

(** std::min_element over the [n] coordinates of z: the first smallest *)
Fixpoint min_coord (n : nat) (z : pt T) : nat :=
  match n with
  | 0 => 0
  | S m => let b := min_coord m z in if nltb (z m) (z b) then m else b
  end.

(** Circle(r, ax1), gbs/curvecircle.h l.17-23: the start direction *)
Definition circle_start (dim : nat) (r : T) (z : pt T) : pt T :=
  let j := min_coord dim z in fun i => if i =? j then r else n0.
(** Circle(r, ax2), gbs/curvecircle.h l.16 *)
Definition circle_start_frame (dim : nat) (r : T) (x : pt T) : result (pt T) :=
  let* s := divc r (norm sqrtf dim x) in Ok (pscal s x).

(** d * 0.5 * pi *)
Definition quarter_turns (d : nat) : result T :=
  let* h := divc n1 (nadd n1 n1) in Ok (nmul (nmul (nofnat d) h) pi).

(** Circle2d, gbs/curvecircle.h l.58-77 and bounds l.25-28 *)
Definition circle2 (r : T) (C : pt T) : gcurve T :=
  mkg n0 (nmul (nadd n1 n1) pi) (fun u d =>
    let* q := quarter_turns d in
    let x := rotate2 cosf sinf (circle_start 2 r (p2 n0 n1)) (nadd u q) in
    Ok (if d =? 0 then padd x C else x)).

(** Circle3d, gbs/curvecircle.h l.79-99, from the start direction, axis and centre *)
Definition circle3 (x0 z C : pt T) : gcurve T :=
  mkg n0 (nmul (nadd n1 n1) pi) (fun u d =>
    let* q := quarter_turns d in
    let* x := rotate3 sqrtf cosf sinf x0 (nadd u q) z in
    Ok (if d =? 0 then padd x C else x)).
Definition circle3_axis (r : T) (C z : pt T) : gcurve T := circle3 (circle_start 3 r z) z C.
Definition circle3_frame (r : T) (R : frame T) : result (gcurve T) :=
  let* x0 := circle_start_frame 3 r (f_x R) in Ok (circle3 x0 (f_z R) (f_o R)).

(** SurfaceOfRevolution, gbs/surfaceofrevolution.h l.27-82; [fmod2pi v] is fmod(v, 2 pi).
    The profile is a plane curve. *)
Variable fmod2pi : T -> T.
Definition revolution (crv : gcurve T) (R : frame T) : result (gsurf T) :=
  let* axz := pdiv (f_z R) (norm sqrtf 3 (f_z R)) in
  let* M := trf_from_to sqrtf
    (mkf (p3 n0 n0 n0) (p3 n0 n1 n0) (p3 n0 n0 n1)) R in
  Ok (fun u v du dv =>
    let v := fmod2pi v in
    let* pt2d := g_value crv u du in
    let pt_ := transform (p3 (pt2d 0) (pt2d 1) n0) M in
    let* pt_ :=
      match dv with
      | 0 => Ok pt_
      | S dv' =>
        let pt_ := if du =? 0 then psub pt_ (f_o R) else pt_ in
        let* h := divc (nmul (nofnat dv') pi) (nadd n1 n1) in
        rotate3 sqrtf cosf sinf (cross axz pt_) h axz
      end in
    rotate3 sqrtf cosf sinf pt_ v axz).
End Wrap.
