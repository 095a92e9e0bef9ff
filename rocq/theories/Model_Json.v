(** Model of gbs-io/tojson.h and gbs-io/fromjson.h: writing curves and surfaces as JSON
    values and building them again.  A JSON value is the tree rapidjson holds in memory; the
    text form (writing and parsing decimal numbers) is not modelled.  Of the curve types
    those are modelled that make_curve can read, and CurveTrimmed as one it cannot.  No
    proofs in this file. *)
From Coq Require Import List Arith ZArith Bool String.
From Verif Require Import Model_Base Model_Knots Model_Rational Model_Curve Model_Surface.
Import ListNotations.
Local Open Scope string_scope.
Local Open Scope nat_scope.

(** rapidjson::Value *)
Inductive json (T : Type) :=
| JNull | JInt (z : Z) | JReal (x : T) | JArr (l : list (json T)) | JObj (m : list (string * json T)).
Arguments JNull {T}. Arguments JInt {T}. Arguments JReal {T}. Arguments JArr {T}. Arguments JObj {T}.

(** Curves and surfaces behind the pointers to the base classes *)
Inductive jcurve (T : Type) :=
| CBS (c : curve T)                            (* BSCurve *)
| CRat (c : curve T)                           (* BSCurveRational *)
| COn (c2 : jcurve T) (s : jsurf T)            (* CurveOnSurface *)
| CTrim (c : jcurve T) (u1 u2 : T)             (* CurveTrimmed *)
with jsurf (T : Type) :=
| SBS (s : surf T)                             (* BSSurface *)
| SRat (s : surf T)                            (* BSSurfaceRational *)
| SRev (c2 : jcurve T) (ax : pt T * pt T * pt T) (th1 th2 : T).  (* SurfaceOfRevolution *)
Arguments CBS {T}. Arguments CRat {T}. Arguments COn {T}. Arguments CTrim {T}.
Arguments SBS {T}. Arguments SRat {T}. Arguments SRev {T}.

Section Json.
Context {T : Type} `{Num T}.

(** ** Writing *)

(** static_cast<unsigned> *)
Definition uint32 (n : nat) : json T := JInt (Z.of_nat n mod 4294967296).
(** make_json of a range, gbs-io/tojson.h l.43-58 *)
Definition json_reals (l : list T) : json T := JArr (map JReal l).
Definition json_sizes (l : list nat) : json T := JArr (map (fun n => JInt (Z.of_nat n)) l).
Definition json_point (dim : nat) (p : pt T) : json T := json_reals (map p (seq 0 dim)).
(** make_json of a vector of arrays, gbs-io/tojson.h l.66-77 *)
Definition json_points (dim : nat) (l : list (pt T)) : json T := JArr (map (json_point dim) l).

(** make_json(BSCurve), gbs-io/tojson.h l.110-132 *)
Definition json_of_bscurve (dim : nat) (c : curve T) : result (json T) :=
  let* (knots, mults) := knots_and_mults (c_knots c) in
  Ok (JObj [("type", JInt 125); ("degree", uint32 (c_deg c)); ("dim", uint32 dim);
            ("knots", json_reals knots); ("mults", json_sizes mults);
            ("poles", json_points dim (c_poles c))]).

(** make_json(BSCurveRational), gbs-io/tojson.h l.134-158 *)
Definition json_of_rational (dim : nat) (c : curve T) : result (json T) :=
  let* (knots, mults) := knots_and_mults (c_knots c) in
  Ok (JObj [("type", JInt 126); ("degree", uint32 (c_deg c)); ("dim", uint32 dim);
            ("knots", json_reals knots); ("mults", json_sizes mults);
            ("poles", json_points dim (polesProjected dim c));
            ("weights", json_reals (curve_weights dim c))]).

(** make_json(BSSurface), gbs-io/tojson.h l.333-361 *)
Definition json_of_bssurface (dim : nat) (s : surf T) : result (json T) :=
  let* (ku, mu) := knots_and_mults (s_ku s) in
  let* (kv, mv) := knots_and_mults (s_kv s) in
  Ok (JObj [("type", JInt 127); ("degreeU", uint32 (s_degU s)); ("degreeV", uint32 (s_degV s));
            ("dim", uint32 dim);
            ("knotsU", json_reals ku); ("multsU", json_sizes mu);
            ("knotsV", json_reals kv); ("multsV", json_sizes mv);
            ("poles", json_points dim (s_poles s))]).

(** make_json(BSSurfaceRational), gbs-io/tojson.h l.363-394 *)
Definition json_of_rational_surface (dim : nat) (s : surf T) : result (json T) :=
  let* (ku, mu) := knots_and_mults (s_ku s) in
  let* (kv, mv) := knots_and_mults (s_kv s) in
  let (poles, weights) := separate_weights dim (s_poles s) in
  Ok (JObj [("type", JInt 128); ("degreeU", uint32 (s_degU s)); ("degreeV", uint32 (s_degV s));
            ("dim", uint32 dim);
            ("knotsU", json_reals ku); ("multsU", json_sizes mu);
            ("knotsV", json_reals kv); ("multsV", json_sizes mv);
            ("poles", json_points dim poles); ("weights", json_reals weights)]).

(** make_json of a Curve pointer, gbs-io/tojson.h l.271-296, with CurveOnSurface l.423-440 and
    CurveTrimmed l.234-268; make_json<T,dim> of a Surface pointer l.396-409.  The explicit template
    arguments in make_json(CurveOnSurface) select the version for surfaces that does not
    know SurfaceOfRevolution: it writes a null value. *)
Definition json_of_surface (dim : nat) (s : jsurf T) : result (json T) :=
  match s with
  | SBS s => json_of_bssurface dim s
  | SRat s => json_of_rational_surface dim s
  | SRev _ _ _ _ => Ok JNull
  end.

Fixpoint json_of_curve (dim : nat) (g : jcurve T) : result (json T) :=
  match g with
  | CBS c => json_of_bscurve dim c
  | CRat c => json_of_rational dim c
  | COn c2 s =>
    let* jc := json_of_curve 2 c2 in
    let* js := json_of_surface dim s in
    Ok (JObj [("type", JInt 142); ("dim", uint32 dim); ("curve2d", jc); ("surface", js)])
  | CTrim c u1 u2 =>
    let* jc := json_of_curve dim c in
    Ok (JObj [("type", JInt 136); ("dim", uint32 dim); ("curve", jc); ("u1", JReal u1); ("u2", JReal u2)])
  end.

(** make_json(SurfaceOfRevolution), gbs-io/tojson.h l.308-331, used by make_json of a
    Surface<T,3> pointer (l.411-421) *)
Definition json_of_surface3 (s : jsurf T) : result (json T) :=
  match s with
  | SRev c2 (o, z, x) th1 th2 =>
    let* jc := json_of_curve 2 c2 in
    Ok (JObj [("type", JInt 120); ("dim", JInt 2); ("axis2", json_points 3 [o; z; x]);
              ("theta1", JReal th1); ("theta2", JReal th2); ("curve", jc)])
  | _ => json_of_surface 3 s
  end.

(** ** Reading *)

(** val[name]: the value must be an object that has the member (checked by an assertion
    only) *)
Definition member (v : json T) (name : string) : result (json T) :=
  match v with
  | JObj m => match find (fun kv => String.eqb (fst kv) name) m with
              | Some kv => Ok (snd kv) | None => Undef BadIndex end
  | _ => Undef BadIndex
  end.
(** GetInt, GetUint64: the type is checked by an assertion only *)
Definition get_int (v : json T) : result Z :=
  match v with JInt z => if ((-2147483648 <=? z) && (z <=? 2147483647))%Z then Ok z else Undef Uninit | _ => Undef Uninit end.
Definition get_uint64 (v : json T) : result nat :=
  match v with JInt z => if (0 <=? z)%Z then Ok (Z.to_nat z) else Undef Uninit | _ => Undef Uninit end.

(** get_val<double>, gbs-io/fromjson.h l.35-41: a number written without decimal point is
    not a double *)
Definition get_real (v : json T) : result T :=
  match v with JReal x => Ok x | _ => Throw InvalidArgument end.
(** get_val<size_t>, gbs-io/fromjson.h l.59-65 *)
Definition get_size (v : json T) : result nat :=
  match v with JInt z => if (0 <=? z)%Z then Ok (Z.to_nat z) else Throw InvalidArgument | _ => Throw InvalidArgument end.

(** make_vec, gbs-io/fromjson.h l.75-97 *)
Definition make_vec {A} (get_val : json T -> result A) (v : json T) : result (list A) :=
  match v with JArr l => mapM get_val l | _ => Throw InvalidArgument end.
(** make_array, gbs-io/fromjson.h l.99-120; coordinates from dim on do not exist *)
Definition make_array (dim : nat) (v : json T) : result (pt T) :=
  match v with
  | JArr l => if negb (List.length l =? dim) then Throw InvalidArgument
              else let* xs := mapM get_real l in Ok (fun i => nth i xs n0)
  | _ => Throw InvalidArgument
  end.
(** make_point_vec, gbs-io/fromjson.h l.142-158 *)
Definition make_point_vec (dim : nat) (v : json T) : result (list (pt T)) :=
  match v with JArr l => mapM (make_array dim) l | _ => Throw InvalidArgument end.
(** make_ax2, gbs-io/fromjson.h l.122-140 *)
Definition make_ax2 (v : json T) : result (pt T * pt T * pt T) :=
  match v with
  | JArr [a; b; c] =>
    let* a := make_array 3 a in let* b := make_array 3 b in let* c := make_array 3 c in Ok (a, b, c)
  | _ => Throw InvalidArgument
  end.

Definition read_flat (v : json T) (kname mname : string) : result (list T) :=
  let* jk := member v kname in
  let* ks := make_vec get_real jk in
  let* jm := member v mname in
  let* ms := make_vec get_size jm in
  flat_knots ks ms.

(** make_surface<T,dim>, gbs-io/fromjson.h l.435-467 *)
Definition make_surface (dim : nat) (v : json T) : result (jsurf T) :=
  let* jt := member v "type" in
  let* ty := get_int jt in
  if (ty =? 127)%Z then
    let* jp := member v "poles" in
    let* poles := make_point_vec dim jp in
    let* fu := read_flat v "knotsU" "multsU" in
    let* fv := read_flat v "knotsV" "multsV" in
    let* jp := member v "degreeU" in let* p := get_uint64 jp in
    let* jq := member v "degreeV" in let* q := get_uint64 jq in
    let* s := mk_surf poles fu fv p q in
    Ok (SBS s)
  else if (ty =? 128)%Z then
    let* jp := member v "poles" in
    let* poles := make_point_vec dim jp in
    let* jw := member v "weights" in
    let* ws := make_vec get_real jw in
    let* pw := add_weights_coord dim poles ws in
    let* fu := read_flat v "knotsU" "multsU" in
    let* fv := read_flat v "knotsV" "multsV" in
    let* jp := member v "degreeU" in let* p := get_uint64 jp in
    let* jq := member v "degreeV" in let* q := get_uint64 jq in
    let* s := mk_surf pw fu fv p q in
    Ok (SRat s)
  else Throw InvalidArgument.

(** make_curve<T,dim>, gbs-io/fromjson.h l.398-433; [fuel] bounds the nesting *)
Fixpoint make_curve (fuel : nat) (dim : nat) (v : json T) : result (jcurve T) :=
  match fuel with
  | 0 => Fuel
  | S f =>
    let* jt := member v "type" in
    let* ty := get_int jt in
    if (ty =? 125)%Z then
      let* jp := member v "poles" in
      let* poles := make_point_vec dim jp in
      let* fl := read_flat v "knots" "mults" in
      let* jd := member v "degree" in let* p := get_uint64 jd in
      let* c := mk_curve poles fl p in
      Ok (CBS c)
    else if (ty =? 126)%Z then
      let* jp := member v "poles" in
      let* poles := make_point_vec dim jp in
      let* fl := read_flat v "knots" "mults" in
      let* jw := member v "weights" in
      let* ws := make_vec get_real jw in
      let* jd := member v "degree" in let* p := get_uint64 jd in
      let* c := mk_rational_weights dim poles fl ws p in
      Ok (CRat c)
    else if (ty =? 142)%Z then
      let* jc := member v "curve2d" in
      let* c2 := make_curve f 2 jc in
      let* js := member v "surface" in
      let* s := make_surface dim js in
      Ok (COn c2 s)
    else Throw InvalidArgument
  end.

(** make_surface<T>, gbs-io/fromjson.h l.469-490 *)
Definition make_surface3 (fuel : nat) (v : json T) : result (jsurf T) :=
  let* jt := member v "type" in
  let* ty := get_int jt in
  if (ty =? 120)%Z then
    let* jc := member v "curve" in
    let* c2 := make_curve fuel 2 jc in
    let* ja := member v "axis2" in
    let* ax := make_ax2 ja in
    let* j1 := member v "theta1" in let* th1 := get_real j1 in
    let* j2 := member v "theta2" in let* th2 := get_real j2 in
    Ok (SRev c2 ax th1 th2)
  else make_surface 3 v.
End Json.
