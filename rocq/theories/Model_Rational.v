(** Model of the weighted (rational) part of gbs/basisfunctions.ixx and of the
    integer helpers of gbs/math.ixx it uses.  No proofs in this file.

    A weighted pole std::array<T, dim+1> is a [pt T] whose coordinate [dim] is the
    weight (back()). *)
From Coq Require Import List Arith ZArith Bool.
From Verif Require Import Model_Base Model_Basis.
Import ListNotations.
Local Open Scope nat_scope.

(** Integer arithmetic of a template argument: the product of two values, wrapping
    (size_t) or undefined on overflow (int). *)
Definition int_max : Z := 2147483647.
Definition size_mod : Z := 18446744073709551616.
Definition mul_size (a b : Z) : result Z := Ok ((a * b) mod size_mod)%Z.
Definition mul_int (a b : Z) : result Z :=
  if (a * b <=? int_max)%Z then Ok (a * b)%Z else Undef IntOverflow.

(** factorial, gbs/math.ixx l.47-58, for an argument 0 <= n, with the product of the
    argument's type. *)
Fixpoint factorial (mul : Z -> Z -> result Z) (n : nat) : result Z :=
  match n with
  | O => Ok 1%Z
  | S m => if n <=? 1 then Ok 1%Z else
           let* f := factorial mul m in mul (Z.of_nat n) f
  end.

(** binomial_law, gbs/math.ixx l.60-71; n - k wraps on size_t when k > n: not
    modelled (no caller does it), reported as IntOverflow. *)
Definition binomial_law {T} `{Num T} (mul : Z -> Z -> result Z) (n k : nat) : result T :=
  if k =? n then Ok n1 else
  if n <? k then Undef IntOverflow else
  let* fn := factorial mul n in
  let* fk := factorial mul k in
  let* fnk := factorial mul (n - k) in
  let* den := mul fk fnk in
  divc (nofZ fn) (nofZ den).

Section Rational.
Context {T : Type} `{Num T}.

(** pt.back() *)
Definition weight (dim : nat) (q : pt T) : T := q dim.

(** weight_projection, gbs/basisfunctions.ixx l.873-888 (and weight_projected_pole,
    l.889-911, rational case) *)
Definition weight_projection (dim : nat) (q : pt T) : pt T :=
  if neqb (q dim) n0 then pzero else fun c => ndiv (q c) (q dim).

(** add_weight, gbs/basisfunctions.ixx l.951-963; coordinates above dim do not exist *)
Definition add_weight (dim : nat) (q : pt T) (w : T) : pt T :=
  fun c => if c =? dim then w else nmul (q c) w.

(** add_weights_coord(poles), gbs/basisfunctions.ixx l.972-987 *)
Definition add_weights_one (dim : nat) (poles : list (pt T)) : list (pt T) :=
  map (fun q => add_weight dim q n1) poles.

(** add_weights_coord(poles, weights), gbs/basisfunctions.ixx l.999-1020 *)
Definition add_weights_coord (dim : nat) (poles : list (pt T)) (ws : list T)
  : result (list (pt T)) :=
  if length poles =? length ws
  then Ok (map (fun qw => add_weight dim (fst qw) (snd qw)) (combine poles ws))
  else Throw LengthError.

(** merge_weights, gbs/basisfunctions.ixx l.849-864: no size check; a shorter weight
    vector is read past its end. *)
Definition merge_weights (dim : nat) (poles : list (pt T)) (ws : list T)
  : result (list (pt T)) :=
  mapM (fun i => let* q := get poles i in
                 let* w := get ws i in
                 Ok (fun c => if c =? dim then w else nmul (q c) w)) (seq 0 (length poles)).

(** separate_weights, gbs/basisfunctions.ixx l.922-941 *)
Definition separate_weights (dim : nat) (pw : list (pt T)) : list (pt T) * list T :=
  (map (weight_projection dim) pw, map (weight dim) pw).

(** scale_poles, gbs/basisfunctions.ixx l.1030-1039, and scaled_poles, l.1060-1066 *)
Definition scale_poles (poles : list (pt T)) (s : T) : list (pt T) :=
  map (fun q c => nmul (q c) s) poles.

(** scale_weights, gbs/basisfunctions.ixx l.1041-1058 *)
Definition scale_weights (dim : nat) (poles : list (pt T)) (mean : T) : result (list (pt T)) :=
  let sum := fold_left (fun s q => nadd s (weight dim q)) poles n0 in
  let* m := divc sum (nofnat (length poles)) in
  let* f := divc mean m in
  Ok (scale_poles poles f).

(** scaled_weights, gbs/basisfunctions.ixx l.1068-1074: mean_value is not passed on *)
Definition scaled_weights (dim : nat) (poles : list (pt T)) (mean : T) : result (list (pt T)) :=
  scale_weights dim poles n1.

(** One term of the quotient rule: sum - binomial * wi * C *)
Definition rat_sub (s : pt T) (b wi : T) (C : pt T) : pt T :=
  fun c => nsub (s c) (nmul (nmul b wi) (C c)).

(** eval_rational_value_simple, gbs/basisfunctions.ixx l.1087-1111.  The C++ recursion
    on smaller orders is bounded by [fuel]. *)
Fixpoint eval_rational_rec (fuel : nat) (dim : nat) (u : T) (k : list T) (poles : list (pt T))
    (p d : nat) : result (pt T) :=
  match fuel with
  | O => Fuel
  | S fuel =>
    if d =? 0 then
      let* q := eval_value u k poles p d in
      Ok (weight_projection dim q)
    else
      let* q0 := eval_value u k poles p 0 in
      let wu := weight dim q0 in
      let* Ckw := eval_value u k poles p d in
      let Ak := weight_projection dim (fun c => if c =? dim then n1 else Ckw c) in
      let* s := for_ 1 d (fun i s =>
        let* qi := eval_value u k poles p i in
        let wi := weight dim qi in
        let* C := eval_rational_rec fuel dim u k poles p (d - i) in
        let* b := binomial_law mul_size d i in
        Ok (rat_sub s b wi C)) Ak in
      if neqb wu n0 then Undef DivByZero else Ok (fun c => ndiv (s c) wu)
  end.
Definition eval_rational_value (dim : nat) (u : T) (k : list T) (poles : list (pt T)) (p d : nat)
  : result (pt T) := eval_rational_rec (S d) dim u k poles p d.

(** eval_rational_ders, gbs/basisfunctions.ixx l.459-488 *)
Definition eval_rational_ders (dim : nat) (u : T) (k : list T) (poles : list (pt T)) (p n : nat)
  : result (list (pt T)) :=
  let CK := filled (n + 1) pzero in
  if stack_max <? n then
    for_ 0 (n + 1) (fun kk CK =>
      let* q := eval_rational_value dim u k poles p kk in
      set CK kk q) CK
  else
    let* A := eval_ders u k poles p n in
    let* A0 := get A 0 in
    let w0 := weight dim A0 in
    for_ 0 (n + 1) (fun kk CK =>
      let* v := get A kk in
      let* v := for_ 1 kk (fun i v =>
        let* Ai := get A i in
        let* b := binomial_law mul_size kk i in
        let* C := get CK (kk - i) in
        Ok (rat_sub v b (weight dim Ai) C)) v in
      if neqb w0 n0 then Undef DivByZero else
      set CK kk (fun c => ndiv (v c) w0)) CK.

End Rational.
