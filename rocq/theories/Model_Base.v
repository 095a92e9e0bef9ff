(** Common vocabulary of the model: scalars, failures, bounds-checked vectors,
    loops.  No proofs in this file.

    The C++ library is a set of templates over a scalar type [T]
    (gbs/gbslib.h, gbs/gbsconstants.h).  [Num T] collects the scalar operations
    the templates use.  Instances: [NumR] (exact reals, used by the theorems) and
    [NumQ] (exact rationals, used to run the model).  Rounding is not modelled. *)
From Coq Require Import List Arith ZArith QArith Qabs Reals Bool.
Import ListNotations.
Local Open Scope nat_scope.

Class Num (T : Type) := {
  n0 : T; n1 : T;
  nadd : T -> T -> T; nsub : T -> T -> T; nmul : T -> T -> T;
  ndiv : T -> T -> T; nopp : T -> T;
  nltb : T -> T -> bool;  (* operator<  *)
  nleb : T -> T -> bool;  (* operator<= *)
  neps : T                (* knot_eps<T>, gbs/gbsconstants.h: epsilon*100 *)
}.

(** [a == b] on non-NaN values. *)
Definition neqb {T} `{Num T} (a b : T) : bool := nleb a b && nleb b a.
(** std::abs / std::fabs *)
Definition nabs {T} `{Num T} (a : T) : T := if nltb a n0 then nopp a else a.
(** T(n) for an unsigned n. *)
Fixpoint nofnat {T} `{Num T} (n : nat) : T :=
  match n with O => n0 | S m => nadd (nofnat m) n1 end.

(** T(z) for an integer z. *)
Fixpoint nofpos {T} `{Num T} (p : positive) : T :=
  match p with
  | xH => n1
  | xO q => let x := nofpos q in nadd x x
  | xI q => let x := nofpos q in nadd (nadd x x) n1
  end.
Definition nofZ {T} `{Num T} (z : Z) : T :=
  match z with Z0 => n0 | Zpos p => nofpos p | Zneg p => nopp (nofpos p) end.

Definition Rltb (a b : R) : bool := if Rlt_dec a b then true else false.
Definition Rleb (a b : R) : bool := if Rle_dec a b then true else false.
(** Exact real arithmetic with an arbitrary knot tolerance [eps]. *)
Definition NumR (eps : R) : Num R := {|
  n0 := 0%R; n1 := 1%R; nadd := Rplus; nsub := Rminus; nmul := Rmult;
  ndiv := Rdiv; nopp := Ropp; nltb := Rltb; nleb := Rleb; neps := eps |}.

(** Exact rational arithmetic (to run the model); eps = 100 * 2^-52 (double). *)
Definition Qltb (a b : Q) : bool := negb (Qle_bool b a).
Definition NumQ : Num Q := {|
  n0 := 0%Q; n1 := 1%Q;
  nadd := fun a b => Qred (Qplus a b); nsub := fun a b => Qred (Qminus a b);
  nmul := fun a b => Qred (Qmult a b); ndiv := fun a b => Qred (Qdiv a b);
  nopp := fun a => Qred (Qopp a); nltb := Qltb; nleb := Qle_bool;
  neps := 100 # 4503599627370496 |}.

(** Outcomes.  [Throw] is a C++ exception; [Undef] is undefined behaviour
    (access outside a vector, null pointer,
    read of an uninitialised local array cell, signed integer overflow) or a
    floating-point division by zero;
    [Fuel] is a loop that has not finished within the fuel it was given. *)
Inductive exn := InvalidArgument | LengthError | OutOfRangeError | OutOfBoundsEval
               | RuntimeError | DomainError.
Inductive undef := BadIndex | DivByZero | NullPtr | EmptyFront | BadIterator | Uninit | IntOverflow.
Inductive result (A : Type) :=
| Ok (a : A) | Throw (e : exn) | Undef (w : undef) | Fuel.
Arguments Ok {A} a. Arguments Throw {A} e. Arguments Undef {A} w. Arguments Fuel {A}.

Definition bind {A B} (m : result A) (f : A -> result B) : result B :=
  match m with Ok a => f a | Throw e => Throw e | Undef w => Undef w | Fuel => Fuel end.
Notation "'let*' x := m 'in' k" := (bind m (fun x => k))
  (at level 200, x pattern, m at level 100, k at level 200, right associativity).

(** v[i] (read) *)
Definition get {A} (l : list A) (i : nat) : result A :=
  match nth_error l i with Some a => Ok a | None => Undef BadIndex end.
Fixpoint upd {A} (l : list A) (i : nat) (a : A) : list A :=
  match l, i with
  | [], _ => []
  | _ :: t, O => a :: t
  | h :: t, S j => h :: upd t j a
  end.
(** v[i] = a *)
Definition set {A} (l : list A) (i : nat) (a : A) : result (list A) :=
  if i <? length l then Ok (upd l i a) else Undef BadIndex.
(** T v[n]; on the stack: [n] cells with no value yet. *)
Definition uninit {A} (n : nat) : list (option A) := repeat None n.
(** Read of a stack array cell. *)
Definition geti {A} (l : list (option A)) (i : nat) : result A :=
  match nth_error l i with
  | Some (Some a) => Ok a | Some None => Undef Uninit | None => Undef BadIndex
  end.
(** Write of a stack array cell. *)
Definition seti {A} (l : list (option A)) (i : nat) (a : A) : result (list (option A)) :=
  set l i (Some a).
(** The same with an index computed in signed arithmetic. *)
Definition getz {A} (l : list (option A)) (z : Z) : result A :=
  if (z <? 0)%Z then Undef BadIndex else geti l (Z.to_nat z).
Definition setz {A} (l : list (option A)) (z : Z) (a : A) : result (list (option A)) :=
  if (z <? 0)%Z then Undef BadIndex else seti l (Z.to_nat z) a.
(** v[z] with an index computed in signed arithmetic *)
Definition zget {A} (l : list A) (z : Z) : result A :=
  if (z <? 0)%Z then Undef BadIndex else get l (Z.to_nat z).
(** v[z] = a *)
Definition zset {A} (l : list A) (z : Z) (a : A) : result (list A) :=
  if (z <? 0)%Z then Undef BadIndex else set l (Z.to_nat z) a.
(** a / b *)
Definition divc {T} `{Num T} (a b : T) : result T :=
  if neqb b n0 then Undef DivByZero else Ok (ndiv a b).
(** a - b on size_t used as an index: a wrap-around is an out-of-range index. *)
Definition subi (a b : nat) : result nat :=
  if b <=? a then Ok (a - b) else Undef BadIndex.
Definition front {A} (l : list A) : result A :=
  match l with [] => Undef EmptyFront | a :: _ => Ok a end.
Definition back {A} (l : list A) : result A :=
  match rev l with [] => Undef EmptyFront | a :: _ => Ok a end.

(** for (i = lo; i < lo + n; ++i) st = body i st *)
Fixpoint for_ {S : Type} (lo n : nat) (body : nat -> S -> result S) (st : S) : result S :=
  match n with
  | O => Ok st
  | Datatypes.S m => let* st' := body lo st in for_ (Datatypes.S lo) m body st'
  end.
(** The same loop when the body cannot fail. *)
Fixpoint forp {S : Type} (lo n : nat) (body : nat -> S -> S) (st : S) : S :=
  match n with O => st | Datatypes.S m => forp (Datatypes.S lo) m body (body lo st) end.
(** v.resize-like construction: n copies. *)
Definition filled {A} (n : nat) (a : A) : list A := repeat a n.
(** std::transform with a body that may fail. *)
Fixpoint mapM {A B} (f : A -> result B) (l : list A) : result (list B) :=
  match l with
  | [] => Ok []
  | a :: t => let* b := f a in let* bs := mapM f t in Ok (b :: bs)
  end.

(** A point std::array<T,dim>: its coordinate function (coordinates >= dim are
    never looked at). *)
Definition pt (T : Type) := nat -> T.
Definition pzero {T} `{Num T} : pt T := fun _ => n0.
Definition padd {T} `{Num T} (a b : pt T) : pt T := fun c => nadd (a c) (b c).
Definition psub {T} `{Num T} (a b : pt T) : pt T := fun c => nsub (a c) (b c).
Definition pscal {T} `{Num T} (s : T) (a : pt T) : pt T := fun c => nmul s (a c).
