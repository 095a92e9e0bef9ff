(** Model of gbs-io/fromtext.h: reading points from lines of text.  A string is a list of
    characters.  No proofs in this file. *)
From Coq Require Import List Arith Bool Ascii.
From Verif Require Import Model_Base.
Import ListNotations.
Local Open Scope nat_scope.

Definition str := list ascii.

(** std::string::find(c, pos); None is npos *)
Fixpoint find_at (l : str) (c : ascii) (k : nat) : option nat :=
  match l with
  | [] => None
  | x :: t => if Ascii.eqb x c then Some k else find_at t c (S k)
  end.
Definition find (s : str) (c : ascii) (pos : nat) : option nat := find_at (skipn pos s) c pos.
(** std::string::substr(pos, n) *)
Definition substr (s : str) (pos n : nat) : result str :=
  if length s <? pos then Throw OutOfRangeError else Ok (firstn n (skipn pos s)).

(** std::isspace in the "C" locale; its argument is a char that is negative from 128 on,
    where the behaviour is undefined *)
Definition isspace (c : ascii) : result bool :=
  let n := nat_of_ascii c in
  if 128 <=? n then Undef BadIndex
  else Ok ((n =? 32) || ((9 <=? n) && (n <=? 13))).

(** the loop of split, gbs-io/fromtext.h l.12-23 *)
Fixpoint split_loop (fuel : nat) (s : str) (c : ascii) (i : nat) (j : option nat) (v : list str)
  : result (list str) :=
  match j with
  | None => Ok v
  | Some j =>
    match fuel with
    | 0 => Fuel
    | S f =>
      let* piece := substr s i (j - i) in
      let v := v ++ [piece] in
      let i := j + 1 in
      let j := find s c i in
      let* v := match j with
                | None => let* r := substr s i (length s) in Ok (v ++ [r])
                | Some _ => Ok v
                end in
      split_loop f s c i j v
    end
  end.

(** erase(remove_if(isspace)), l.25-34 *)
Fixpoint erase_spaces (s : str) : result str :=
  match s with
  | [] => Ok []
  | x :: t =>
    let* b := isspace x in
    let* r := erase_spaces t in
    Ok (if b then r else x :: r)
  end.

(** split, gbs-io/fromtext.h l.9-45; v holds the strings already there *)
Definition split (s : str) (c : ascii) (v : list str) : result (list str) :=
  let* v := split_loop (S (length s)) s c 0 (find s c 0) v in
  let* v := mapM erase_spaces v in
  Ok (filter (fun x => negb (length x =? 0)) v).

(** bscurve_approx_from_points, gbs-io/fromtext.h l.48-99, up to the call of approx: the
    lines of the file to points.  [parse] is std::stod (None: it throws). *)
Section Points.
Context {T : Type}.
Variable parse : str -> option T.
Definition read_line (dim : nat) (c : ascii) (line : str) : result (list T) :=
  let* v := split line c [] in
  if negb (length v =? dim) then Throw RuntimeError else
  mapM (fun x => match parse x with Some t => Ok t | None => Throw RuntimeError end) v.
Definition read_points (dim : nat) (n_skip_line : nat) (c : ascii) (lines : list str) : result (list (list T)) :=
  mapM (read_line dim c) (skipn n_skip_line lines).
End Points.
