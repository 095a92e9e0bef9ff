(** Vocabulary for the statements about splitting lines of text. *)
From Coq Require Import List Arith Ascii.
From Verif Require Import Model_Text.
Import ListNotations.

(** The pieces joined by the separator. *)
Fixpoint join (c : ascii) (ps : list str) : str :=
  match ps with
  | [] => []
  | [p] => p
  | p :: rest => p ++ c :: join c rest
  end.
(** ps are the pieces between separators of the line s. *)
Definition pieces (c : ascii) (s : str) (ps : list str) : Prop :=
  ps <> [] /\ s = join c ps /\ forall p, In p ps -> ~ In c p.

Definition plain (s : str) : Prop := forall x, In x s -> nat_of_ascii x < 128.

(** space, tab, line feed, vertical tab, form feed, carriage return *)
Definition blank (x : ascii) : bool :=
  existsb (Ascii.eqb x) (map ascii_of_nat [32; 9; 10; 11; 12; 13]).
Definition without_blanks (s : str) : str := filter (fun x => negb (blank x)) s.
Definition is_blank (s : str) : bool := forallb blank s.
(** The non-blank pieces in order, without their blanks. *)
Definition fields (ps : list str) : list str :=
  map without_blanks (filter (fun p => negb (is_blank p)) ps).
