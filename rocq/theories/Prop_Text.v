(** Theorems about reading points from text (C59). *)
From Coq Require Import List Arith Ascii.
From Verif Require Import Model_Base Model_Text Spec_Text Proof_Text.
Import ListNotations.

(** C59: a line that contains the separator is split into its non-blank fields, in order.
    Missing: lines without the separator (next theorem) and characters beyond ASCII. *)
Theorem C59_split_partial : forall c s ps, plain s -> pieces c s ps -> In c s ->
  split s c [] = Ok (fields ps).
Proof.
  intros c s ps P D I. destruct ps as [|p [|q rest]].
  - destruct D as (N & _). contradiction.
  - destruct D as (_ & E & H). exfalso. apply (H p (or_introl eq_refl)). cbn in E. rewrite <- E. exact I.
  - exact (split_fields c s p q rest [] P D (fun x H => match H with end)).
Qed.
Print Assumptions C59_split_partial.

(** Every line has exactly one list of pieces. *)
Theorem C59_pieces : forall c s, exists ps, pieces c s ps /\ forall ps', pieces c s ps' -> ps' = ps.
Proof.
  intros c s. destruct (pieces_exist c s) as (ps & D). exists ps.
  exact (conj D (fun ps' D' => pieces_unique c ps' ps s D' D)).
Qed.
Print Assumptions C59_pieces.

(** The only field of a line without separator is lost. *)
Theorem C59_lone_field_refuted : forall c s, plain s -> ~ In c s ->
  split s c [] = Ok [] /\ (is_blank s = false -> fields [s] = [without_blanks s]).
Proof.
  intros c s P N. split.
  - exact (split_lone c s [] N (fun x H => match H with end)).
  - unfold fields. cbn. intros ->. reflexivity.
Qed.
Print Assumptions C59_lone_field_refuted.

(** Characters from 128 on reach isspace as negative numbers. *)
Theorem C59_non_ascii_refuted : split [ascii_of_nat 233; " "%char; "1"%char] " " [] = Undef BadIndex.
Proof. reflexivity. Qed.
Print Assumptions C59_non_ascii_refuted.

(** Lines with a wrong number of fields are rejected ... *)
Theorem C59_wrong_number : forall (T : Type) (parse : str -> option T) dim c s ps,
  plain s -> pieces c s ps -> In c s -> length (fields ps) <> dim ->
  read_line parse dim c s = Throw RuntimeError.
Proof.
  intros T parse dim c s ps P D I. destruct ps as [|p [|q rest]].
  - destruct D as (N & _). contradiction.
  - destruct D as (_ & E & H). exfalso. apply (H p (or_introl eq_refl)). cbn in E. rewrite <- E. exact I.
  - exact (read_line_wrong parse dim c s p q rest P D).
Qed.
Print Assumptions C59_wrong_number.

(** ... so a file that is accepted has dim fields on every line that is not skipped. *)
Theorem C59_accepted : forall (T : Type) (parse : str -> option T) dim skip c lines pts i line ps,
  read_points parse dim skip c lines = Ok pts -> skip <= i -> nth_error lines i = Some line ->
  plain line -> pieces c line ps -> In c line -> length (fields ps) = dim.
Proof.
  intros T parse dim skip c lines pts i line ps R S L P D I. destruct ps as [|p [|q rest]].
  - destruct D as (N & _). contradiction.
  - destruct D as (_ & E & H). exfalso. apply (H p (or_introl eq_refl)). cbn in E. rewrite <- E. exact I.
  - exact (read_points_wrong parse dim skip c lines pts i line p q rest R S L P D).
Qed.
Print Assumptions C59_accepted.

(** A file whose lines have the right number of fields that all are numbers is read. *)
Theorem C59_read_partial : forall (T : Type) (parse : str -> option T) dim skip c lines pts,
  Forall2 (fun line pt => plain line /\ length pt = dim /\
             exists p q rest, pieces c line (p :: q :: rest) /\ map parse (fields (p :: q :: rest)) = map Some pt)
    (skipn skip lines) pts ->
  read_points parse dim skip c lines = Ok pts.
Proof. exact @read_points_ok. Qed.
Print Assumptions C59_read_partial.

(** The line " 1, 2 ,,3" *)
Example text_example :
  let s := [" "; "1"; ","; " "; "2"; " "; ","; ","; "3"]%char in
  plain s /\ pieces "," s [[" "; "1"]; [" "; "2"; " "]; []; ["3"]]%char /\
  split s "," [] = Ok [["1"]; ["2"]; ["3"]]%char.
Proof.
  cbn zeta. split; [|split; [|reflexivity]].
  - intros x I. apply Nat.ltb_lt. cbn in I. repeat (destruct I as [<-|I]; [reflexivity|]). destruct I.
  - split; [discriminate|]. split; [reflexivity|]. intros p I J. cbn in I.
    repeat (destruct I as [<-|I]; [cbn in J; tauto || (repeat (destruct J as [J|J]; [discriminate J|]); destruct J)|]). destruct I.
Qed.
