(** What an SHC file says, independently of the function that reads it. *)
From Coq Require Import List Arith ZArith QArith Ascii String.
From Verif Require Import Spec_Text.
Import ListNotations.

(** A comment line: the comment mark after white space. *)
Definition comment_line (mark line : list ascii) : Prop := exists sp rest, List.Forall white sp /\ line = (sp ++ mark ++ rest)%list.
(** A usable comment mark. *)
Definition a_mark (mark : list ascii) : Prop := exists c r, mark = c :: r /\ ~ white c.
(** The leading numbers of a line. *)
Definition leading_numbers (line : list ascii) (qs : list Q) : Prop :=
  exists ws num rest, words_of line ws /\ ws = (num ++ rest)%list /\ Forall2 decimal num qs /\
    match rest with [] => True | w :: _ => forall q, ~ decimal w q end.
(** q without its fraction *)
Definition integer_part (q : Q) (z : Z) : Prop :=
  (0 <= q /\ inject_Z z <= q /\ q < inject_Z (z + 1))%Q \/ (q < 0 /\ q <= inject_Z z /\ inject_Z (z - 1) < q)%Q.

(** Numbers of the lines that are no comments. *)
Inductive table_numbers (mark : list ascii) : list (list ascii) -> list Q -> Prop :=
| table_end : table_numbers mark [] []
| table_comment l ls d : comment_line mark l -> table_numbers mark ls d -> table_numbers mark (l :: ls) d
| table_line l ls qs d : ~ comment_line mark l -> leading_numbers l qs -> table_numbers mark ls d -> table_numbers mark (l :: ls) (qs ++ d).
(** The file: comments, the line of parameters (whole numbers), the table. *)
Inductive shc_file (mark : list ascii) : list (list ascii) -> list Z -> list Q -> Prop :=
| file_comment l ls ps d : comment_line mark l -> shc_file mark ls ps d -> shc_file mark (l :: ls) ps d
| file_params l ls qs ps d : ~ comment_line mark l -> leading_numbers l qs -> Forall2 integer_part qs ps -> table_numbers mark ls d ->
    shc_file mark (l :: ls) ps d.
