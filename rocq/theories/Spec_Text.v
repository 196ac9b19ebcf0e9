(** Numbers, words and lines of text files, independently of the functions
    that parse them. *)
From Coq Require Import List Arith ZArith QArith Ascii String.
Import ListNotations.

Definition code (c : ascii) : Z := Z.of_nat (nat_of_ascii c).

(** ** Decimal numbers: [+|-] digits [. digits] [e|E [+|-] digits] *)
Definition a_digit (c : ascii) : Prop := (48 <= code c <= 57)%Z.
(** the value of a row of digits *)
Fixpoint digits_value (l : list ascii) : Z :=
  match l with [] => 0%Z | c :: r => ((code c - 48) * 10 ^ Z.of_nat (List.length r) + digits_value r)%Z end.
Inductive a_sign : list ascii -> Z -> Prop :=
| sign_none : a_sign [] 1
| sign_plus : a_sign ["+"%char] 1
| sign_minus : a_sign ["-"%char] (-1).
Inductive an_exponent : list ascii -> Z -> Prop :=
| exponent_none : an_exponent [] 0
| exponent_some c sg s ds : c = "e"%char \/ c = "E"%char -> a_sign sg s -> List.Forall a_digit ds -> ds <> [] ->
    an_exponent (c :: sg ++ ds) (s * digits_value ds).
(** [w] reads as the number [q]: integer part [ip], fraction [fp] *)
Definition decimal (w : list ascii) (q : Q) : Prop :=
  exists sg s ip dot fp ex e, w = (sg ++ ip ++ dot ++ fp ++ ex)%list /\ a_sign sg s /\
    List.Forall a_digit ip /\ List.Forall a_digit fp /\ (dot = ["."%char] \/ dot = [] /\ fp = []) /\ (ip ++ fp)%list <> [] /\
    an_exponent ex e /\
    (q == inject_Z s * (inject_Z (digits_value (ip ++ fp)) / 10 ^ Z.of_nat (List.length fp)) * 10 ^ e)%Q.

(** ** Words, separated by white space *)
Definition white (c : ascii) : Prop := code c = 32%Z \/ (9 <= code c <= 13)%Z.
Inductive words_of : list ascii -> list (list ascii) -> Prop :=
| words_end sp : List.Forall white sp -> words_of sp []
| words_more sp w rest ws : List.Forall white sp -> w <> [] -> List.Forall (fun c => ~ white c) w ->
    (rest = [] \/ exists c r, rest = c :: r /\ white c) -> words_of rest ws -> words_of (sp ++ w ++ rest) (w :: ws).

(** ** Lines, ended by a line feed; the last one perhaps not *)
Definition newline : ascii := "010"%char.
Inductive lines_of : list ascii -> list (list ascii) -> Prop :=
| lines_end : lines_of [] []
| lines_last l : l <> [] -> ~ In newline l -> lines_of l [l]
| lines_more l rest ls : ~ In newline l -> lines_of rest ls -> lines_of (l ++ newline :: rest) (l :: ls).
