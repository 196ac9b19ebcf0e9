(** RC-index files, independently of the functions that read them. *)
From Coq Require Import Reals QArith Qreals List Arith ZArith String Ascii Bool.
From Verif Require Import M_Prelude M_ND M_Text Spec_Field Spec_Loaders Spec_Chaos.
Import ListNotations.
Open Scope nat_scope.

(** An epoch: time in days since 2000, RC, its external and internal part, and the flag. *)
Record epoch := mkepoch { ep_time : Q; ep_rc : Q; ep_e : Q; ep_i : Q; ep_flag : text }.

(** Lines without data: white space only, or a comment from the first column on. *)
Definition idle_line (l : text) : Prop :=
  Forall (fun c => is_space c = true) l \/ exists r, l = "#"%char :: r.
(** A flag: a word without comment character and quote, and none of the words for a missing value. *)
Definition missing_words : list text := map txt
  ["-NaN"; "-nan"; "<NA>"; "N/A"; "NA"; "NULL"; "NaN"; "None"; "n/a"; "nan"; "null"]%string.
(** A line with the five fields, perhaps followed by a comment. *)
Definition epoch_line (l : text) (e : epoch) : Prop :=
  exists body rest a b c d, l = (body ++ rest)%list /\ ~ In "#"%char body /\ (rest = [] \/ exists r, rest = "#"%char :: r) /\
    words body = [a; b; c; d; ep_flag e] /\
    number a (ep_time e) /\ number b (ep_rc e) /\ number c (ep_e e) /\ number d (ep_i e) /\
    ~ In (ep_flag e) missing_words.
(** The lines of a file and its epochs, in order *)
Inductive rc_lines : list text -> list epoch -> Prop :=
| rc_end : rc_lines [] []
| rc_idle l ls es : idle_line l -> rc_lines ls es -> rc_lines (l :: ls) es
| rc_epoch l e ls es : epoch_line l e -> rc_lines ls es -> rc_lines (l :: ls) (e :: es).
Definition rc_textfile (content : text) (es : list epoch) : Prop := rc_lines (lines content) es.

(** The table (time, external part, internal part) *)
Definition rc_table (es : list epoch) : list (R * R * R) :=
  map (fun e => (Q2R (ep_time e), Q2R (ep_e e), Q2R (ep_i e))) es.

(** The external or internal part of the index *)
Definition index_rows (s : src) (es : list epoch) : list (R * R) :=
  map (fun e => (Q2R (ep_time e), Q2R (match s with External => ep_e e | Internal => ep_i e end))) es.
(** A way to obtain the index at given times, from the source name: linear
    interpolation between neighbouring epochs, an error outside the epochs. *)
Definition gives_index (get : string -> nd R -> result (nd R)) (es : list epoch) : Prop :=
  forall s time, elems time <> [] -> distinct_times (index_rows s es) ->
    ((forall i, valid (sh time) i -> covered (index_rows s es) (at_ time i)) ->
     exists rc, get (src_name s) time = Ok rc /\ sh rc = sh time /\
       forall i, valid (sh time) i -> interpolates (index_rows s es) (at_ time i) (at_ rc i)) /\
    ((exists i, valid (sh time) i /\ ~ covered (index_rows s es) (at_ time i)) -> get (src_name s) time = Err ValueError).

(** Text in ASCII *)
Definition in_ascii (w : text) : Prop := Forall (fun c => nat_of_ascii c < 128) w.

(** A row with gaps: a missing field, or one of the words for a missing
    value, is a gap. *)
Record row := mkrow { rw_time : option Q; rw_rc : option Q; rw_e : option Q; rw_i : option Q; rw_flag : option text }.
Inductive number_or_gap : option text -> option Q -> Prop :=
| ng_absent : number_or_gap None None
| ng_word w : In w missing_words -> number_or_gap (Some w) None
| ng_number w q : number w q -> number_or_gap (Some w) (Some q).
Inductive flag_or_gap : option text -> option text -> Prop :=
| fg_absent : flag_or_gap None None
| fg_word w : In w missing_words -> flag_or_gap (Some w) None
| fg_flag w : ~ In w missing_words -> flag_or_gap (Some w) (Some w).
(** One to five fields, perhaps followed by a comment *)
Definition row_line (l : text) (r : row) : Prop :=
  exists body rest, l = (body ++ rest)%list /\ ~ In "#"%char body /\ (rest = [] \/ exists c, rest = "#"%char :: c) /\
    1 <= List.length (words body) <= 5 /\
    number_or_gap (nth_error (words body) 0) (rw_time r) /\ number_or_gap (nth_error (words body) 1) (rw_rc r) /\
    number_or_gap (nth_error (words body) 2) (rw_e r) /\ number_or_gap (nth_error (words body) 3) (rw_i r) /\
    flag_or_gap (nth_error (words body) 4) (rw_flag r).
Inductive row_lines : list text -> list row -> Prop :=
| rl_end : row_lines [] []
| rl_idle l ls rs : idle_line l -> row_lines ls rs -> row_lines (l :: ls) rs
| rl_row l r ls rs : row_line l r -> row_lines ls rs -> row_lines (l :: ls) (r :: rs).
