(** C116 - C118: RC-index files. *)
From Coq Require Import Reals QArith Qreals List Arith ZArith String Ascii Bool.
From Verif Require Import M_Prelude M_ND M_Text M_RC Spec_Field Spec_Loaders Spec_Chaos Spec_RC P_RC P_RC2 W_RC P_RC3.
Import ListNotations.
Open Scope nat_scope.

(** ** C116: the text file *)

(** One row per epoch, in the order of the file. *)
Theorem C116_every_epoch_is_loaded : forall fs p content es, fs p = Some (FText content) -> rc_textfile content es ->
  let floats (f : epoch -> Q) := CFloat (map (fun e => Some (f e)) es) in
  let columns := [("RC", floats ep_rc); ("RC_e", floats ep_e); ("RC_i", floats ep_i);
                  ("flag", CCat (map (fun e => Some (ep_flag e)) es))]%string in
  load_RC_datfile fs p None = Ok (mkframe Rows (("time"%string, floats ep_time) :: columns)) /\
  load_RC_datfile fs p (Some false) = load_RC_datfile fs p None /\
  load_RC_datfile fs p (Some true) = Ok (mkframe (Dates (map (fun e => Some (ep_time e)) es)) columns).
Proof. intros fs p content es Hp H. destruct (load_ok fs p content es Hp H) as (A & B & C). rewrite A, B, C. repeat split; reflexivity. Qed.
Print Assumptions C116_every_epoch_is_loaded.

(** A word that is no number in a number column, or a sixth field after the
    first row, is an error, whatever follows in the file. *)
Theorem C116_bad_numbers_are_rejected : forall fs p content (pre post : list text) es (l body rest : text) ws k w,
  fs p = Some (FText content) -> lines content = (pre ++ l :: post)%list -> rc_lines pre es ->
  l = (body ++ rest)%list -> ~ In "#"%char body -> (rest = [] \/ exists r, rest = "#"%char :: r) ->
  words body = ws -> List.length ws = 5 -> k < 4 -> nth_error ws k = Some w ->
  ~ In w missing_words -> (forall q, ~ number w q) ->
  forall parse_dates, load_RC_datfile fs p parse_dates = Err ValueError.
Proof. intros fs p content pre post es l body rest ws k w H1 H2 H3 H4 H5 H6 H7 H8 H9 H10 H11 H12. exact (bad_number fs p content pre post es l body rest ws k w H1 H2 H3 H4 H5 H6 H7 H8 H9 H10 (conj H11 H12)). Qed.
Print Assumptions C116_bad_numbers_are_rejected.
Theorem C116_surplus_fields_are_rejected : forall fs p content (pre post : list text) es (l body rest : text),
  fs p = Some (FText content) -> lines content = (pre ++ l :: post)%list -> rc_lines pre es -> es <> [] ->
  l = (body ++ rest)%list -> ~ In "#"%char body -> (rest = [] \/ exists r, rest = "#"%char :: r) -> 5 < List.length (words body) ->
  forall parse_dates, load_RC_datfile fs p parse_dates = Err ValueError.
Proof. exact too_many_fields. Qed.
Print Assumptions C116_surplus_fields_are_rejected.
(** Gaps: fields that are absent or one of the words for a missing value
    become NaN (numbers) or missing (flag), all other fields stay. *)
Theorem C116_gaps_become_missing_values : forall fs p content rs, fs p = Some (FText content) -> row_lines (lines content) rs ->
  let columns := [("RC", CFloat (map rw_rc rs)); ("RC_e", CFloat (map rw_e rs)); ("RC_i", CFloat (map rw_i rs));
                  ("flag", CCat (map rw_flag rs))]%string in
  load_RC_datfile fs p None = Ok (mkframe Rows (("time"%string, CFloat (map rw_time rs)) :: columns)) /\
  load_RC_datfile fs p (Some false) = load_RC_datfile fs p None /\
  load_RC_datfile fs p (Some true) = Ok (mkframe (Dates (map rw_time rs)) columns).
Proof. intros fs p content rs Hp H. destruct (load_gaps fs p content rs Hp H) as (A & B & C). rewrite A, B, C. repeat split; reflexivity. Qed.
Print Assumptions C116_gaps_become_missing_values.
Example C116_applies : rc_fs "RC.dat"%string = Some (FText rc_text) /\ rc_textfile rc_text rc_epochs.
Proof. exact (conj eq_refl rc_example). Qed.
(** Without the condition on the first row the claim fails: its surplus fields
    shift all columns. *)
Example C116_surplus_in_first_row_shifts :
  load_RC_datfile (fun _ => Some (FText (txt "9 1 2 3 4 D"))) "x"%string None =
  Ok (mkframe (Leading [[Some (txt "9")]])
        [("time", CFloat [Some 1%Q]); ("RC", CFloat [Some 2%Q]); ("RC_e", CFloat [Some 3%Q]); ("RC_i", CFloat [Some 4%Q]);
         ("flag", CCat [Some (txt "D")])]%string).
Proof. reflexivity. Qed.

(** ** C117: the index used for the SM field *)

Theorem C117_index_from_text_file : forall fs p content es, fs p = Some (FText content) -> rc_textfile content es ->
  gives_index (rc_from_file fs p) es.
Proof. exact text_gives. Qed.
Print Assumptions C117_index_from_text_file.
Theorem C117_index_from_saved_file : forall fs out dat content es, fs dat = Some (FText content) -> rc_textfile content es ->
  gives_index (rc_from_file (final fs (save_RC_h5file fs true out dat)) out) es.
Proof. exact hdf5_gives. Qed.
Print Assumptions C117_index_from_saved_file.
(** Text file and saved file are interchangeable, also where errors are raised. *)
Theorem C117_same_index : forall fs out dat content es source time,
  fs dat = Some (FText content) -> rc_textfile content es ->
  rc_from_file (final fs (save_RC_h5file fs true out dat)) out source time = rc_from_file fs dat source time.
Proof. exact hdf5_same. Qed.
Print Assumptions C117_same_index.
Example C117_applies : forall s, distinct_times (index_rows s rc_epochs) /\ elems rc_time <> [] /\
  forall i, valid (sh rc_time) i -> covered (index_rows s rc_epochs) (at_ rc_time i).
Proof. intros s. split; [exact (rc_example_distinct s)|]. split; [discriminate|]. exact (rc_example_covered s). Qed.

(** ** C118: saving *)

(** The file has the five columns, of the flags the first character. *)
Theorem C118_saves_every_epoch : forall fs out dat content es,
  fs dat = Some (FText content) -> rc_textfile content es -> Forall (fun e => in_ascii (ep_flag e)) es ->
  let r := save_RC_h5file fs true out dat in
  let floats (f : epoch -> Q) := DFloat (map (fun e => Some (f e)) es) in
  r_success r = true /\
  final fs r out = Some (FH5 [("time", floats ep_time); ("RC", floats ep_rc); ("RC_e", floats ep_e); ("RC_i", floats ep_i);
                              ("flag", DBytes (map (fun e => firstn 1 (ep_flag e)) es))]%string) /\
  forall p, p <> out -> final fs r p = fs p.
Proof. exact saves_epochs. Qed.
Print Assumptions C118_saves_every_epoch.
(** Nothing is changed, at no time, if the text file cannot be read or the
    output cannot be created; the caller gets the warning, no exception. *)
Theorem C118_failed_reading_changes_nothing : forall fs w out dat e,
  load_RC_datfile fs dat None = Err e \/ w = false -> save_RC_h5file fs w out dat = mkrun [fs] false.
Proof. exact save_unreadable. Qed.
Print Assumptions C118_failed_reading_changes_nothing.
(** In every state of every run no other file is touched. *)
Theorem C118_other_files_are_untouched : forall fs w out dat st p,
  In st (r_states (save_RC_h5file fs w out dat)) -> p <> out -> st p = fs p.
Proof. exact save_touches_only_out. Qed.
Print Assumptions C118_other_files_are_untouched.
(** In every state the output gives the old index, an error, or the new one. *)
Theorem C118_interrupted_saving : forall fs w out dat content es st, fs dat = Some (FText content) -> rc_textfile content es ->
  In st (r_states (save_RC_h5file fs w out dat)) ->
  st out = fs out \/ forall s time, rc_from_file st out (src_name s) time = Err KeyError \/
    rc_from_file st out (src_name s) time = rc_from_file fs dat (src_name s) time.
Proof. exact crash_safe. Qed.
Print Assumptions C118_interrupted_saving.
(** That the old file survives whenever the warning is given is false: with a
    flag outside ASCII it is replaced, and all flags of the new file are empty. *)
Theorem C118_warning_keeps_old_file_refuted : forall fs out dat content es,
  fs dat = Some (FText content) -> rc_textfile content es -> Exists (fun e => ~ in_ascii (ep_flag e)) es ->
  let r := save_RC_h5file fs true out dat in
  r_success r = false /\ final fs r out = Some (rc_h5 es (map (fun _ => []) es)).
Proof. exact saves_bad. Qed.
Print Assumptions C118_warning_keeps_old_file_refuted.
(** A missing flag is stored as the letter n. *)
Theorem C118_saves_rows_with_gaps : forall fs out dat content rs, fs dat = Some (FText content) -> row_lines (lines content) rs ->
  Forall (fun r => match rw_flag r with None => True | Some w => in_ascii w end) rs ->
  let r := save_RC_h5file fs true out dat in
  r_success r = true /\
  final fs r out = Some (FH5 [("time", DFloat (map rw_time rs)); ("RC", DFloat (map rw_rc rs)); ("RC_e", DFloat (map rw_e rs));
     ("RC_i", DFloat (map rw_i rs)); ("flag", DBytes (map (fun r => match rw_flag r with None => txt "n" | Some w => firstn 1 w end) rs))]%string).
Proof. exact save_gaps. Qed.
Print Assumptions C118_saves_rows_with_gaps.
Example C118_applies : Forall (fun e => in_ascii (ep_flag e)) rc_epochs /\
  load_RC_datfile rc_fs "none.dat"%string None = Err FileNotFoundError /\
  rc_textfile rc_text_utf8 rc_epochs_utf8 /\ Exists (fun e => ~ in_ascii (ep_flag e)) rc_epochs_utf8 /\
  row_lines (lines gap_text) gap_rows.
Proof. exact (conj ascii_epochs (conj eq_refl (conj (proj1 rc_example_utf8) (conj utf8_epochs gap_example)))). Qed.
