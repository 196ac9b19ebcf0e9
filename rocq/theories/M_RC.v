(** Model of the RC-index files: [load_RC_datfile] and [save_RC_h5file]
    (chaosmagpy/data_utils.py 113-216) and the part of
    [CHAOS.synth_coeffs_sm] that opens the configured file
    (chaosmagpy/chaos.py 1794-1840).

    A file system is a map from paths to files; a file is a text or an HDF5
    file with named one-dimensional datasets.  The download (filepath=None),
    printed texts and the warning about the built-in file are not modelled. *)
From Coq Require Import Reals QArith Qreals List Arith ZArith String Ascii Bool.
From Verif Require Import M_Prelude M_ND M_Text M_Chaos.
Import ListNotations.
Open Scope nat_scope.

(** A number that may be NaN *)
Definition cell := option Q.
Inductive dataset := DFloat (v : list cell) | DBytes (v : list text).
Inductive file := FText (content : text) | FH5 (sets : list (string * dataset)).
Definition fsys := string -> option file.
Definition update (fs : fsys) (p : string) (f : file) : fsys := fun q => if (q =? p)%string then Some f else fs q.

(** A column of a data frame and a data frame: the index is the row number,
    the surplus leading columns of the file, or dates (in days since
    2000-01-01; the rounding to nanoseconds is not modelled). *)
Inductive column := CFloat (v : list cell) | CCat (v : list (option text)).
Inductive dfindex := Rows | Leading (v : list (list (option text))) | Dates (v : list cell).
Record frame := mkframe { f_index : dfindex; f_cols : list (string * column) }.

(** ** pandas.read_csv(file, sep=r'\s+', comment='#', dtype=..., names=...)
    (external code).

    Numbers are decimal with exponent: inf is not modelled, nor are quotes,
    form feeds and vertical tabs. *)

(** The line up to the comment character *)
Fixpoint before_comment (l : text) : text :=
  match l with
  | [] => []
  | c :: r => if Ascii.eqb c "#" then [] else c :: before_comment r
  end.
(** Skipped lines: those that begin with the comment character, and blank ones.
    (A comment after white space only is a row without any field.) *)
Definition skipped_line (l : text) : bool := prefix (txt "#") l || forallb is_space l.
(** default na_values *)
Definition na_words : list text := map txt
  [""; "-NaN"; "-nan"; "<NA>"; "N/A"; "NA"; "NULL"; "NaN"; "None"; "n/a"; "nan"; "null"]%string.
Definition text_eqb (a b : text) : bool := if list_eq_dec ascii_dec a b then true else false.
Definition is_na (w : text) : bool := existsb (text_eqb w) na_words.
(** one field; missing fields are [None] *)
Definition float_cell (w : option text) : result cell :=
  match w with
  | None => Ok None
  | Some w => if is_na w then Ok None
              else match parse_float w with Some q => Ok (Some q) | None => Err ValueError end
  end.
Definition cat_cell (w : option text) : option text :=
  match w with None => None | Some w => if is_na w then None else Some w end.

(** The fields of the rows: the first row may have more fields than there are
    names, no later row may have more than that. *)
Definition csv_rows (names : nat) (content : text) : result (nat * list (list text)) :=
  let rows := map (fun l => words (before_comment l)) (filter (fun l => negb (skipped_line l)) (lines content)) in
  let width := match rows with [] => names | r :: _ => Nat.max names (List.length r) end in
  if forallb (fun r => List.length r <=? width) rows then Ok (width - names, rows) else Err ValueError.

(** data_utils.py 153-155: the names and types of the columns *)
Definition column_names : list string := ["time"; "RC"; "RC_e"; "RC_i"; "flag"]%string.
Definition read_column (lead : nat) (rows : list (list text)) (k : nat) (name : string) : result (string * column) :=
  let fields := map (fun r => nth_error r (lead + k)) rows in
  if (name =? "flag")%string then Ok (name, CCat (map cat_cell fields))
  else bind (mapM float_cell fields) (fun v => Ok (name, CFloat v)).
Definition read_csv (content : text) : result frame :=
  bind (csv_rows (List.length column_names) content) (fun '(lead, rows) =>
  bind (mapM (fun '(k, name) => read_column lead rows k name) (combine (seq 0 (List.length column_names)) column_names)) (fun cols =>
  Ok (mkframe (if lead =? 0 then Rows
               else Leading (map (fun r => map (fun k => nth_error r k) (seq 0 lead)) rows)) cols))).

(** df[name] *)
Fixpoint df_get {A} (name : string) (cols : list (string * A)) : result A :=
  match cols with
  | [] => Err KeyError
  | (n, c) :: r => if (n =? name)%string then Ok c else df_get name r
  end.
Definition drop_column {A} (name : string) (cols : list (string * A)) : list (string * A) :=
  filter (fun p => negb (fst p =? name)%string) cols.

(** ** data_utils.py 113-168, with a file path *)
Definition load_RC_datfile (fs : fsys) (filepath : string) (parse_dates : option bool) : result frame :=
  match fs filepath with
  | None => Err FileNotFoundError
  | Some (FH5 _) => Err OtherError                      (* UnicodeDecodeError *)
  | Some (FText content) =>
      bind (read_csv content) (fun df =>
      let parse_dates := match parse_dates with None => false | Some b => b end in
      if parse_dates then
        bind (df_get "time" (f_cols df)) (fun c =>
        match c with
        | CFloat v => Ok (mkframe (Dates v) (drop_column "time" (f_cols df)))
        | CCat _ => Err TypeError
        end)
      else Ok df)
  end.

(** ** data_utils.py 171-216 *)

(** str.encode('ascii'), for variable.astype('bytes'); a missing value becomes b'nan' *)
Definition ascii_only (w : text) : bool := forallb (fun c => nat_of_ascii c <? 128) w.
Definition to_bytes (w : option text) : result text :=
  match w with None => Ok (txt "nan") | Some w => if ascii_only w then Ok w else Err ValueError end.
(** dset[:] = v for dtype S1 *)
Definition trunc1 (w : text) : text := firstn 1 w.

(** The contents of the file being written, after each statement of the loop
    (204-211), and whether the loop ran to its end. *)
Fixpoint h5_write (cols : list (string * column)) (sets : list (string * dataset)) : list (list (string * dataset)) * bool :=
  match cols with
  | [] => ([], true)
  | (name, CFloat v) :: r =>
      if (name =? "flag")%string then ([], false) else
      let sets' := (sets ++ [(name, DFloat v)])%list in
      let '(more, ok) := h5_write r sets' in (sets' :: more, ok)
  | (name, CCat v) :: r =>
      if negb (name =? "flag")%string then ([], false) else
      let created := (sets ++ [(name, DBytes (map (fun _ => []) v))])%list in
      match mapM to_bytes v with
      | Err _ => ([created], false)
      | Ok b =>
          let sets' := (sets ++ [(name, DBytes (map trunc1 b))])%list in
          let '(more, ok) := h5_write r sets' in (created :: sets' :: more, ok)
      end
  end.

(** The run: the successive states of the file system from the call to the
    return, and whether it ended with the message of success (else: with the
    warning).  No exception leaves the function.  [writable]: h5py can create
    the file. *)
Record run := mkrun { r_states : list fsys; r_success : bool }.
Definition save_RC_h5file (fs : fsys) (writable : bool) (filepath read_from : string) : run :=
  match load_RC_datfile fs read_from (Some false) with
  | Err _ => mkrun [fs] false
  | Ok df =>
      if negb writable then mkrun [fs] false else
      let '(steps, ok) := h5_write (f_cols df) [] in
      mkrun (fs :: map (fun sets => update fs filepath (FH5 sets)) ([] :: steps)) ok
  end.
(** the state at the return *)
Definition final (fs : fsys) (r : run) : fsys := last (r_states r) fs.

(** ** chaos.py 1812-1840: the default RC-index *)

(** The arrays passed to interp1d.  A file that h5py cannot open is read as
    text. *)
Definition float_values (c : column) : result (list cell) := match c with CFloat v => Ok v | CCat _ => Err ValueError end.
Definition float_set (d : dataset) : result (list cell) := match d with DFloat v => Ok v | DBytes _ => Err ValueError end.
Definition rc_name (source : string) : result string :=
  match String.get 0 source with None => Err IndexError | Some ch => Ok ("RC_" ++ String ch "")%string end.
Definition rc_arrays (fs : fsys) (path source : string) : result (list cell * list cell) :=
  match fs path with
  | Some (FH5 sets) =>
      bind (df_get "time" sets) (fun t => bind (rc_name source) (fun n => bind (df_get n sets) (fun y =>
      bind (float_set t) (fun t => bind (float_set y) (fun y => Ok (t, y))))))
  | _ =>
      bind (load_RC_datfile fs path None) (fun df =>
      bind (df_get "time" (f_cols df)) (fun t => bind (rc_name source) (fun n => bind (df_get n (f_cols df)) (fun y =>
      bind (float_values t) (fun t => bind (float_values y) (fun y => Ok (t, y)))))))
  end.
(** Rows without NaN; a table with NaN is not modelled. *)
Fixpoint no_nan (l : list (cell * cell)) : result (list (R * R)) :=
  match l with
  | [] => Ok []
  | (Some x, Some y) :: r => bind (no_nan r) (fun k => Ok ((Q2R x, Q2R y) :: k))
  | _ => Err OtherError
  end.
(** RC = interp1d(...); RC._check_bounds(time); RC(time) *)
Definition rc_from_file (fs : fsys) (path source : string) (time : nd R) : result (nd R) :=
  bind (rc_arrays fs path source) (fun '(t, y) =>
  if negb (List.length t =? List.length y) then Err ValueError else
  bind (no_nan (combine t y)) (fun rows =>
  let l := sort_rows rows in
  match l with
  | [] => Err ValueError
  | _ => if existsb (out_of_bounds l) (elems time) then Err ValueError
         else Ok (mknd (sh time) (fun i => interp_sorted l (at_ time i)))
  end)).
