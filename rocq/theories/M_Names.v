(** Model of the names of models and of missing files: the loaders of
    chaosmagpy/chaos.py and load_shcfile of chaosmagpy/data_utils.py with the
    path of the file, and the names CHAOS.__init__ gives.

    Reading a file in text mode (open(filepath, 'r')) turns \r\n and \r into \n;
    other decoding and disk errors are not modelled.  A file that cannot be
    opened is a missing one. *)
From Coq Require Import List Arith ZArith QArith Ascii String Bool.
From Verif Require Import M_Prelude M_Text M_SHC M_Model M_SHCModel M_ChaosSHC M_Chaos M_Loaders.
Import ListNotations.
Open Scope nat_scope.

(** s.rfind(c): position of the last c *)
Fixpoint rfind (c : ascii) (s : text) : option nat :=
  match s with
  | [] => None
  | x :: r => match rfind c r with Some i => Some (S i) | None => if Ascii.eqb x c then Some 0 else None end
  end.
(** s.rfind(c) + 1 *)
Definition after_last (c : ascii) (s : text) : nat := match rfind c s with Some i => S i | None => 0 end.

(** os.path.basename and os.path.split(p)[1] (POSIX): p[p.rfind('/') + 1:] *)
Definition basename (p : text) : text := skipn (after_last "/" p) p.
(** os.path.splitext(p)[0] (POSIX): up to the last dot, if it is after the last
    '/' and one of the characters between is not a dot *)
Definition without_extension (p : text) : text :=
  let sep := after_last "/" p in
  let dot := after_last "." p in                                (* dotIndex + 1 *)
  if (sep <? dot)%nat
  then if existsb (fun c => negb (Ascii.eqb c ".")) (firstn (dot - 1 - sep) (skipn sep p)) then firstn (dot - 1) p else p
  else p.

(** text mode: universal newlines *)
Fixpoint text_mode (s : text) : text :=
  match s with
  | [] => []
  | c :: r => if Ascii.eqb c "013" then "010"%char :: match r with d :: r' => if Ascii.eqb d "010" then text_mode r' else text_mode r | [] => [] end
              else c :: text_mode r
  end.

(** The name argument: a text, or another object, given by str() of it. *)
Inductive name_arg := NText (s : text) | NObject (s : text).
Definition name_str (n : name_arg) : text := match n with NText s | NObject s => s end.

(** A BaseModel with its name (chaos.py 56: str(name)). *)
Definition named := (text * field_model)%type.

(** chaos.py 2827-2832, 2917-2922, 3003-3006, 3101-3103, 3109, 779-781,
    data_utils.py 257: the name, then the file *)
Definition load_named (default : text -> text) (load : text -> result field_model) (fs : file_system) (filepath : string) (name : option name_arg) : result named :=
  let name := match name with None => default (txt filepath) | Some n => name_str n end in
  match fs filepath with
  | None => Err FileNotFoundError
  | Some content => bind (load (text_mode content)) (fun m => Ok (name, m))
  end.

Definition stem (p : text) : text := without_extension (basename p).

(** chaos.py 2766-2856 *)
Definition load_CovObs_file := load_named stem load_CovObs_txtfile.
(** chaos.py 2859-2945 *)
Definition load_gufm1_file := load_named stem load_gufm1_txtfile.
(** chaos.py 2948-3039 *)
Definition load_CALS7K_file := load_named basename load_CALS7K_txtfile.
(** chaos.py 3042-3137 *)
Definition load_IGRF_file := load_named stem load_IGRF_txtfile.
(** chaos.py 750-829 *)
Definition from_shc_file (lsq : lsq_fit) (fs : file_system) (filepath : string) (name : option name_arg) (leap_year : option bool) (source : option string) : result named :=
  load_named stem (fun content => from_shc lsq content leap_year source) fs filepath name.

(** data_utils.py 219-286: also parameters['SHC'] *)
Definition load_shc_path (fs : file_system) (filepath : string) (leap_year : option bool) (comment : option text) : result (shc * text) :=
  match fs filepath with
  | None => Err FileNotFoundError
  | Some content => bind (load_shcfile (text_mode content) leap_year comment) (fun s => Ok (s, basename (txt filepath)))
  end.

(** CHAOS.__init__ (chaos.py 953-979): name, name of model_tdep, name of
    model_static; [tdep], [static]: whether these are given.  name + '_tdep' is
    a TypeError unless the name is a text. *)
Definition chaos_names (name : option name_arg) (tdep static : bool) : result (text * option text * option text) :=
  let name := match name with None => NText (txt "CHAOS") | Some n => n end in
  match name with
  | NText s => Ok (s, if tdep then Some (s ++ txt "_tdep")%list else None, if static then Some (s ++ txt "_static")%list else None)
  | NObject s => if (tdep || static)%bool then Err TypeError else Ok (s, None, None)
  end.

(** chaos.py 2659-2763 with names; model.name is a text *)
Definition load_CHAOS_shc_path (lsq : lsq_fit) (fs : file_system) (filepath : string) (name : option name_arg) (leap_year : option bool)
  : result (chaos * (text * option text * option text)) :=
  let leap := match leap_year with None => false | Some b => b end in
  let n := match name with None => stem (txt filepath) | Some n => name_str n end in
  match fs filepath with
  | None => Err FileNotFoundError
  | Some content =>
      bind (load_chaos_shc lsq (text_mode content) (Some leap)) (fun c =>
      bind (chaos_names (Some (NText n)) (match ch_tdep c with Some _ => true | None => false end) (match ch_static c with Some _ => true | None => false end)) (fun k =>
      Ok (c, k)))
  end.
