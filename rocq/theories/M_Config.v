(** Model of chaosmagpy/config_utils.py 88-302: the configuration dictionary
    [basicConfig] and the operations on it, with the heap of NumPy arrays it
    refers to and the file system it looks at.

    Simplifications: floats are exact rationals plus nan and infinities; the
    JSON text of a file is represented by its parsed value (json.dump followed
    by json.load is taken as the identity on such values); strings are byte
    strings; warnings, prints and error texts are dropped. *)
From Coq Require Import List String Ascii ZArith QArith Qround Bool.
From Verif Require Import M_Prelude Spec_Config.
Import ListNotations.
Open Scope string_scope.

(** A stored value: arrays are references into the heap. *)
Inductive ref := RVal (v : value) | RArr (loc : nat).

(** Contents of a file: a parsed JSON object (its items in order), another
    JSON value, or anything that is not JSON. *)
Inductive content := FObj (items : list (string * value)) | FJson | FOther.

Record st := mkst {
  cfg : string -> option ref;          (* the dictionary *)
  heap : nat -> list elem;             (* NumPy arrays *)
  next : nat;                          (* next free array *)
  fs : string -> option content        (* files *)
}.

Section Config.
(** Python built-ins left abstract: float(str), int(str), str(object), whether
    an integer is an open file descriptor, and whether a path can be opened
    for writing. *)
Variable parse_float : string -> option flt.
Variable parse_int : string -> option Z.
Variable str_of : value -> string.
Variable str_elem : elem -> string.
Variable fd_open : Z -> bool.
Variable writable : string -> bool.
Variable LIB : string.

(** float(x) *)
Definition float_elem (e : elem) : result flt :=
  match e with
  | EBool b => Ok (Fin (if b then 1 else 0)) | EInt z => Ok (Fin (inject_Z z)) | EFloat f => Ok f
  | EStr s => match parse_float s with Some f => Ok f | None => Err ValueError end
  | ENone | EObj => Err TypeError
  end.
Definition py_float (v : value) : result flt :=
  match v with
  | VNone => Err TypeError
  | VBool b => float_elem (EBool b) | VInt z => float_elem (EInt z)
  | VFloat f => Ok f | VStr s => float_elem (EStr s)
  | VVec [e] => float_elem e
  | VVec _ | VList _ | VPath _ | VObj => Err TypeError
  end.

(** int(x); nan raises ValueError, infinities OverflowError *)
Definition int_flt (f : flt) : result Z :=
  match f with
  | Fin q => Ok (Z.quot (Qnum q) (Zpos (Qden q)))
  | NaN => Err ValueError | _ => Err OtherError
  end.
Definition int_elem (e : elem) : result Z :=
  match e with
  | EBool b => Ok (if b then 1%Z else 0%Z) | EInt z => Ok z | EFloat f => int_flt f
  | EStr s => match parse_int s with Some z => Ok z | None => Err ValueError end
  | ENone | EObj => Err TypeError
  end.
Definition py_int (v : value) : result Z :=
  match v with
  | VNone => Err TypeError
  | VBool b => int_elem (EBool b) | VInt z => Ok z | VFloat f => int_flt f
  | VStr s => int_elem (EStr s)
  | VVec [e] => int_elem e
  | VVec _ | VList _ | VPath _ | VObj => Err TypeError
  end.

(** np.array(list): the common type of the elements; None and other objects
    give an object array, which keeps its elements. *)
Definition is_none e := match e with ENone | EObj => true | _ => false end.
Definition is_str e := match e with EStr _ => true | _ => false end.
Definition is_flt e := match e with EFloat _ => true | _ => false end.
Definition is_int e := match e with EInt _ => true | _ => false end.
Definition to_str e := match e with EStr s => EStr s | e => EStr (str_elem e) end.
Definition to_flt e := match e with
  | EBool b => EFloat (Fin (if b then 1 else 0)) | EInt z => EFloat (Fin (inject_Z z)) | e => e end.
Definition to_int e := match e with EBool b => EInt (if b then 1 else 0) | e => e end.
Definition promote (l : list elem) : list elem :=
  if existsb is_none l then l
  else if existsb is_str l then map to_str l
  else if existsb is_flt l then map to_flt l
  else if existsb is_int l then map to_int l
  else l.

Definition elem_of (v : value) : option elem :=
  match v with
  | VNone => Some ENone | VBool b => Some (EBool b) | VInt z => Some (EInt z)
  | VFloat f => Some (EFloat f) | VStr s => Some (EStr s) | VPath _ | VObj => Some EObj
  | VVec _ | VList _ => None
  end.
Fixpoint elems_of (l : list value) : option (list elem) :=
  match l with
  | [] => Some []
  | v :: r => match elem_of v, elems_of r with Some e, Some es => Some (e :: es) | _, _ => None end
  end.

(** config_utils.py 123-133: np.array(s), ndim = 1, length; every failure is a
    ValueError.  A list with an entry that is a list or an array is ragged or
    has ndim > 1. *)
Definition check_vector (n : nat) (v : value) : result (list elem) :=
  match v with
  | VVec l => if Nat.eqb (List.length l) n then Ok l else Err ValueError
  | VList l => match elems_of l with
               | Some es => if Nat.eqb (List.length es) n then Ok (promote es) else Err ValueError
               | None => Err ValueError
               end
  | _ => Err ValueError
  end.

(** config_utils.py 136-146: re.search(r'\d+\.\d+', s) succeeds iff a digit, a
    dot and a digit follow each other somewhere. *)
Fixpoint search_version (s : string) : bool :=
  match s with
  | String c r =>
      match r with
      | String p (String d _) => (is_digit c && Ascii.eqb p "." && is_digit d)%bool || search_version r
      | _ => false
      end
  | EmptyString => false
  end.
Definition py_str (v : value) : string := match v with VStr s | VPath s => s | _ => str_of v end.
Definition check_version_string (v : value) : result string :=
  let s := py_str v in
  if search_version s then Ok s else Err ValueError.

(** config_utils.py 89-96. For an array [s == 'None'] is an array whose truth
    value is ambiguous unless it has at most one element; os.path.exists raises
    TypeError unless the argument is a string, a path or an integer. *)
Definition check_path_exists (fs : string -> option content) (v : value) : result value :=
  match v with
  | VNone => Ok VNone
  | VStr s => if s =? "None" then Ok VNone
              else match fs s with Some _ => Ok v | None => Err FileNotFoundError end
  | VInt z => if fd_open z then Ok v else Err FileNotFoundError
  | VBool b => if fd_open (if b then 1 else 0) then Ok v else Err FileNotFoundError
  | VPath s => match fs s with Some _ => Ok v | None => Err FileNotFoundError end
  | VVec [] => Err TypeError
  | VVec [EStr s] => if s =? "None" then Ok VNone else Err TypeError
  | VVec [_] => Err TypeError
  | VVec _ => Err ValueError
  | VList _ | VFloat _ | VObj => Err TypeError
  end.

(** Canonical value of a key, or the exception raised. *)
Definition check (fs : string -> option content) (k : kind) (v : value) : result value :=
  match k with
  | KFloat => rmap VFloat (py_float v)                  (* 99-104 *)
  | KInt => rmap VInt (py_int v)                        (* 107-112 *)
  | KVector n => rmap VVec (check_vector n v)
  | KVersion => rmap VStr (check_version_string v)
  | KPath => check_path_exists fs v
  end.

(** config_utils.py 149-173: DEFAULTS. The arrays are at heap locations 0 and 1. *)
Definition checkers : list (string * kind) :=
  [ ("params.r_surf", KFloat); ("params.r_cmb", KFloat); ("params.dipole", KVector 3);
    ("params.ellipsoid", KVector 2); ("params.CHAOS_version", KVersion); ("params.cdf_to_mjd", KInt);
    ("file.RC_index", KPath); ("file.GSM_spectrum", KPath); ("file.SM_spectrum", KPath);
    ("file.Earth_conductivity", KPath); ("file.shp_coastline", KPath); ("plots.figure_width", KFloat) ].
Definition def_dipole : list elem :=
  [EFloat (Fin (-29442 # 1)); EFloat (Fin (-1501 # 1)); EFloat (Fin (47971 # 10))].
Definition def_ellipsoid : list elem := [EFloat (Fin (6378137 # 1000)); EFloat (Fin (6356752 # 1000))].
Definition default_refs : list (string * ref) :=
  [ ("params.r_surf", RVal (VFloat (Fin (63712 # 10)))); ("params.r_cmb", RVal (VFloat (Fin 3485)));
    ("params.dipole", RArr 0); ("params.ellipsoid", RArr 1);
    ("params.CHAOS_version", RVal (VStr "7.18")); ("params.cdf_to_mjd", RVal (VInt 730485));
    ("file.RC_index", RVal (VStr (LIB ++ "/RC_index.h5")));
    ("file.GSM_spectrum", RVal (VStr (LIB ++ "/frequency_spectrum_gsm.npz")));
    ("file.SM_spectrum", RVal (VStr (LIB ++ "/frequency_spectrum_sm.npz")));
    ("file.Earth_conductivity", RVal (VStr (LIB ++ "/Earth_conductivity.dat")));
    ("file.shp_coastline", RVal (VStr (LIB ++ "/ne_110m_coastline.zip")));
    ("plots.figure_width", RVal (VFloat (Fin (63 # 10)))) ].

(** The value behind a reference. *)
Definition deref (s : st) (r : ref) : value :=
  match r with RVal v => v | RArr l => VVec (heap s l) end.

(** dict.__setitem__; storing an array allocates (check_vector copies). *)
Definition put (d : string -> option ref) (k : string) (r : ref) : string -> option ref :=
  fun k' => if k =? k' then Some r else d k'.
Definition store (s : st) (k : string) (v : value) : st :=
  match v with
  | VVec l => mkst (put (cfg s) k (RArr (next s)))
                   (fun i => if Nat.eqb i (next s) then l else heap s i) (S (next s)) (fs s)
  | _ => mkst (put (cfg s) k (RVal v)) (heap s) (next s) (fs s)
  end.

(** Outcome of an operation: new state and the exception that left it. *)
Definition outcome := (st * option exn)%type.

(** config_utils.py 184-194 *)
Definition setitem (s : st) (k : string) (v : value) : outcome :=
  match assoc checkers k with
  | None => (s, Some KeyError)
  | Some kd => match check (fs s) kd v with
               | Ok c => (store s k c, None)
               | Err e => (s, Some e)
               end
  end.

(** config_utils.py 199-209 *)
Definition reset (s : st) (k : string) : outcome :=
  match assoc default_refs k with
  | None => (s, Some KeyError)
  | Some r => setitem s k (deref s r)
  end.

(** dict.update: no checks. *)
Fixpoint put_all (d : string -> option ref) (l : list (string * ref)) : string -> option ref :=
  match l with [] => d | (k, r) :: l' => put_all (put d k r) l' end.

(** config_utils.py 211-216 *)
Definition fullreset (s : st) : outcome :=
  (mkst (put_all (cfg s) default_refs) (heap s) (next s) (fs s), None).

(** config_utils.py 236-238: loop over the items *)
Fixpoint set_items (s : st) (l : list (string * value)) : outcome :=
  match l with
  | [] => (s, None)
  | (k, v) :: r => match setitem s k v with
                   | (s', None) => set_items s' r
                   | (s', Some e) => (s', Some e)
                   end
  end.

(** config_utils.py 218-238; a missing file, invalid JSON, or a JSON value
    without items() raise before anything is assigned. *)
Definition load (s : st) (path : string) : outcome :=
  match fs s path with
  | None => (s, Some FileNotFoundError)
  | Some FOther => (s, Some ValueError)
  | Some FJson => (s, Some AttributeError)
  | Some (FObj items) => set_items s items
  end.

(** config_utils.py 240-259: arrays become lists (tolist), keys are sorted;
    what json cannot write is null, because [default] returns None. *)
Definition value_of_elem (e : elem) : value :=
  match e with
  | EBool b => VBool b | EInt z => VInt z | EFloat f => VFloat f | EStr t => VStr t | ENone | EObj => VNone
  end.
Definition to_json (v : value) : value :=
  match v with VVec l => VList (map value_of_elem l) | VPath _ | VObj => VNone | _ => v end.
(** The keys of the dictionary in sorted order, as json.dump(sort_keys=True)
    writes them; the dictionary never has other keys. *)
Definition sorted_keys : list string :=
  [ "file.Earth_conductivity"; "file.GSM_spectrum"; "file.RC_index"; "file.SM_spectrum"; "file.shp_coastline";
    "params.CHAOS_version"; "params.cdf_to_mjd"; "params.dipole"; "params.ellipsoid"; "params.r_cmb";
    "params.r_surf"; "plots.figure_width" ].
Definition dump (s : st) : list (string * value) :=
  flat_map (fun k => match cfg s k with Some r => [(k, to_json (deref s r))] | None => [] end) sorted_keys.
Definition set_file (f : string -> option content) (p : string) (c : option content) :=
  fun p' => if p =? p' then c else f p'.
Definition save (s : st) (path : string) : outcome :=
  if writable path
  then (mkst (cfg s) (heap s) (next s) (set_file (fs s) path (Some (FObj (dump s)))), None)
  else (s, Some OtherError).

(** basicConfig[k][i] = x, in place on the array stored under k; on other
    values it raises. Simplification: x is stored as it is, without conversion
    to the element type of the array. *)
Definition set_elem (l : list elem) (i : nat) (x : elem) : list elem :=
  firstn i l ++ x :: skipn (S i) l.
Definition mutate (s : st) (k : string) (i : nat) (x : elem) : outcome :=
  match cfg s k with
  | None => (s, Some KeyError)
  | Some (RVal _) => (s, Some TypeError)
  | Some (RArr l) =>
      if Nat.ltb i (List.length (heap s l))
      then (mkst (cfg s) (fun j => if Nat.eqb j l then set_elem (heap s l) i x else heap s j) (next s) (fs s), None)
      else (s, Some IndexError)
  end.

(** Programs using the configuration.  [Get] continues with the value read,
    so programs may branch on what they see. *)
Inductive prog :=
| Skip
| Raise (e : exn)
| SetItem (k : string) (v : value)
| Get (k : string) (f : value -> prog)
| Reset (k : string)
| FullReset
| Load (path : string)
| Save (path : string)
| Mutate (k : string) (i : nat) (x : elem)
| File (path : string) (c : option content)      (* another program writes or removes a file *)
| Update (k : string) (v : value)                (* dict.update({k: v}), inherited from dict *)
| Seq (p q : prog)
| With (k : string) (v : value) (body : prog)    (* with basicConfig.context(k, v): body *)
| Try (p q : prog).                              (* try: p  except Exception: q *)

(** Storing an object as it is. *)
Definition update (s : st) (k : string) (v : value) : outcome :=
  (match v with
   | VVec l => mkst (put (cfg s) k (RArr (next s)))
                    (fun i => if Nat.eqb i (next s) then l else heap s i) (S (next s)) (fs s)
   | _ => mkst (put (cfg s) k (RVal v)) (heap s) (next s) (fs s)
   end, None).

(** [With] is config_utils.py 261-295: the generator reads the old value,
    assigns the new one, yields, and assigns the old value; an exception of the
    body is raised at the yield and leaves the generator there. *)
Fixpoint run (p : prog) (s : st) : outcome :=
  match p with
  | Skip => (s, None)
  | Raise e => (s, Some e)
  | SetItem k v => setitem s k v
  | Get k f => match cfg s k with Some r => run (f (deref s r)) s | None => (s, Some KeyError) end
  | Reset k => reset s k
  | FullReset => fullreset s
  | Load path => load s path
  | Save path => save s path
  | Mutate k i x => mutate s k i x
  | File path c => (mkst (cfg s) (heap s) (next s) (set_file (fs s) path c), None)
  | Update k v => update s k v
  | Seq p q => match run p s with
               | (s', None) => run q s'
               | o => o
               end
  | With k v body =>
      match cfg s k with
      | None => (s, Some KeyError)
      | Some old =>
          match setitem s k v with
          | (s1, Some e) => (s1, Some e)
          | (s1, None) =>
              match run body s1 with
              | (s2, Some e) => (s2, Some e)
              | (s2, None) => setitem s2 k (deref s2 old)
              end
          end
      end
  | Try p q => match run p s with
               | (s', None) => (s', None)
               | (s', Some _) => run q s'
               end
  end.

(** config_utils.py 298-299: basicConfig as imported. *)
Definition init (files : string -> option content) : st :=
  mkst (put_all (fun _ => None) default_refs)
       (fun i => match i with 0%nat => def_dipole | 1%nat => def_ellipsoid | _ => [] end) 2 files.

(** What basicConfig[k] shows. *)
Definition read (s : st) (k : string) : option value := option_map (deref s) (cfg s k).

End Config.

(** Programs that do not use the inherited dict.update, and programs that in
    addition do not modify arrays in place. *)
Fixpoint no_update (p : prog) : Prop :=
  match p with
  | Update _ _ => False
  | Get _ f => forall v, no_update (f v)
  | Seq p q | Try p q => no_update p /\ no_update q
  | With _ _ p => no_update p
  | _ => True
  end.
Fixpoint no_inplace (p : prog) : Prop :=
  match p with
  | Mutate _ _ _ => False
  | Get _ f => forall v, no_inplace (f v)
  | Seq p q | Try p q => no_inplace p /\ no_inplace q
  | With _ _ p => no_inplace p
  | _ => True
  end.
