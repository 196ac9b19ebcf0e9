(** Vocabulary for the configuration dictionary: observable values, the
    documented keys, their types and defaults (docstring of
    chaosmagpy/config_utils.py, lines 8-70). *)
From Coq Require Import List String Ascii ZArith QArith Bool.
Import ListNotations.
Open Scope string_scope.

(** Python floats; finite ones as exact rationals. *)
Inductive flt := Fin (q : Q) | NaN | PInf | NInf.

(** Elements of a one-dimensional NumPy array. *)
Inductive elem := EBool (b : bool) | EInt (z : Z) | EFloat (f : flt) | EStr (s : string) | ENone
| EObj.                                   (* any other object *)

(** What a caller sees when reading a value: arrays by content. *)
Inductive value :=
| VNone | VBool (b : bool) | VInt (z : Z) | VFloat (f : flt) | VStr (s : string)
| VVec (l : list elem)                    (* 1-D ndarray *)
| VList (l : list value)                  (* list or tuple *)
| VPath (s : string)                      (* pathlib.Path *)
| VObj.                                   (* any other object, e.g. a dict; 0-d arrays are taken as
                                             their element, n-d arrays are left out *)

Inductive kind := KFloat | KInt | KVector (n : nat) | KVersion | KPath.

Definition documented : list (string * kind) :=
  [ ("params.r_surf", KFloat); ("params.r_cmb", KFloat); ("params.dipole", KVector 3);
    ("params.ellipsoid", KVector 2); ("params.CHAOS_version", KVersion); ("params.cdf_to_mjd", KInt);
    ("file.RC_index", KPath); ("file.GSM_spectrum", KPath); ("file.SM_spectrum", KPath);
    ("file.Earth_conductivity", KPath); ("file.shp_coastline", KPath); ("plots.figure_width", KFloat) ].

Definition is_digit (c : ascii) : bool :=
  (Nat.leb 48 (nat_of_ascii c) && Nat.leb (nat_of_ascii c) 57)%bool.

(** The string contains "x.x" with x a digit. *)
Definition contains_version (s : string) : Prop :=
  exists u c d w, is_digit c = true /\ is_digit d = true /\
    s = u ++ String c (String "." (String d w)).

(** A value of the documented type. *)
Definition well_typed (k : kind) (v : value) : Prop :=
  match k, v with
  | KFloat, VFloat _ => True
  | KInt, VInt _ => True
  | KVector n, VVec l => List.length l = n
  | KVersion, VStr s => contains_version s
  | KPath, VStr s => s <> "None"                         (* 'None' stands for None *)
  | KPath, VPath _ => True
  | KPath, (VNone | VInt _ | VBool _) => True             (* integers are file descriptors *)
  | _, _ => False
  end.

(** The factory defaults; LIB is the directory of the shipped files. *)
Definition dipole0 : list elem :=
  [EFloat (Fin (-29442 # 1)); EFloat (Fin (-1501 # 1)); EFloat (Fin (47971 # 10))].
Definition ellipsoid0 : list elem := [EFloat (Fin (6378137 # 1000)); EFloat (Fin (6356752 # 1000))].
Definition factory (LIB : string) : list (string * value) :=
  [ ("params.r_surf", VFloat (Fin (63712 # 10))); ("params.r_cmb", VFloat (Fin 3485));
    ("params.dipole", VVec dipole0); ("params.ellipsoid", VVec ellipsoid0);
    ("params.CHAOS_version", VStr "7.18"); ("params.cdf_to_mjd", VInt 730485);
    ("file.RC_index", VStr (LIB ++ "/RC_index.h5"));
    ("file.GSM_spectrum", VStr (LIB ++ "/frequency_spectrum_gsm.npz"));
    ("file.SM_spectrum", VStr (LIB ++ "/frequency_spectrum_sm.npz"));
    ("file.Earth_conductivity", VStr (LIB ++ "/Earth_conductivity.dat"));
    ("file.shp_coastline", VStr (LIB ++ "/ne_110m_coastline.zip"));
    ("plots.figure_width", VFloat (Fin (63 # 10))) ].

Fixpoint assoc {A} (l : list (string * A)) (k : string) : option A :=
  match l with [] => None | (k', v) :: r => if String.eqb k' k then Some v else assoc r k end.

(** All elements of one type, as in a NumPy array that is not of type object. *)
Definition uniform (l : list elem) : Prop :=
  (exists f, l = map EFloat f) \/ (exists z, l = map EInt z) \/ (exists s, l = map EStr s) \/ (exists b, l = map EBool b).
