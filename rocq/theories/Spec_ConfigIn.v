(** What an assignment to a configuration key is meant to store: float(x) for
    float keys, int(x) for integer keys, np.array(x) for vectors, str(x) for
    the version and the object itself for paths. *)
From Coq Require Import List String ZArith QArith.
From Verif Require Import M_Prelude Spec_Config.
Import ListNotations.

Section In.
Variable parse_float : string -> option flt.       (* float(str) *)
Variable parse_int : string -> option Z.           (* int(str) *)
Variable str_of : value -> string.                 (* str(object) *)
Variable str_elem : elem -> string.                (* str of a NumPy scalar *)
Variable fd_open : Z -> Prop.                      (* open file descriptors *)
Variable present : string -> Prop.                 (* files that exist *)

(** The Python object for an array element. *)
Definition item (e : elem) : value :=
  match e with
  | EBool b => VBool b | EInt z => VInt z | EFloat f => VFloat f | EStr s => VStr s | ENone => VNone | EObj => VObj
  end.

Inductive float_of : value -> flt -> Prop :=
| float_true : float_of (VBool true) (Fin 1)
| float_false : float_of (VBool false) (Fin 0)
| float_int z : float_of (VInt z) (Fin (inject_Z z))
| float_float f : float_of (VFloat f) f
| float_str s f : parse_float s = Some f -> float_of (VStr s) f
| float_single e f : float_of (item e) f -> float_of (VVec [e]) f.

(** [z] is [q] rounded towards zero. *)
Definition towards_zero (q : Q) (z : Z) : Prop :=
  (0 <= q -> inject_Z z <= q < inject_Z (z + 1))%Q /\ (q <= 0 -> inject_Z (z - 1) < q <= inject_Z z)%Q.

Inductive int_of : value -> Z -> Prop :=
| int_true : int_of (VBool true) 1
| int_false : int_of (VBool false) 0
| int_int z : int_of (VInt z) z
| int_float q z : towards_zero q z -> int_of (VFloat (Fin q)) z
| int_str s z : parse_int s = Some z -> int_of (VStr s) z
| int_single e z : int_of (item e) z -> int_of (VVec [e]) z.

(** NumPy's common type: booleans < integers < floats < strings < objects. *)
Definition rank (v : value) : option nat :=
  match v with
  | VBool _ => Some 0 | VInt _ => Some 1 | VFloat _ => Some 2 | VStr _ => Some 3
  | VNone | VPath _ | VObj => Some 4 | VVec _ | VList _ => None
  end%nat.
Definition common (t : nat) (l : list value) : Prop :=
  (forall v, In v l -> exists r, rank v = Some r /\ (r <= t)%nat) /\ (t = 0 \/ exists v, In v l /\ rank v = Some t)%nat.
Inductive cast : nat -> value -> elem -> Prop :=
| cast_bool b : cast 0 (VBool b) (EBool b)
| cast_int_bool b : cast 1 (VBool b) (EInt (Z.b2z b))
| cast_int z : cast 1 (VInt z) (EInt z)
| cast_float v f : float_of v f -> rank v <> Some 3%nat -> cast 2 v (EFloat f)
| cast_str s : cast 3 (VStr s) (EStr s)
| cast_text v e : v = item e -> rank v <> Some 3%nat -> cast 3 v (EStr (str_elem e))
| cast_obj e : cast 4 (item e) e
| cast_path s : cast 4 (VPath s) EObj.
Inductive vector_of (n : nat) : value -> list elem -> Prop :=
| vector_array l : List.length l = n -> vector_of n (VVec l) l
| vector_list l es t : List.length l = n -> common t l -> Forall2 (cast t) l es -> vector_of n (VList l) es.

Definition text (v : value) : string := match v with VStr s => s | VPath s => s | _ => str_of v end.

Inductive path_of : value -> value -> Prop :=
| path_none : path_of VNone VNone
| path_null : path_of (VStr "None") VNone
| path_null_array : path_of (VVec [EStr "None"]) VNone
| path_str s : s <> "None"%string -> present s -> path_of (VStr s) (VStr s)
| path_path s : present s -> path_of (VPath s) (VPath s)
| path_fd z : fd_open z -> path_of (VInt z) (VInt z)
| path_bool b : fd_open (Z.b2z b) -> path_of (VBool b) (VBool b).

(** [c] is what is stored when [v] is assigned to a key of kind [k]. *)
Definition converted (k : kind) (v c : value) : Prop :=
  match k with
  | KFloat => exists f, float_of v f /\ c = VFloat f
  | KInt => exists z, int_of v z /\ c = VInt z
  | KVector n => exists l, vector_of n v l /\ c = VVec l
  | KVersion => contains_version (text v) /\ c = VStr (text v)
  | KPath => path_of v c
  end.

(** The exception an assignment raises when nothing can be stored.  Arrays as
    paths are left open: what they raise depends on the release of NumPy. *)
Definition single (v : value) : value := match v with VVec [e] => item e | _ => v end.
Definition rejection (k : kind) (v : value) (e : exn) : Prop :=
  match k with
  | KFloat => e = match single v with VStr _ => ValueError | _ => TypeError end
  | KInt => e = match single v with
                | VStr _ | VFloat NaN => ValueError
                | VFloat PInf | VFloat NInf => OtherError       (* OverflowError *)
                | _ => TypeError
                end
  | KVector _ | KVersion => e = ValueError
  | KPath => match v with
             | VStr _ | VPath _ | VInt _ | VBool _ => e = FileNotFoundError
             | VVec _ => True
             | _ => e = TypeError
             end
  end.
End In.
