(** Model of [load_matfile] (chaosmagpy/data_utils.py 42-110).

    [hdf5storage.loadmat] (external code) returns a dictionary; its values are
    built from dictionaries, NumPy arrays and other Python objects.  The
    dtype of an array is modelled as far as the code looks at it: numbers (or
    any other dtype without fields), objects, or a structure with fields. *)
From Coq Require Import Reals List Arith String Bool.
From Verif Require Import M_Prelude M_Matfile.
Import ListNotations.

(** [Rec]: an array with fields, [struct[name]] for every name of its dtype;
    its own shape is not used. *)
Inductive matval :=
  | Dict (l : list (string * matval))
  | Num (a : arr)
  | Obj (s : list nat) (l : list matval)
  | Rec (s : list nat) (l : list (string * matval))
  | Other (n : nat).

(** struct.squeeze() *)
Definition squeeze_shape (s : list nat) : list nat := filter (fun d => negb (d =? 1)%nat) s.

(** data_utils.py 70-97.  An object array of shape (1, 1) has one element. *)
Fixpoint traverse_struct (v : matval) : matval :=
  match v with
  | Dict l => Dict (map (fun kv => (fst kv, traverse_struct (snd kv))) l)
  | Num a => Num (squeeze a)
  | Obj s l => match s, l with
               | [1; 1]%nat, [x] => traverse_struct x
               | _, _ => Obj (squeeze_shape s) l
               end
  | Rec _ l => Dict (map (fun kv => (fst kv, traverse_struct (snd kv))) l)
  | Other n => Other n
  end.

(** key.startswith('__') and key.endswith('__'), 104 *)
Definition private_key (key : string) : bool :=
  (String.prefix "__" key && String.prefix "__" (String.string_of_list_ascii (rev (String.list_ascii_of_string key))))%bool.

(** data_utils.py 99-110; [output] is what hdf5storage returned. *)
Definition load_matfile (output : list (string * matval)) : list (string * matval) :=
  map (fun kv => if private_key (fst kv) then kv else (fst kv, traverse_struct (snd kv))) output.
