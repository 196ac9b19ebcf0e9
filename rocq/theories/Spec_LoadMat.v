(** Vocabulary of C143: nested data and the ways a MAT-file holds them. *)
From Coq Require Import Reals List Arith String Bool.
From Verif Require Import M_Prelude M_Matfile M_LoadMat.
Import ListNotations.

(** Data a user stores: arrays of numbers in structures nested to any depth. *)
Inductive tree := Leaf (a : arr) | Node (l : list (string * tree)).

(** Their forms in what hdf5storage returns: structures come as 1-by-1 arrays
    with fields (older files) or as dictionaries (v7.3), and anything may be
    wrapped in 1-by-1 object arrays. *)
Inductive stored : tree -> matval -> Prop :=
  | stored_leaf a : stored (Leaf a) (Num a)
  | stored_dict l l' : stored_fields l l' -> stored (Node l) (Dict l')
  | stored_struct l l' : stored_fields l l' -> stored (Node l) (Rec [1; 1]%nat l')
  | stored_wrapped t v : stored t v -> stored t (Obj [1; 1]%nat [v])
with stored_fields : list (string * tree) -> list (string * matval) -> Prop :=
  | stored_nil : stored_fields [] []
  | stored_cons k t v l l' : stored t v -> stored_fields l l' -> stored_fields ((k, t) :: l) ((k, v) :: l').

(** The same data as Python dictionaries of arrays without axes of length one. *)
Fixpoint plain (t : tree) : matval :=
  match t with
  | Leaf a => Num (mkarr (filter (fun d => negb (d =? 1)%nat) (a_sh a)) (a_v a))
  | Node l => Dict (map (fun kt => (fst kt, plain (snd kt))) l)
  end.

(** What a caller sees by following names: data['a']['b'] *)
Fixpoint item (v : matval) (path : list string) : option matval :=
  match path with
  | [] => Some v
  | k :: p => match v with
              | Dict l => match find (fun kv => String.eqb k (fst kv)) l with Some kv => item (snd kv) p | None => None end
              | _ => None
              end
  end.

(** The part of the stored data under these names *)
Fixpoint leaf_at (t : tree) (path : list string) : option tree :=
  match path with
  | [] => Some t
  | k :: p => match t with
              | Node l => match find (fun kt => String.eqb k (fst kt)) l with Some kt => leaf_at (snd kt) p | None => None end
              | Leaf _ => None
              end
  end.

(** No array with fields and no axis of length one is reached through dictionaries. *)
Inductive tidy : matval -> Prop :=
  | tidy_dict l : (forall k v, In (k, v) l -> tidy v) -> tidy (Dict l)
  | tidy_num a : ~ In 1%nat (a_sh a) -> tidy (Num a)
  | tidy_obj s l : ~ In 1%nat s -> tidy (Obj s l)
  | tidy_other n : tidy (Other n).
