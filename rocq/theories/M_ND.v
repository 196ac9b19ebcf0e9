(** n-dimensional arrays with NumPy's broadcasting rules.  Not code of the
    repository: a model of the part of NumPy the repository relies on
    ([np.broadcast], implicit broadcasting of element-wise arithmetic,
    [np.expand_dims]).  An array is its shape and its value at every index;
    values at indices outside the shape are never used. *)
From Coq Require Import List Arith.
From Verif Require Import M_Prelude.
Import ListNotations.

Record nd (A : Type) := mknd { sh : list nat; at_ : list nat -> A }.
Arguments mknd {A}. Arguments sh {A}. Arguments at_ {A}.

Definition scalar {A} (x : A) : nd A := mknd [] (fun _ => x).
Definition vec {A} (d : A) (l : list A) : nd A :=
  mknd [List.length l] (fun i => match i with [k] => nth k l d | _ => d end).

(** Indices of a shape, in C order. *)
Fixpoint indices (s : list nat) : list (list nat) :=
  match s with
  | [] => [[]]
  | d :: s' => flat_map (fun j => map (cons j) (indices s')) (seq 0 d)
  end.
Definition valid (s i : list nat) : Prop := Forall2 (fun d j => j < d) s i.
Definition elems {A} (a : nd A) : list A := map (at_ a) (indices (sh a)).

(** Shapes are aligned at the last axis; axes of length one are stretched. *)
Fixpoint bc_rev (a b : list nat) : option (list nat) :=
  match a, b with
  | [], _ => Some b
  | _, [] => Some a
  | x :: a', y :: b' =>
      match bc_rev a' b' with
      | None => None
      | Some r => if x =? y then Some (x :: r) else if x =? 1 then Some (y :: r)
                  else if y =? 1 then Some (x :: r) else None
      end
  end.
Definition bshape (a b : list nat) : option (list nat) := option_map (@rev nat) (bc_rev (rev a) (rev b)).
(** np.broadcast(x1, x2, ...).shape: ValueError if the shapes do not fit. *)
Definition broadcast (l : list (list nat)) : result (list nat) :=
  fold_left (fun r s => bind r (fun t => match bshape t s with Some u => Ok u | None => Err ValueError end))
            l (Ok []).

Fixpoint bidx_rev (s i : list nat) : list nat :=
  match s, i with
  | [], _ => []
  | _, [] => map (fun _ => 0) s
  | d :: s', j :: i' => (if d =? 1 then 0 else j) :: bidx_rev s' i'
  end.
(** The element of an array of shape [s] seen at index [i] of the broadcast result. *)
Definition bidx (s i : list nat) : list nat := rev (bidx_rev (rev s) (rev i)).
Definition bread {A} (a : nd A) (i : list nat) : A := at_ a (bidx (sh a) i).

(** np.expand_dims(a, axis=-1) *)
Definition expand_last {A} (a : nd A) : nd A := mknd (sh a ++ [1]) (fun i => at_ a (removelast i)).
(** np.expand_dims(a, axis=-2); AxisError (a ValueError) for a scalar. *)
Definition expand_before_last {A} (a : nd A) : result (nd A) :=
  match rev (sh a) with
  | [] => Err ValueError
  | d :: s => Ok (mknd (rev s ++ [1; d])
      (fun i => match rev i with k :: _ :: j => at_ a (rev j ++ [k]) | _ => at_ a i end))
  end.
