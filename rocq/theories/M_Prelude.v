(** Shared vocabulary of the model: Python exceptions as values. *)
From Coq Require Import List String.
Import ListNotations.

(** The Python exception classes that the modelled code can raise. *)
Inductive exn : Type :=
| ValueError | TypeError | KeyError | IndexError | AttributeError
| FileNotFoundError | AssertionError | OtherError.

(** Outcome of a Python call: a value or an exception. *)
Inductive result (A : Type) : Type :=
| Ok (a : A)
| Err (e : exn).
Arguments Ok {A} a.
Arguments Err {A} e.

Definition bind {A B} (x : result A) (f : A -> result B) : result B :=
  match x with Ok a => f a | Err e => Err e end.

Definition rmap {A B} (f : A -> B) (x : result A) : result B :=
  match x with Ok a => Ok (f a) | Err e => Err e end.

Declare Scope result_scope.
Delimit Scope result_scope with result.
Notation "'let!' x ':=' e 'in' k" := (bind e (fun x => k))
  (at level 200, x pattern, e at level 100, k at level 200, right associativity)
  : result_scope.

(** [for x in l: y.append(f(x))]; the first exception aborts the loop. *)
Fixpoint mapM {A B} (f : A -> result B) (l : list A) : result (list B) :=
  match l with
  | [] => Ok []
  | x :: r => bind (f x) (fun y => bind (mapM f r) (fun ys => Ok (y :: ys)))
  end.

Definition is_err {A} (x : result A) : Prop := exists e, x = Err e.
