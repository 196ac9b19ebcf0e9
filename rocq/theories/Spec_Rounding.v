(** Accumulated rounding errors in double precision. *)
From Coq Require Import ZArith Reals List Permutation.
From Verif Require Import Spec_Float.
Import ListNotations.
Open Scope R_scope.

(** The unit roundoff 2^-53 *)
Definition u : R := powerRZ 2 (-53).

(** q is a factor that k roundings can cause: between (1-u)^k and 1/(1-u)^k,
    that is 1 up to about k * 1.1e-16. *)
Definition roundings (k : nat) (q : R) : Prop := (1 - u) ^ k <= q <= / (1 - u) ^ k.

(** y is x up to k roundings. *)
Definition near (k : nat) (x y : R) : Prop := exists q, roundings k q /\ y = x * q.

(** s is a result of adding the numbers of l in floating-point arithmetic, in
    any order and association (NumPy adds in blocks and pairwise). *)
Inductive fsum : list R -> R -> Prop :=
| fsum_one x : fsum [x] x
| fsum_add l1 l2 l s1 s2 : fsum l1 s1 -> fsum l2 s2 -> Permutation (l1 ++ l2) l -> fsum l (rn (s1 + s2)).

(** Not zero and too small for full precision ("underflow" is excluded). *)
Definition normal (x : R) : Prop := x = 0 \/ powerRZ 2 (-1022) <= Rabs x.

(** The function [pow] computes x^k up to p roundings. *)
Definition accurate_pow (p : nat) (pow : R -> Z -> R) : Prop :=
  forall x k, double x -> 0 < x -> near p (powerRZ x k) (pow x k).

(** Zero or at least 2^-300 = 5e-91, so that products of two such numbers are
    computed with full precision. *)
Definition sizeable (x : R) : Prop := x = 0 \/ powerRZ 2 (-300) <= Rabs x.
Definition moderate (l : list R) : Prop := List.Forall (fun g => double g /\ sizeable g) l.

(** Zero or at least 2^e *)
Definition large (e : Z) (x : R) : Prop := x = 0 \/ powerRZ 2 e <= Rabs x.

(** y is the sum of the numbers of l after each of them was changed by up to k
    roundings. *)
Definition terms_near (k : nat) (l : list R) (y : R) : Prop :=
  exists l', Forall2 (near k) l l' /\ y = fold_right Rplus 0 l'.
