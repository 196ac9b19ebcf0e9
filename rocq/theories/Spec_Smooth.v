(** Piecewise polynomials of order K with K-2 continuous derivatives. *)
From Coq Require Import Reals QArith List Arith ZArith.
From Coquelicot Require Import Coquelicot.
From Verif Require Import Spec_PP.
Import ListNotations.
Open Scope R_scope.

Definition smooth_at_breaks (x : list R) (K : nat) (c : nat -> nat -> nat -> R) (d : nat) : Prop :=
  forall i m, (i + 2 < List.length x)%nat -> (m + 2 <= K)%nat ->
    Derive_n (piece x K c i d) m (nth (i + 1) x 0) = Derive_n (piece x K c (i + 1) d) m (nth (i + 1) x 0).

Definition rising (l : list R) : Prop := forall i, (i + 1 < List.length l)%nat -> nth i l 0 < nth (i + 1) l 0.

(** The line through (u, v) and (u', v') *)
Definition linear (u v u' v' t : R) : R := v + (t - u) / (u' - u) * (v' - v).

(** A number that is not changed by rounding to eight decimals *)
Definition exact8 (q : Q) : Prop := exists k : Z, (q == k # 100000000)%Q.
