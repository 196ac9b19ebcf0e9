(** IEEE 754 double precision, as far as it is used for the time functions:
    real numbers with 53 bits, rounding to nearest, ties to even.  The values
    are far from overflow (below 2^64). *)
From Coq Require Import ZArith Reals.
From Flocq Require Import Core.
Open Scope R_scope.

(** x is a double: m * 2^e with |m| < 2^53 and e >= -1074. *)
Definition double (x : R) : Prop :=
  exists m e : Z, x = IZR m * powerRZ 2 e /\ (Z.abs m < 2 ^ 53)%Z /\ (-1074 <= e)%Z.

(** The double next to x (ties to even), the result of every operation. *)
Definition rn (x : R) : R := round radix2 (FLT_exp (-1074) 53) ZnearestE x.
