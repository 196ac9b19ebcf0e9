(** Electromagnetic induction in a sphere made of shells of constant
    conductivity above a perfectly conducting core; independent of the code.

    The radial function u of Spec_Induction obeys, in a shell of conductivity
    s,     r^2 u'' + 2 r u' = (n (n+1) + i w mu0 s r^2) u .
    u and u' are continuous at the interfaces, and u vanishes at the surface
    of the core, which no magnetic flux crosses. *)
From Coq Require Import Reals List.
From Coquelicot Require Import Coquelicot.
From Verif Require Import Spec_Induction.
Import ListNotations.
Open Scope R_scope.

(** [field_const layers v dv]: value and radial derivative, at the top of the
    shells (conductivity, top radius in metres; surface first), of a field
    inside; the last pair gives the radius of the core only. *)
Inductive field_const (w mu0 : R) (n : nat) : list (R * R) -> C -> C -> Prop :=
| const_core s r s1 rc u du ddu :
    (forall x, rc <= x <= r -> induction_at w mu0 n (s * x ^ 2) u du ddu x) ->
    u rc = RtoC 0 ->
    field_const w mu0 n [(s, r); (s1, rc)] (u r) (du r)
| const_layer s r s1 r1 l u du ddu v dv :
    field_const w mu0 n ((s1, r1) :: l) v dv ->
    (forall x, r1 <= x <= r -> induction_at w mu0 n (s * x ^ 2) u du ddu x) ->
    u r1 = v -> du r1 = dv ->
    field_const w mu0 n ((s, r) :: (s1, r1) :: l) (u r) (du r).

(** Shells given as (conductivity in S/m, top radius in km), surface first,
    the last pair being the core: at least one shell, conducting, with
    decreasing positive radii. *)
Fixpoint conducting (L : list (R * R)) : Prop :=
  match L with
  | (s, r) :: (((_, r1) :: rest) as below) => 0 < s /\ 0 < r1 /\ r1 < r /\ match rest with [] => True | _ => conducting below end
  | _ => False
  end.
(** The top radius of every shell is at least 3 / sqrt (w mu0 sigma), i.e.
    3 / sqrt 2 skin depths. *)
Fixpoint deep (w mu0 : R) (L : list (R * R)) : Prop :=
  match L with
  | (s, r) :: ((_ :: _) as below) => 3 <= sqrt (w * mu0 * s) * (1000 * r) /\ deep w mu0 below
  | _ => True
  end.
Definition metres (L : list (R * R)) : list (R * R) := map (fun sr => (fst sr, 1000 * snd sr)) L.

(** [is_response w mu0 n a L Q]: for every external coefficient [e] there is
    a field in the shells that matches it with the internal coefficient
    [Q * e] at the surface [a], and every field that matches has it. *)
Definition is_response (w mu0 : R) (n : nat) (a : R) (L : list (R * R)) (Q : C) : Prop :=
  (forall e, exists v dv, field_const w mu0 n L v dv /\ matches a n e (Cmult Q e) v dv) /\
  (forall e i v dv, field_const w mu0 n L v dv -> matches a n e i v dv -> i = Cmult Q e).
