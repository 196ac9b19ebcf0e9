(** Two abbreviations used in the statements about transform_points and
    transform_vectors. *)
From Coq Require Import Reals List.
From Verif Require Import M_Prelude Spec_Coord M_Coord.
Open Scope R_scope.

(** [suns] are the n sun positions (theta, phi) that belong to the argument
    [time].  For MAG the time is ignored and [suns] is any list of n pairs. *)
Definition suns_for (k : ref_system) (time : option (list R)) (n : nat) (suns : list (R * R)) : Prop :=
  List.length suns = n /\
  match k with
  | MAG => True
  | _ => exists times, time = Some times /\ sun_position times = Ok suns
  end.

(** The keyword [inverse]; missing means False. *)
Definition inv_of (i : option bool) : bool := match i with Some b => b | None => false end.
