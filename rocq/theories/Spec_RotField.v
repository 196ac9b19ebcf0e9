(** The field vector given by its components up, south and east. *)
From Coq Require Import Reals.
From Verif Require Import Spec_Coord.
Open Scope R_scope.

Definition field_vector (theta phi br bt bp : R) : vec3 :=
  vadd (vscale br (direction theta phi)) (tangent theta phi bt bp).
