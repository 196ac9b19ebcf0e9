(** What is assumed of the C library functions, and spherical coordinates of a
    point, for the double-precision properties of the conversions. *)
From Coq Require Import ZArith Reals.
From Verif Require Import Spec_Coord Spec_Float Spec_Rounding.
Open Scope R_scope.

(** a (radians) is the angle of the point (x, y) of the plane, 0 for the origin. *)
Definition angle_of (y x a : R) : Prop :=
  - PI < a <= PI /\ sqrt (x * x + y * y) * cos a = x /\ sqrt (x * x + y * y) * sin a = y /\
  (x = 0 -> y = 0 -> a = 0).

(** [f] computes the angle up to p roundings (unless it underflows). *)
Definition accurate_atan2 (p : nat) (f : R -> R -> R) : Prop :=
  forall y x a, double y -> double x -> angle_of y x a -> normal a -> near p a (f y x).

(** [f] computes [g] with absolute error at most e. *)
Definition accurate_within (e : R) (g f : R -> R) : Prop :=
  forall x, double x -> Rabs (f x - g x) <= e.

(** Zero or between 2^-300 and 2^300 in absolute value *)
Definition in_range (x : R) : Prop :=
  x = 0 \/ powerRZ 2 (-300) <= Rabs x <= powerRZ 2 300.

(** A point given by doubles in range *)
Definition cart_in_range (v : vec3) : Prop :=
  (double (vx v) /\ in_range (vx v)) /\ (double (vy v) /\ in_range (vy v)) /\ (double (vz v) /\ in_range (vz v)).

(** radius r, colatitude t and longitude p (degrees) of the point v *)
Definition spherical_of (v : vec3) (r t p : R) : Prop :=
  vscale r (direction t p) = v /\ 0 <= r /\ 0 <= t <= 180 /\ -180 < p <= 180 /\
  (vx v = 0 -> vy v = 0 -> p = 0 /\ (vz v = 0 -> t = 0)).

(** largest difference of two components *)
Definition within (d : R) (v w : vec3) : Prop :=
  Rabs (vx v - vx w) <= d /\ Rabs (vy v - vy w) <= d /\ Rabs (vz v - vz w) <= d.

(** [f] computes arccos on [-1, 1] with absolute error at most e. *)
Definition accurate_acos (e : R) (f : R -> R) : Prop :=
  forall x, double x -> Rabs x <= 1 -> Rabs (f x - acos x) <= e.

(** z (degrees) is the angle between the directions (t1, p1) and (t2, p2). *)
Definition angle_between (t1 p1 t2 p2 z : R) : Prop :=
  0 <= z <= 180 /\ cos (deg z) = vdot (direction t1 p1) (direction t2 p2).
