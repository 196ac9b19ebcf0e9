(** Specification vocabulary for the array behaviour of the coordinate
    functions (C123-C125): the shape of a dipole argument and its value at an
    element of a broadcast result. *)
From Coq Require Import Reals List.
From Verif Require Import M_Prelude M_ND Spec_Coord M_Coord M_CoordArr.
Import ListNotations.

(** The dipole argument is usable and describes one dipole for every index of
    the shape [s].  None: one dipole.  One array (s..., 3): [s].  A pole
    (colatitude, longitude): the longitudes broadcast to the shape of the
    colatitudes, which is [s].  Three coefficients: all of the shape [s]. *)
Definition dipole_shape (d : dipole_nd) (s : list nat) : Prop :=
  match d with
  | NNone => s = []
  | NArray a => s = sh a
  | NPole theta phi => s = sh theta /\ broadcast [sh theta; sh phi] = Ok s
  | NCoeffs g10 g11 h11 => s = sh g10 /\ sh g11 = s /\ sh h11 = s
  end.

(** The dipole at index [i] of a broadcast result. *)
Definition dipole_at (d : dipole_nd) (i : list nat) : dipole_arg :=
  match d with
  | NNone => DNone
  | NArray a => let '(g10, g11, h11) := bread a i in DArray g10 g11 h11
  | NPole theta phi => DTuple [bread theta i; bread phi i]
  | NCoeffs g10 g11 h11 => DTuple [bread g10 i; bread g11 i; bread h11 i]
  end.

(** The arguments that determine the base vectors: the time is ignored for MAG. *)
Definition times_accepted (k : ref_system) (time : option (nd R)) : Prop :=
  match k, time with
  | MAG, _ => True
  | _, Some t => forall x, In x (elems t) -> (x < 36159.75)%R
  | _, None => False
  end.
Definition frame_shapes (k : ref_system) (time : option (nd R)) (ds : list nat) : list (list nat) :=
  match k, time with
  | MAG, _ | _, None => [ds]
  | _, Some t => [sh t; ds]
  end.
(** SM only: the dipoles broadcast to the shape of the times. *)
Definition dipole_per_time (k : ref_system) (time : option (nd R)) (ds : list nat) : Prop :=
  match k, time with
  | SM, Some t => broadcast [sh t; ds] = Ok (sh t)
  | _, _ => True
  end.
(** The time of the element [i] of the result, as a one-element list. *)
Definition time_at (time : option (nd R)) (i : list nat) : option (list R) :=
  option_map (fun t => [bread t i]) time.
(** GSM and SM: the dipoles broadcast to the shape of the times. *)
Definition dipole_within_times (k : ref_system) (time : option (nd R)) (ds : list nat) : Prop :=
  match k, time with
  | MAG, _ | _, None => True
  | _, Some t => broadcast [sh t; ds] = Ok (sh t)
  end.

(** The check for poles looks at the smallest and the largest colatitude of an
    array only.  No pole is noticed if the smallest is not 0 and the largest is
    not 180. *)
Definition least (x : R) (l : list R) : Prop := In x l /\ forall y, In y l -> (x <= y)%R.
Definition greatest (x : R) (l : list R) : Prop := In x l /\ forall y, In y l -> (y <= x)%R.
Definition poles_unnoticed (l : list R) : Prop := ~ least 0 l /\ ~ greatest 180 l.
Definition at_pole (x : R) : Prop := x = 0%R \/ x = 180%R.
