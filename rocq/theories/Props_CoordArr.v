(** Theorems about arrays in the coordinate transformations (C123-C125).
    Specification: Spec_Coord, Spec_CoordArr; NumPy arrays: M_ND.  One element
    of a result is compared with the call for that element alone (M_Coord),
    whose geometric meaning is the subject of C52, C55 and C56. *)
From Coq Require Import Reals List Bool String Arith Lia Lra.
From Verif Require Import M_Prelude M_ND Spec_Coord M_Coord M_CoordArr Spec_CoordArr P_CoordArr2 P_CoordArr3 P_CoordArr4 P_CoordArr5 W_CoordArr.
Import ListNotations.
Open Scope nat_scope.

(** ** C123: transform_points *)
Theorem C123_transform_points_elementwise_partial : forall k r cfg dip ds time theta phi inverse,
  In r (spellings k) -> dipole_shape dip ds -> times_accepted k time -> dipole_per_time k time ds ->
  match broadcast (sh theta :: sh phi :: frame_shapes k time ds) with
  | Ok s => exists t p, transform_points_nd cfg theta phi time (Some r) inverse dip = Ok (t, p) /\ sh t = s /\ sh p = s /\
      forall i, valid s i ->
        transform_points cfg [(bread theta i, bread phi i)] (time_at time i) (Some r) inverse (dipole_at dip i) = Ok [(at_ t i, at_ p i)]
  | Err _ => transform_points_nd cfg theta phi time (Some r) inverse dip = Err ValueError
  end.
Proof. exact points_elementwise. Qed.

(** Tuples of arrays that broadcast are nevertheless rejected ... *)
Theorem C123_pole_tuple_that_broadcasts_refuted : forall k r cfg c lon time theta phi B_theta B_phi inverse,
  In r (spellings k) -> times_accepted k time -> sh lon <> [] ->
  broadcast [[]; sh lon] = Ok (sh lon) /\
  transform_points_nd cfg theta phi time (Some r) inverse (NPole (scalar c) lon) = Err ValueError /\
  transform_vectors_nd cfg theta phi B_theta B_phi time (Some r) inverse (NPole (scalar c) lon) = Err ValueError.
Proof. exact pole_tuple. Qed.
Theorem C123_coefficient_tuple_that_broadcasts_refuted : forall k r cfg g11 h11 c time theta phi B_theta B_phi inverse,
  In r (spellings k) -> times_accepted k time -> sh g11 <> [] -> sh h11 = sh g11 ->
  broadcast [[]; sh g11; sh h11] = Ok (sh g11) /\
  transform_points_nd cfg theta phi time (Some r) inverse (NCoeffs (scalar c) g11 h11) = Err ValueError /\
  transform_vectors_nd cfg theta phi B_theta B_phi time (Some r) inverse (NCoeffs (scalar c) g11 h11) = Err ValueError.
Proof. exact coefficient_tuple. Qed.
(** ... and so are, for SM, dipoles that do not fit into the shape of the times. *)
Theorem C123_sm_dipole_series_refuted : forall r cfg dip ds time theta phi B_theta B_phi inverse,
  In r (spellings SM) -> dipole_shape dip ds -> times_accepted SM (Some time) -> broadcast [sh time; ds] <> Ok (sh time) -> hd 0 ds <> 1 ->
  transform_points_nd cfg theta phi (Some time) (Some r) inverse dip = Err ValueError /\
  transform_vectors_nd cfg theta phi B_theta B_phi (Some time) (Some r) inverse dip = Err ValueError.
Proof. exact sm_more_dipoles. Qed.
Theorem C123_unusable_dipoles_raise : forall k r cfg dip time theta phi B_theta B_phi inverse,
  In r (spellings k) -> times_accepted k time -> (forall ds, ~ dipole_shape dip ds) ->
  transform_points_nd cfg theta phi time (Some r) inverse dip = Err ValueError /\
  transform_vectors_nd cfg theta phi B_theta B_phi time (Some r) inverse dip = Err ValueError.
Proof. exact bad_dipole. Qed.

(** Two dipoles, two times, three colatitudes in a column: shape (3, 2). *)
Example C123_case : let time := vec 0%R [0%R; 7305.5%R] in let theta := mknd [3; 1] (fun i => INR (10 * (1 + hd 0 i))) in
  let dip := NArray (vec (0, 0, 0)%R [(-29442, -1501, 4797.1)%R; (-29400, -1450, 4650)%R]) in
  dipole_shape dip [2] /\ times_accepted GSM (Some time) /\ dipole_per_time SM (Some time) [2] /\
  broadcast (sh theta :: sh (scalar 0%R) :: frame_shapes GSM (Some time) [2]) = Ok [3; 2].
Proof. split; [reflexivity|]. split; [intros x Hx; cbn in Hx; destruct Hx as [<-|[<-|[]]]; lra|]. split; reflexivity. Qed.
Example C123_sm_case : broadcast [sh (scalar 0%R); [2]] <> Ok (sh (scalar 0%R)) /\ hd 0 [2] <> 1.
Proof. split; discriminate. Qed.

(** ** C124: transform_vectors *)
Theorem C124_transform_vectors_elementwise_partial : forall k r cfg dip ds time theta phi inverse s t p B_theta B_phi,
  In r (spellings k) -> dipole_shape dip ds -> times_accepted k time -> dipole_within_times k time ds ->
  broadcast (sh theta :: sh phi :: frame_shapes k time ds) = Ok s ->
  transform_points_nd cfg theta phi time (Some r) inverse dip = Ok (t, p) ->
  (exists i, valid s i) -> poles_unnoticed (elems theta) -> (forall x, In x (elems t) -> ~ at_pole x) ->
  match broadcast (sh B_theta :: sh B_phi :: sh theta :: sh phi :: frame_shapes k time ds) with
  | Ok s2 => exists bt bp, transform_vectors_nd cfg theta phi B_theta B_phi time (Some r) inverse dip = Ok (t, p, bt, bp) /\ sh bt = s2 /\ sh bp = s2 /\
      forall i, valid s2 i ->
        let single := transform_vectors cfg [((bread theta i, bread phi i), (bread B_theta i, bread B_phi i))] (time_at time i) (Some r) inverse (dipole_at dip i) in
        (~ at_pole (bread theta i) -> single = Ok [((bread t i, bread p i), (at_ bt i, at_ bp i))]) /\
        (at_pole (bread theta i) -> single = Err ValueError)
  | Err _ => transform_vectors_nd cfg theta phi B_theta B_phi time (Some r) inverse dip = Err ValueError
  end.
Proof. exact vectors_elementwise. Qed.

(** One pole rejects the whole array: any pole of the new system; of the given
    one if it is the smallest or the largest colatitude (always, if colatitudes
    are within [0, 180]). *)
Theorem C124_one_pole_rejects_the_array : forall k r cfg dip time theta phi B_theta B_phi inverse t p,
  In r (spellings k) -> times_accepted k time ->
  transform_points_nd cfg theta phi time (Some r) inverse dip = Ok (t, p) ->
  least 0 (elems theta) \/ greatest 180 (elems theta) \/ (exists x, In x (elems t) /\ at_pole x) ->
  transform_vectors_nd cfg theta phi B_theta B_phi time (Some r) inverse dip = Err ValueError.
Proof. exact one_pole_rejects_all. Qed.
Theorem C124_poles_within_range_are_noticed : forall l, (forall x, In x l -> (0 <= x <= 180)%R) -> (exists x, In x l /\ at_pole x) -> least 0 l \/ greatest 180 l.
Proof. exact within_range. Qed.
(** So a pole among colatitudes outside [0, 180] goes unnoticed, although alone it raises ValueError. *)
Theorem C124_unnoticed_pole_refuted : exists theta phi t p bt bp,
  transform_vectors_nd (0, 0, 0)%R theta phi (scalar 1%R) (scalar 0%R) None (Some "mag"%string) None w_dip = Ok (t, p, bt, bp) /\
  bread theta [1] = 0%R /\
  forall B_theta B_phi, transform_vectors_nd (0, 0, 0)%R (scalar 0%R) (scalar (bread phi [1])) B_theta B_phi None (Some "mag"%string) None w_dip = Err ValueError.
Proof. exact unnoticed_pole. Qed.
(** What transform_points rejects, transform_vectors rejects; and empty arrays. *)
Theorem C124_fails_where_points_fail : forall k r cfg dip time theta phi B_theta B_phi inverse, In r (spellings k) -> times_accepted k time ->
  transform_points_nd cfg theta phi time (Some r) inverse dip = Err ValueError ->
  transform_vectors_nd cfg theta phi B_theta B_phi time (Some r) inverse dip = Err ValueError.
Proof. exact points_fail. Qed.
Theorem C124_empty_arrays_raise : forall k r cfg dip time theta phi B_theta B_phi inverse, In r (spellings k) -> times_accepted k time ->
  elems theta = [] -> transform_vectors_nd cfg theta phi B_theta B_phi time (Some r) inverse dip = Err ValueError.
Proof. exact empty_fails. Qed.
(** For GSM, a series of dipoles that transform_points accepts is rejected. *)
Theorem C124_gsm_dipole_series_refuted : forall r cfg dip ds time theta phi B_theta B_phi inverse,
  In r (spellings GSM) -> dipole_shape dip ds -> times_accepted GSM (Some time) -> broadcast [sh time; ds] <> Ok (sh time) ->
  transform_vectors_nd cfg theta phi B_theta B_phi (Some time) (Some r) inverse dip = Err ValueError.
Proof. exact gsm_more_dipoles. Qed.

Example C124_case : let theta := vec 0%R [90%R; 45%R] in let phi := scalar 90%R in
  exists t p, In "mag"%string (spellings MAG) /\ dipole_shape w_dip [] /\ times_accepted MAG None /\ dipole_within_times MAG None [] /\
    broadcast (sh theta :: sh phi :: frame_shapes MAG None []) = Ok [2] /\
    transform_points_nd (0, 0, 0)%R theta phi None (Some "mag"%string) None w_dip = Ok (t, p) /\
    (exists i, valid [2] i) /\ poles_unnoticed (elems theta) /\ (forall x, In x (elems t) -> ~ at_pole x).
Proof. exact w_case. Qed.

(** ** C125: zenith_angle *)
Theorem C125_zenith_angle_elementwise : forall time theta phi,
  ((exists x, In x (elems time) /\ (36159.75 <= x)%R) -> zenith_angle_nd time theta phi = Err AssertionError) /\
  ((forall x, In x (elems time) -> (x < 36159.75)%R) ->
   match broadcast [sh time; sh theta; sh phi] with
   | Ok s => exists z, zenith_angle_nd time theta phi = Ok z /\ sh z = s /\
       forall i, valid s i -> zenith_angle [((bread time i, bread theta i), bread phi i)] = Ok [at_ z i]
   | Err _ => zenith_angle_nd time theta phi = Err ValueError
   end).
Proof. exact zenith_elementwise. Qed.
Example C125_case : broadcast [sh (vec 0%R [0%R; 1%R]); [3; 1]; []] = Ok [3; 2].
Proof. reflexivity. Qed.

Print Assumptions C123_transform_points_elementwise_partial.
Print Assumptions C123_sm_dipole_series_refuted.
Print Assumptions C124_transform_vectors_elementwise_partial.
Print Assumptions C124_one_pole_rejects_the_array.
Print Assumptions C124_poles_within_range_are_noticed.
Print Assumptions C124_unnoticed_pole_refuted.
Print Assumptions C124_gsm_dipole_series_refuted.
Print Assumptions C125_zenith_angle_elementwise.
Print Assumptions C124_empty_arrays_raise.
Print Assumptions C123_coefficient_tuple_that_broadcasts_refuted.
Print Assumptions C123_pole_tuple_that_broadcasts_refuted.
Print Assumptions C123_unusable_dipoles_raise.
Print Assumptions C124_fails_where_points_fail.
