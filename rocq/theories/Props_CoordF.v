(** C155: spherical and Cartesian coordinates in double precision
    (chaosmagpy/coordinate_utils.py 830-881). *)
From Coq Require Import ZArith Reals Lra.
From Verif Require Import Spec_Coord Spec_Float Spec_Rounding Spec_CoordF M_CoordF M_Coord P_Rounding P_CoordF W_CoordF.
Open Scope R_scope.

(** cartesian_to_spherical: radius, colatitude and longitude are the exact ones
    with a relative error of a few units in the last place, whatever the point
    (near the poles and the date line, too).  [p]: accuracy of the C library's
    atan2 in roundings. *)
Theorem C155_cartesian_to_spherical : forall p atan2 v r t f, accurate_atan2 p atan2 -> INR p <= 1000 ->
  cart_in_range v -> spherical_of v r t f ->
  let '(r', t', f') := cartesian_to_spherical_f atan2 v in
  near 3 r r' /\ near (p + 6) t t' /\ near (p + 3) f f'.
Proof.
  intros p at2 v r t f Acc Hp Hv S. pose proof (cart_to_sph_near p at2 v Acc Hp Hv) as N.
  rewrite (spherical_unique v r t f S) in N. exact N.
Qed.

(** Every point has such coordinates, and only one triple. *)
Theorem C155_coordinates_exist_and_are_unique : forall v,
  (exists r t f, spherical_of v r t f) /\
  (forall r t f r' t' f', spherical_of v r t f -> spherical_of v r' t' f' -> r = r' /\ t = t' /\ f = f').
Proof.
  intros v. split.
  - pose proof (spherical_exists v) as S. destruct (cartesian_to_spherical v) as [[r t] f]. exists r, t, f. exact S.
  - intros r t f r' t' f' A B. apply spherical_unique in A, B. rewrite A in B. inversion B. auto.
Qed.

(** As numbers, for a library accurate to one rounding: relative errors below
    4e-16 (radius), 9e-16 (colatitude) and 5e-16 (longitude). *)
Theorem C155_relative_errors : forall atan2 v r t f, accurate_atan2 1 atan2 -> cart_in_range v -> spherical_of v r t f ->
  let '(r', t', f') := cartesian_to_spherical_f atan2 v in
  Rabs (r' - r) <= 4e-16 * r /\ Rabs (t' - t) <= 9e-16 * t /\ Rabs (f' - f) <= 5e-16 * Rabs f.
Proof.
  intros at2 v r t f Acc Hv S. pose proof (C155_cartesian_to_spherical 1 at2 v r t f Acc ltac:(cbn; lra) Hv S) as N.
  destruct (cartesian_to_spherical_f at2 v) as [[r' t'] f']. destruct N as (A & B & C). destruct S as (_ & R0 & T & _).
  apply near_err in A; [|cbn; lra]. apply near_err in B; [|cbn; lra]. apply near_err in C; [|cbn; lra].
  rewrite (Rabs_pos_eq r) in A by exact R0. rewrite (Rabs_pos_eq t) in B by lra. cbn [INR Nat.add] in *.
  pose proof (Rabs_pos f). split; [|split]; lra.
Qed.

(** spherical_to_cartesian: every component is within about 1e-14 times the
    radius of the exact one.  [e]: absolute error of the library's cos, sin. *)
Theorem C155_spherical_to_cartesian : forall e fcos fsin r t f,
  accurate_within e cos fcos -> accurate_within e sin fsin -> e <= 1e-4 ->
  large (-1000) r -> Rabs t <= 360 -> Rabs f <= 360 ->
  within (Rabs r * (2.1 * e + 8e-15)) (spherical_to_cartesian_f fcos fsin r t f) (vscale r (direction t f)).
Proof. exact sph_to_cart_err. Qed.

(** There and back: the coordinates that come out are those of a point within
    about 1.5e-14 radii of the one that went in. *)
Theorem C155_round_trip : forall e p fcos fsin atan2 r t f,
  accurate_within e cos fcos -> accurate_within e sin fsin -> e <= 1e-4 -> accurate_atan2 p atan2 -> INR p <= 1000 ->
  powerRZ 2 (-1000) <= r -> Rabs t <= 360 -> Rabs f <= 360 ->
  cart_in_range (spherical_to_cartesian_f fcos fsin r t f) ->
  let '(r', t', f') := cartesian_to_spherical_f atan2 (spherical_to_cartesian_f fcos fsin r t f) in
  within (r * (1.1e-15 * (INR p + 5) + 2.1 * e + 8e-15)) (vscale r' (direction t' f')) (vscale r (direction t f)).
Proof. exact round_trip. Qed.

(** The other way round: from Cartesian to spherical and, exactly, back. *)
Theorem C155_same_point : forall p atan2 v, accurate_atan2 p atan2 -> INR p <= 1000 -> cart_in_range v ->
  let '(r', t', f') := cartesian_to_spherical_f atan2 v in
  within (vlen v * (1e-15 * (INR p + 5))) (vscale r' (direction t' f')) v.
Proof. exact cart_to_sph_point. Qed.

(** The hypotheses are met by correctly rounded library functions and an
    ordinary point. *)
Example C155_libraries_exist : accurate_atan2 1 ratan2 /\ accurate_within 1.2e-16 cos rcos /\ accurate_within 1.2e-16 sin rsin.
Proof. split; [exact rounded_atan2|]. split; [exact (rounded_trig cos cos_1)|exact (rounded_trig sin sin_1)]. Qed.
Example C155_point : spherical_of (V3 1 1 0) (sqrt 2) 90 45 /\ cart_in_range (V3 1 1 0).
Proof. split; [exact spherical_110|exact range_110]. Qed.
Example C155_point_there_and_back : cart_in_range (spherical_to_cartesian_f rcos rsin 6371 60 30).
Proof. exact point_in_range. Qed.

Print Assumptions C155_cartesian_to_spherical.
Print Assumptions C155_coordinates_exist_and_are_unique.
Print Assumptions C155_relative_errors.
Print Assumptions C155_spherical_to_cartesian.
Print Assumptions C155_round_trip.
Print Assumptions C155_same_point.
