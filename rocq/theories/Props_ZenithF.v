(** C156: the solar zenith angle in double precision
    (chaosmagpy/coordinate_utils.py 815-827), for a given position of the sun.

    [e]: absolute error of the library's cos, sin and arccos (about 1e-16). *)
From Coq Require Import ZArith Reals Lra.
From Verif Require Import Spec_Coord Spec_Float Spec_CoordF M_Coord P_Coord2 P_CoordF M_ZenithF P_ZenithF W_CoordF W_ZenithF.
Open Scope R_scope.

(** Every pair of directions encloses one angle. *)
Theorem C156_the_angle : forall ts ps t p,
  (exists z, angle_between ts ps t p z) /\
  (forall z z', angle_between ts ps t p z -> angle_between ts ps t p z' -> z = z').
Proof.
  intros ts ps t p. split.
  - exists (zenith_point ts ps t p). split; [apply zenith_range|]. rewrite zenith_cos_spec. unfold vdot. ring.
  - intros z z' [B E] [B' E']. apply cos_deg_inj; [exact B|exact B'|]. congruence.
Qed.

(** The argument of arccos is off by at most about 5e-14. *)
Theorem C156_cosine : forall e fcos fsin ts ps t p,
  accurate_within e cos fcos -> accurate_within e sin fsin -> e <= 1e-4 ->
  Rabs ts <= 360 -> Rabs ps <= 360 -> Rabs t <= 360 -> Rabs p <= 360 ->
  Rabs (cos_zeta_f fcos fsin ts ps t p - vdot (direction ts ps) (direction t p)) <= 5.1 * e + 5e-14.
Proof. exact cos_zeta_err. Qed.

(** With the sun between 1 and 179 degrees from the zenith a number is
    returned, and it is the zenith angle up to about 5e-10 degrees. *)
Theorem C156_accurate : forall e fcos fsin facos ts ps t p z,
  accurate_within e cos fcos -> accurate_within e sin fsin -> accurate_acos e facos -> e <= 1e-11 ->
  Rabs ts <= 360 -> Rabs ps <= 360 -> Rabs t <= 360 -> Rabs p <= 360 ->
  angle_between ts ps t p z -> 1 <= z <= 179 ->
  exists zf, zenith_point_f fcos fsin facos ts ps t p = Some zf /\
    Rabs (zf - z) <= 9000 * (5.1 * e + 5e-14) + 60 * e + 1e-13.
Proof. exact defined_and_close. Qed.

(** Wherever a number is returned, it is right up to about 4e-5 degrees. *)
Theorem C156_never_far_off : forall e fcos fsin facos ts ps t p z,
  accurate_within e cos fcos -> accurate_within e sin fsin -> accurate_acos e facos -> e <= 1e-11 ->
  Rabs ts <= 360 -> Rabs ps <= 360 -> Rabs t <= 360 -> Rabs p <= 360 ->
  angle_between ts ps t p z -> forall zf, zenith_point_f fcos fsin facos ts ps t p = Some zf ->
  Rabs (zf - z) <= 60 * sqrt (8 * (5.1 * e + 5e-14)) + 60 * e + 1e-13.
Proof. exact always_close. Qed.

(** But below the sun the result may be NaN: nothing clips the argument of
    arccos to [-1, 1].  (A library accurate to one machine epsilon, the sun at
    colatitude 45, the point exactly below it, any longitude.) *)
Theorem C156_nan_below_the_sun : exists fcos fsin facos,
  accurate_within 2.3e-16 cos fcos /\ accurate_within 2.3e-16 sin fsin /\ accurate_acos 2.3e-16 facos /\
  forall p, zenith_point_f fcos fsin facos 45 p 45 p = None.
Proof.
  exists bcos, bsin, racos. split; [exact bcos_ok|]. split; [exact bsin_ok|]. split; [exact racos_ok|]. intros p. apply nan_case.
Qed.

(** The hypotheses are met by the correctly rounded library. *)
Example C156_case : accurate_within 2.3e-16 cos rcos /\ accurate_within 2.3e-16 sin rsin /\ accurate_acos 2.3e-16 racos /\
  angle_between 90 0 90 60 60.
Proof.
  assert (M : forall g f, accurate_within 1.2e-16 g f -> accurate_within 2.3e-16 g f).
  { intros g f H x D. specialize (H x D). lra. }
  split; [apply M, (rounded_trig cos cos_1)|]. split; [apply M, (rounded_trig sin sin_1)|]. split; [exact racos_ok|exact angle_case].
Qed.

Print Assumptions C156_the_angle.
Print Assumptions C156_cosine.
Print Assumptions C156_accurate.
Print Assumptions C156_never_far_off.
Print Assumptions C156_nan_below_the_sun.
