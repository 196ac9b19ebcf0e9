(** Azimuth centring and local time in double precision (C126, C127).
    [double] and [rn] are in Spec_Float; bpow radix2 e is 2^e. *)
From Coq Require Import ZArith Reals.
From Flocq Require Import Core.
From Verif Require Import Spec_Float M_AzimuthF P_Float P_AzimuthF.
Open Scope R_scope.

(** ** C126 *)

(** The result is a double in (-180, 180], differs from the angle by a
    multiple of 360 degrees up to 2^-45 (3e-14) degrees, and a second call
    changes nothing. *)
Theorem C126_centred_angle : forall phi, double phi ->
  double (center_azimuth_f phi) /\ -180 < center_azimuth_f phi <= 180 /\
  (exists k : Z, Rabs (center_azimuth_f phi + 360 * IZR k - phi) <= bpow radix2 (-45)) /\
  center_azimuth_f (center_azimuth_f phi) = center_azimuth_f phi.
Proof.
  exact (fun phi D => conj (proj1 (center_range phi D)) (conj (proj2 (center_range phi D)) (conj (center_congr phi D) (center_idem phi D)))).
Qed.

(** Nonnegative angles are reduced without any error, angles in [0, 180] are
    returned as they are. *)
Theorem C126_nonnegative_angles_exact : forall phi, double phi -> 0 <= phi ->
  (exists k : Z, center_azimuth_f phi + 360 * IZR k = phi) /\ (phi <= 180 -> center_azimuth_f phi = phi).
Proof. exact (fun phi D P => conj (center_exact phi D P) (fun L => center_keeps phi (conj P L))). Qed.

(** The price of going through phi % 360: tiny negative angles become 0. *)
Theorem C126_tiny_negative_angles_vanish : forall phi, - bpow radix2 (-45) <= phi < 0 -> center_azimuth_f phi = 0.
Proof. exact center_tiny. Qed.

Example C126_applies : double (-540.25) /\ exists phi, double phi /\ - bpow radix2 (-45) <= phi < 0.
Proof.
  split.
  - exists (-2161)%Z, (-2)%Z. split; [|split; [reflexivity|discriminate]]. rewrite powerRZ_bpow. cbn. Lra.lra.
  - exists (- bpow radix2 (-50)). split; [|cbn; Lra.lra]. exists (-1)%Z, (-50)%Z. split; [rewrite powerRZ_bpow; ring|split; [reflexivity|discriminate]].
Qed.

(** ** C127 *)

(** The result lies in [0, 24]; it is 24 exactly when the rounded sum of time
    and longitude is negative and at least -2^-54. *)
Theorem C127_local_time_range_partial : forall time phi, double time -> double phi ->
  let s := rn (time + rn (phi / 360)) in
  double (local_time_f time phi) /\ 0 <= local_time_f time phi <= 24 /\
  (local_time_f time phi = 24 <-> - bpow radix2 (-54) <= s < 0).
Proof. exact local_range. Qed.

(** The documented interval [0, 24) is left. *)
Theorem C127_local_time_below_24_refuted : ~ (forall time phi, double time -> double phi -> local_time_f time phi < 24).
Proof. exact (fun H => match local_24 with ex_intro _ t (ex_intro _ p (conj Dt (conj Dp E))) => Rlt_irrefl 24 (eq_ind _ (fun x => x < 24) (H t p Dt Dp) _ E) end). Qed.

(** The error is below 1.8e-10 hours (0.7 microseconds), up to full days, for
    times within 358 years of 2000. *)
Theorem C127_local_time_error : forall time phi, Rabs time <= 131071 -> Rabs phi <= 360 ->
  exists k : Z, Rabs (local_time_f time phi + 24 * IZR k - 24 * (time + phi / 360)) <= 1.8e-10.
Proof. exact local_error. Qed.

Example C127_applies : double 7670.5 /\ double (-120) /\ Rabs 7670.5 <= 131071 /\ Rabs (-120) <= 360.
Proof.
  split; [|split; [|split; [rewrite Rabs_pos_eq|rewrite Rabs_left1]; Lra.lra]].
  - exists 15341%Z, (-1)%Z. split; [|split; [reflexivity|discriminate]]. rewrite powerRZ_bpow. cbn. Lra.lra.
  - exists (-120)%Z, 0%Z. split; [cbn; ring|split; [reflexivity|discriminate]].
Qed.

Print Assumptions C126_centred_angle.
Print Assumptions C126_nonnegative_angles_exact.
Print Assumptions C126_tiny_negative_angles_vanish.
Print Assumptions C127_local_time_range_partial.
Print Assumptions C127_local_time_below_24_refuted.
Print Assumptions C127_local_time_error.
