(** C157: the geomagnetic axis in double precision
    (chaosmagpy/coordinate_utils.py 120-165).  [vnear k v w]: every component
    of w is that of v up to k roundings. *)
From Coq Require Import ZArith Reals List Lra Lia.
From Verif Require Import M_Prelude Spec_Coord Spec_Float Spec_Rounding Spec_CoordF M_Coord P_Float P_Rounding M_DipoleF P_CoordF P_DipoleF W_CoordF.
Import ListNotations.
Open Scope R_scope.

(** From coefficients: the axis that dipole_to_vec describes (C53), each
    component with a relative error of at most four roundings, in whatever
    order the norm is summed. *)
Theorem C157_axis_of_coefficients : forall cfg g10 g11 h11 v axis,
  in_range g10 -> in_range g11 -> in_range h11 -> (g10, g11, h11) <> (0, 0, 0) ->
  dipole_to_vec cfg (DArray g10 g11 h11) = Ok axis -> unit_of_coeffs_f g10 g11 h11 v ->
  vnear 4 axis v /\ near 4 1 (vlen v).
Proof.
  intros cfg g10 g11 h11 v axis R0 R1 R2 NZ E F. cbn in E. injection E as <-.
  split; [apply unit_coeffs_near; assumption|apply (length_near g10 g11 h11); assumption].
Qed.

(** As numbers: components and length are right to 5e-16. *)
Theorem C157_relative_errors : forall g10 g11 h11 v,
  in_range g10 -> in_range g11 -> in_range h11 -> (g10, g11, h11) <> (0, 0, 0) -> unit_of_coeffs_f g10 g11 h11 v ->
  let n := sqrt (g10 * g10 + g11 * g11 + h11 * h11) in
  Rabs (vx v - (- g11 / n)) <= 5e-16 * Rabs (g11 / n) /\
  Rabs (vy v - (- h11 / n)) <= 5e-16 * Rabs (h11 / n) /\
  Rabs (vz v - (- g10 / n)) <= 5e-16 * Rabs (g10 / n) /\
  Rabs (vlen v - 1) <= 5e-16.
Proof.
  intros g10 g11 h11 v R0 R1 R2 NZ F n.
  destruct (unit_coeffs_near _ _ _ _ R0 R1 R2 NZ F) as (A & B & C). pose proof (length_near _ _ _ _ R0 R1 R2 NZ F) as L.
  unfold unit_of_coeffs, np_divs, np_neg, np_norm in A, B, C. cbn [vx vy vz] in A, B, C.
  replace (g11 * g11 + h11 * h11 + g10 * g10) with (g10 * g10 + g11 * g11 + h11 * h11) in A, B, C by ring. fold n in A, B, C.
  apply near_err in A; [|cbn; lra]. apply near_err in B; [|cbn; lra]. apply near_err in C; [|cbn; lra]. apply near_err in L; [|cbn; lra].
  assert (O : forall g, Rabs (- g / n) = Rabs (g / n)) by (intros g; unfold Rdiv; rewrite Ropp_mult_distr_l_reverse; apply Rabs_Ropp).
  rewrite O in A, B, C. rewrite Rabs_R1 in L. cbn [INR] in *.
  pose proof (Rabs_pos (g11 / n)). pose proof (Rabs_pos (h11 / n)). pose proof (Rabs_pos (g10 / n)).
  split; [|split; [|split]]; lra.
Qed.

(** From a pole position: every component within 2.1 e + 8e-15. *)
Theorem C157_axis_of_pole : forall cfg e fcos fsin t p axis, accurate_within e cos fcos -> accurate_within e sin fsin -> e <= 1e-4 ->
  Rabs t <= 360 -> Rabs p <= 360 -> dipole_to_vec cfg (DTuple [t; p]) = Ok axis ->
  within (2.1 * e + 8e-15) (unit_of_pole_f fcos fsin t p) axis.
Proof.
  intros cfg e fcos fsin t p axis Hc Hs He Ht Hp E. cbn in E. injection E as <-. exact (unit_pole_err e fcos fsin t p Hc Hs He Ht Hp).
Qed.

(** A result always exists; the coefficients of IGRF 2015 are in range. *)
Example C157_exists : forall g10 g11 h11, exists v, unit_of_coeffs_f g10 g11 h11 v.
Proof. exact unit_f_exists. Qed.
Example C157_igrf : in_range (-29442) /\ in_range (-1501) /\ in_range 4797.1 /\ (-29442, -1501, 4797.1) <> (0, 0, 0).
Proof.
  split; [|split; [|split]]; try (apply between; unfold Rabs; destruct (Rcase_abs _); lra).
  intros E. injection E. lra.
Qed.

Print Assumptions C157_axis_of_coefficients.
Print Assumptions C157_relative_errors.
Print Assumptions C157_axis_of_pole.
