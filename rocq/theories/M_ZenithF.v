(** chaosmagpy/coordinate_utils.py 815-827 (the part of zenith_angle after
    sun_position) in double precision.
    Simplifications: one point; the position of the sun is given (the rounding
    errors of sun_position are not modelled); the library's cos, sin and arccos
    are parameters; NaN is [None]. *)
From Coq Require Import ZArith Reals.
From Verif Require Import Spec_Float M_CoordF.
Open Scope R_scope.

Section ZenithF.
Variables fcos fsin facos : R -> R.

(** cos_zeta, lines 817-825 *)
Definition cos_zeta_f (theta_sun phi_sun theta phi : R) : R :=
  let colat := radians_f theta_sun in
  let azim := radians_f phi_sun in
  let theta := radians_f theta in
  let phi := radians_f phi in
  rn (rn (fcos theta * fcos colat) +
      rn (rn (fsin theta * fsin colat) * fcos (rn (azim - phi)))).

(** np.degrees(np.arccos(cos_zeta)), line 827; np.arccos is NaN outside [-1, 1] *)
Definition zenith_point_f (theta_sun phi_sun theta phi : R) : option R :=
  let c := cos_zeta_f theta_sun phi_sun theta phi in
  if Rle_dec (Rabs c) 1 then Some (degrees_f (facos c)) else None.
End ZenithF.
