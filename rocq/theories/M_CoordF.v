(** chaosmagpy/coordinate_utils.py 830-881 in double precision: every
    floating-point operation is the exact one followed by rounding ([rn]).
    Simplifications: one point (the arrays are treated element by element);
    signed zeros are not distinguished; the numbers are finite and far from
    overflow.  The C library's cos, sin and atan2 are parameters; np.sqrt is
    correctly rounded (IEEE 754). *)
From Coq Require Import ZArith Reals.
From Verif Require Import Spec_Coord Spec_Float.
Open Scope R_scope.

(** np.radians: x * (NPY_PI/180.0) *)
Definition radians_f (x : R) : R := rn (x * rn (rn PI / 180)).
(** np.degrees: x * (180.0/NPY_PI) *)
Definition degrees_f (x : R) : R := rn (x * rn (180 / rn PI)).

Section CoordF.
Variables fcos fsin : R -> R.
Variable fatan2 : R -> R -> R.

(** spherical_to_cartesian, lines 849-856 *)
Definition spherical_to_cartesian_f (radius theta phi : R) : vec3 :=
  let theta := radians_f theta in
  let phi := radians_f phi in
  V3 (rn (rn (radius * fcos phi) * fsin theta))
     (rn (rn (radius * fsin phi) * fsin theta))
     (rn (radius * fcos theta)).

(** cartesian_to_spherical, lines 877-881; x**2 is computed as x*x *)
Definition cartesian_to_spherical_f (v : vec3) : R * R * R :=
  let x := vx v in let y := vy v in let z := vz v in
  let radius := rn (sqrt (rn (rn (rn (x * x) + rn (y * y)) + rn (z * z)))) in
  let theta := fatan2 (rn (sqrt (rn (rn (x * x) + rn (y * y))))) z in
  let phi := fatan2 y x in
  (radius, degrees_f theta, degrees_f phi).
End CoordF.
