(** chaosmagpy/coordinate_utils.py 140-160 (_dipole_to_unit) in double
    precision.
    Simplifications: one dipole; no overflow; signed zeros are not
    distinguished; the library's cos and sin are parameters; np.linalg.norm adds
    the three rounded squares in any order and association ([fsum]), so the
    result is a relation. *)
From Coq Require Import ZArith Reals List.
From Verif Require Import Spec_Coord Spec_Float Spec_Rounding M_CoordF.
Import ListNotations.
Open Scope R_scope.

(** lines 140-144 and 154-160: -vector / np.linalg.norm(vector) with
    vector = [g11, h11, g10] *)
Definition unit_of_coeffs_f (g10 g11 h11 : R) (v : vec3) : Prop :=
  exists s, fsum [rn (g11 * g11); rn (h11 * h11); rn (g10 * g10)] s /\
    let n := rn (sqrt s) in
    v = V3 (rn (- g11 / n)) (rn (- h11 / n)) (rn (- g10 / n)).

Section DipoleF.
Variables fcos fsin : R -> R.
(** lines 146-152 *)
Definition unit_of_pole_f (theta phi : R) : vec3 :=
  let theta := radians_f theta in
  let phi := radians_f phi in
  V3 (rn (fsin theta * fcos phi)) (rn (fsin theta * fsin phi)) (fcos theta).
End DipoleF.
