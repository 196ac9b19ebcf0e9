(** chaosmagpy/coordinate_utils.py 1591-1637 in double precision: every
    floating-point operation is the exact one followed by rounding ([rn]).
    Signed zeros are not distinguished; the numbers are finite and far from
    overflow. *)
From Coq Require Import ZArith Reals.
From Flocq Require Import Core.
From Verif Require Import Spec_Float.
Open Scope R_scope.

(** C's fmod, which is exact: the remainder of the division rounded towards
    zero; it has the sign of a. *)
Definition fmod (a b : R) : R := a - IZR (Ztrunc (a / b)) * b.

(** NumPy's and Python's a % b for b > 0 (npy_divmod / float_rem):
    mod = fmod(a, b); if mod and (b < 0) != (mod < 0): mod += b. *)
Definition np_mod (a b : R) : R :=
  let m := fmod a b in if Rlt_bool m 0 then rn (m + b) else m.

(** coordinate_utils.py 1609-1615: phi % 360., then phi - 360. where > 180. *)
Definition center_azimuth_f (phi : R) : R :=
  let phi := np_mod phi 360 in
  if Rlt_bool 180 phi then rn (phi - 360) else phi.

(** coordinate_utils.py 1637: np.remainder(time + phi/360, 1)*24 *)
Definition local_time_f (time phi : R) : R :=
  rn (np_mod (rn (time + rn (phi / 360))) 1 * 24).
