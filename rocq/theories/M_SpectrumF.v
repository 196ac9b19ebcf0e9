(** [power_spectrum] (chaosmagpy/model_utils.py 968-1071) in double precision,
    for one coefficient vector and one degree.  Every operation is the exact
    one followed by rounding; the order in which np.sum adds is left open
    ([fsum]); [pow] is the function r**k of the C library or of NumPy.
    Integers (up to 2^53) are exact, also in the quotient of two of them; no
    overflow. *)
From Coq Require Import ZArith Reals List String.
From Verif Require Import M_Prelude M_Spectrum Spec_Float Spec_Rounding.
Import ListNotations.
Open Scope R_scope.

(** 1025-1028 and r**k in 1043, 1046: r is the int 1 or r_surf/radius. *)
Definition power_f (pow : R -> Z -> R) (a : R) (radius : option R) (k : Z) : R :=
  match radius with None => 1 | Some rad => pow (rn (a / rad)) k end.

(** 1041-1052 *)
Definition factor_f (pw : Z -> R) (source : string) (n : nat) : result R :=
  if (source =? "internal")%string then Ok (rn (INR (n + 1) * pw (2 * Z.of_nat n + 4)%Z))
  else if (source =? "external")%string then Ok (rn (INR n * pw (- (2 * Z.of_nat n - 2))%Z))
  else if (source =? "toroidal")%string then Ok (rn (INR (n * (n + 1)) / INR (2 * n + 1)))
  else Err ValueError.

(** 1058-1069: w is a possible value of W_n[n-1]. *)
Definition spectrum_f (pow : R -> Z -> R) (a : R) (radius : option R) (source : string) (l : list R) (n : nat) (w : R) : Prop :=
  exists f s, factor_f (power_f pow a radius) source n = Ok f /\
    (let mn := (n ^ 2 - 1)%nat in
     let mx := (mn + (2 * n + 1))%nat in
     fsum (map (fun g => rn (g * g)) (slice mn mx l)) s) /\
    w = rn (f * s).
