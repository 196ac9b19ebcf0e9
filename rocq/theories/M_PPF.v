(** Evaluation of the coefficients inside the model period in double precision
    (chaosmagpy/chaos.py 147-213, scipy.interpolate.PPoly).  Every operation is
    the exact one followed by rounding (no fused multiply-add); the interval is
    found by comparisons, which are exact ([interval] of M_PP). *)
From Coq Require Import Reals List Arith.
From Verif Require Import M_Prelude M_PP Spec_Float.
Import ListNotations.
Open Scope R_scope.

(** SciPy's evaluate_poly1 with dx = 0 for the coefficients [cs] (constant term
    first): res += c*z; z *= s. *)
Fixpoint eval_poly_f (cs : list R) (s z res : R) : R :=
  match cs with
  | [] => res
  | c :: cs' => eval_poly_f cs' s (rn (z * s)) (rn (res + rn (c * z)))
  end.

(** PP.derivative(nu): coefficient of the power j, one row of zeros if none is
    left; PP(t): s = t - x[i]; chaos.py 211: times 365.25**deriv, [scale]. *)
Definition deriv_coeffs_f (K : nat) (row : nat -> R) (nu : nat) : list R :=
  if (K <=? nu)%nat then (if (nu =? 0)%nat then [] else [0])
  else map (fun j => rn (row (K - nu - 1 - j)%nat * INR (poch (j + 1) nu))) (seq 0 (K - nu)).
Definition value_f (scale : R) (x : list R) (K : nat) (c : nat -> nat -> nat -> R) (nu : nat) (t : R) (d : nat) : option R :=
  match interval (mkpp x K c true) t with
  | None => None
  | Some i => Some (rn (eval_poly_f (deriv_coeffs_f K (fun r => c r i d) nu) (rn (t - nth i x 0)) 1 0 * scale))
  end.
