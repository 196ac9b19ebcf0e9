(** The magnetic field as a sum over the contributions of the single
    coefficients, for the error bounds of C131. *)
From Coq Require Import ZArith Reals List.
From Verif Require Import Spec_Field Spec_Rounding.
Import ListNotations.
Open Scope R_scope.

(** f n m for n = nmin..nmax, m = m0..min(n, mmax), in this order *)
Definition contributions (m0 nmin nmax mmax : nat) (f : nat -> nat -> list R) : list R :=
  flat_map (fun n => flat_map (f n) (range_incl m0 (Nat.min n mmax))) (range_incl nmin nmax).

(** The radial factor of the field, (a/r)^(n+2) or (r/a)^(n-1), and the factor
    of the radial derivative *)
Definition rho (s : src) (a r : R) (n : nat) : R := match s with Internal => (a / r) ^ (n + 2) | External => (r / a) ^ (n - 1) end.
Definition weight (s : src) (n : nat) : R := match s with Internal => INR (n + 1) | External => - INR n end.

(** The contributions of g n m and h n m with the values [A n m] of the Legendre
    functions (or their derivatives) and [cs], [sn] of cosine and sine *)
Definition cos_sin (g h : nat -> nat -> R) (cs sn : nat -> R) (A : nat -> nat -> R) (n m : nat) : list R :=
  [A n m * (g n m * cs m); A n m * (h n m * sn m)].
Definition sin_cos (g h : nat -> nat -> R) (cs sn : nat -> R) (A : nat -> nat -> R) (n m : nat) : list R :=
  [A n m * (g n m * sn m); A n m * - (h n m * cs m)].

(** No product of the computation is so small that it loses precision: numbers
    are zero or at least 2^-200 = 6e-61 (2^-300 for the Legendre functions);
    off the poles the sine P[1, 1] of the colatitude is in (0, 1], at the poles
    its cosine P[1, 0] is 1 or -1. *)
Definition sizes_ok (s : src) (a : R) (nmin nmax mmax : nat) (pole : bool) (P : nat -> nat -> R) (g h : nat -> nat -> R) (cs sn : nat -> R) (radius : R) : Prop :=
  powerRZ 2 (-200) <= radius / a /\
  (forall n, (nmin <= n <= nmax)%nat -> powerRZ 2 (-200) <= rho s a radius n) /\
  (forall n m, (nmin <= n <= nmax)%nat -> (m <= Nat.min n mmax)%nat -> large (-300) (P n m) /\ large (-300) (P m (n + 1)%nat)) /\
  (forall n m, (nmin <= n <= nmax)%nat -> (m <= Nat.min n mmax)%nat -> large (-200) (g n m) /\ (m <> 0%nat -> large (-200) (h n m))) /\
  (forall m, (m <= Nat.min nmax mmax)%nat -> large (-200) (cs m) /\ large (-200) (sn m)) /\
  (if pole then Rabs (P 1%nat 0%nat) = 1 else 0 < P 1%nat 1%nat <= 1).

(** By how much |x'y'q| can exceed |x| if x' is x up to an error of e, |x| <= b,
    y' is y up to an error of eT, |y| <= 1, and q stands for k roundings *)
Definition excess (k : nat) (eT b e : R) : R := (b + e) * (1 + eT) * (1 + 1.2e-16 * INR k) - b.

(** Sum over all degrees and orders *)
Definition over_nm (m0 nmin nmax mmax : nat) (f : nat -> nat -> R) : R :=
  Rsum (map (fun n => Rsum (map (f n) (range_incl m0 (Nat.min n mmax)))) (range_incl nmin nmax)).
