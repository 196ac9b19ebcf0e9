(** What a one-sided Fourier spectrum means, independent of the code. *)
From Coq Require Import Reals List.
From Coquelicot Require Import Complex.
From Verif Require Import Spec_Field.
Import ListNotations.
Open Scope R_scope.

(** The real signal with complex amplitude [z] and frequency [f] (per day):
    the real part of z * exp(2 pi i f t). *)
Definition oscillation (f : R) (z : C) (t : R) : R :=
  fst z * cos (2 * PI * f * t) - snd z * sin (2 * PI * f * t).

(** A real signal given by the non-negative half of its spectrum: every
    non-zero frequency also stands for its negative. *)
Definition one_sided (f : R) (z : C) (t : R) : R :=
  (if Req_EM_T f 0 then 1 else 2) * oscillation f z t.

(** The discrete Fourier coefficient (1/N) sum_n x_n exp(-2 pi i k n / N). *)
Definition dft (N : nat) (x : nat -> R) (k : nat) : C :=
  (Rsum (map (fun n => x n * cos (2 * PI * INR k * INR n / INR N)) (seq 0 N)) / INR N,
   - Rsum (map (fun n => x n * sin (2 * PI * INR k * INR n / INR N)) (seq 0 N)) / INR N).

(** The mean of x_n * (-1)^n: the component at the highest frequency that N
    samples can resolve, N even. *)
Definition alternating_mean (N : nat) (x : nat -> R) : R :=
  Rsum (map (fun n => x n * (-1) ^ n) (seq 0 N)) / INR N.

(** A conductivity profile: (depth in km, conductivity in S/m) of the top of
    each layer, from the surface down to the top of the innermost layer. *)
Definition profile (earth_radius : R) (file : list (R * R)) : Prop :=
  file <> [] /\
  (forall d s, In (d, s) file -> 0 <= d < earth_radius /\ 0 <= s) /\
  (forall i j, (i < j < List.length file)%nat -> fst (nth i file (0, 0)) < fst (nth j file (0, 0))).
