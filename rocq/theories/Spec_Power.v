(** Specification: mean over the unit sphere. *)
From Coq Require Import Reals List.
From Coquelicot Require Import Coquelicot.
From Verif Require Import Spec_Legendre Spec_Field.
Open Scope R_scope.

(** v is the mean of f over the sphere, 1/(4 pi) times the integral of f over
    longitude and colatitude (radians) with surface element sin(theta). *)
Definition sphere_mean (f : R -> R -> R) (v : R) : Prop :=
  exists G : R -> R,
    (forall t, 0 < t < PI -> is_RInt (fun p => f t p) 0 (2 * PI) (G t)) /\
    is_RInt (fun t => G t * sin t) 0 PI (4 * PI * v).

(** radians to degrees *)
Definition deg (x : R) : R := x * 180 / PI.

(** The coefficients of degree n. *)
Definition degree_block (l : list R) (n : nat) : list R := firstn (2 * n + 1) (skipn (n * n - 1) l).

(** Scalar T(theta, phi) of a toroidal field: T = sum over n and m of
    (T_n^{m,c} cos m phi + T_n^{m,s} sin m phi) P_n^m, coefficients in the
    order of Gauss coefficients.  The field is
    B_theta = 1/sin(theta) dT/dphi, B_phi = - dT/dtheta. *)
Definition toroidal_scalar (l : list R) (N : nat) (t p : R) : R :=
  Rsum (map (fun n => Rsum (map (fun m => (nth (g_position n m) l 0 * cos (INR m * p) + nth (h_position n m) l 0 * sin (INR m * p)) * schmidt n m t)
    (range_incl 0 n))) (range_incl 1 N)).

