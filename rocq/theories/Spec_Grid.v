(** Mean over the points of the Gauss-Legendre grid and mean square of an
    expansion in spherical harmonics. *)
From Coq Require Import Reals List Arith.
From Verif Require Import Spec_Legendre Spec_Field Spec_Analysis.
Import ListNotations.
Open Scope R_scope.

(** k nodes x with weights w (sum 2), 2k longitudes 0, 180/k, 2*180/k ... in
    degrees, the colatitudes are arccos x: weighted mean of f(theta, phi). *)
Definition grid_mean (k : nat) (x w : list R) (f : R -> R -> R) : R :=
  Rsum (map (fun i => nth i w 0 / 2 *
    (Rsum (map (fun j => f (acos (nth i x 0) * (180 / PI)) (INR j * (180 / INR k))) (seq 0 (2 * k))) / INR (2 * k)))
    (seq 0 k)).

(** Sum over the degrees 1 to N of the squares of the coefficients of degree n
    over 2n+1: the mean square of the expansion over the sphere. *)
Definition mean_square (N : nat) (l : list R) : R :=
  Rsum (map (fun n => degree_power l n / (2 * INR n + 1)) (range_incl 1 N)).

(** l + a l', for lists of one length *)
Definition add_scaled (a : R) (l l' : list R) : list R := map (fun i => nth i l 0 + a * nth i l' 0) (seq 0 (List.length l)).

(** Mean square difference on the grid of a function and the expansion with
    coefficients c of degrees 1 to nmax. *)
Definition fit_error (k : nat) (x w : list R) (nmax : nat) (func : R -> R -> R) (c : list R) : R :=
  grid_mean k x w (fun t p => (func t p - expand nmax (fun i => nth i c 0) t p) ^ 2).
