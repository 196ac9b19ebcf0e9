(** Least-squares fit of splines, independently of the code. *)
From Coq Require Import Reals List Arith ZArith.
From Verif Require Import M_Prelude M_Spectrum Spec_PP Spec_Spline M_SHCModel.
Import ListNotations.
Open Scope R_scope.

(** Sum of the squared differences between the data (x_i, y i) and the spline
    with coefficients c of degree k on the knots t *)
Definition misfit (x : list R) (y : nat -> R) (t : list R) (k : nat) (c : nat -> R) : R :=
  fold_right Rplus 0 (map (fun i => (y i - spline t k c (List.length t - k - 1) (nth i x 0)) ^ 2) (seq 0 (List.length x))).

(** Only the zero spline vanishes at all the sites. *)
Definition determined (x t : list R) (k : nat) : Prop :=
  forall c, (forall i, (i < List.length x)%nat -> spline t k c (List.length t - k - 1) (nth i x 0) = 0) ->
  forall j, (j < List.length t - k - 1)%nat -> c j = 0.

(** Contract for make_lsq_spline on increasing sites, inside the breaks, with
    knots that repeat the first and last break k times: if the data determine
    the spline it returns coefficients with the least misfit. *)
Definition least_squares (fit : lsq_fit) : Prop :=
  forall x dim y breaks t k, good_breaks breaks -> augment_breaks breaks (Z.of_nat (k + 1)) = Ok t ->
    (forall i, (i + 1 < List.length x)%nat -> nth i x 0 < nth (i + 1) x 0) ->
    (forall i, (i < List.length x)%nat -> first_break breaks <= nth i x 0 <= last_break breaks) ->
    determined x t k ->
    exists c, fit x dim y t k = Ok c /\ forall d, (d < dim)%nat -> forall c',
      misfit x (fun i => y i d) t k (fun j => c j d) <= misfit x (fun i => y i d) t k c'.
