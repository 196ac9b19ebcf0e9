(** Theorems about [legendre_poly] (C20-C23). [oob] is the value an
    out-of-range read of the table of square roots would give: the statements
    hold whatever it is. *)
From Coq Require Import Reals List Arith Lia Lra.
From Coquelicot Require Import Coquelicot.
From Verif Require Import M_Prelude Spec_Legendre M_Legendre P_Legendre P_Legendre2 P_LegendreTab P_LegendreProps.
Import ListNotations.
Open Scope R_scope.

Theorem C20_entries_are_schmidt_functions : forall oob nmax theta,
  (1 <= nmax)%nat -> 0 <= theta <= 180 ->
  exists P, legendre_poly oob nmax theta = Ok P /\
  forall n m, (m <= n <= nmax)%nat -> P n m = schmidt n m (rad theta).
Proof. exact entries_are_schmidt. Qed.

Theorem C20_degree_zero_raises : forall oob theta, legendre_poly oob 0 theta = Err IndexError.
Proof. exact degree_zero_raises. Qed.

Theorem C21_upper_entries_are_theta_derivatives : forall oob nmax theta,
  (1 <= nmax)%nat -> 0 <= theta <= 180 ->
  exists P, legendre_poly oob nmax theta = Ok P /\
  forall n m, (m <= n <= nmax)%nat -> is_derive (schmidt n m) (rad theta) (P m (n + 1)%nat).
Proof. exact entries_are_derivatives. Qed.

(** The derivative entry is the derivative of what the function itself
    returns, at every colatitude strictly between the poles. *)
Theorem C21_derivative_of_the_returned_table : forall oob nmax theta P,
  0 < theta < 180 -> legendre_poly oob nmax theta = Ok P ->
  forall n m, (m <= n <= nmax)%nat ->
  is_derive (fun t => match legendre_poly oob nmax t with Ok T => T n m | Err _ => 0 end)
    theta (P m (n + 1)%nat * (PI / 180)).
Proof. exact derivative_of_table. Qed.

Theorem C22_squares_sum_to_one : forall oob nmax theta P,
  0 <= theta <= 180 -> legendre_poly oob nmax theta = Ok P ->
  forall n, (n <= nmax)%nat -> fold_right Rplus 0 (map (fun m => P n m ^ 2) (seq 0 (n + 1))) = 1.
Proof. exact squares_sum_to_one. Qed.

Theorem C22_entries_bounded : forall oob nmax theta P,
  0 <= theta <= 180 -> legendre_poly oob nmax theta = Ok P ->
  forall n m, (m <= n <= nmax)%nat -> -1 <= P n m <= 1.
Proof. exact entries_bounded. Qed.

Theorem C23_equator_reflection : forall oob nmax theta P P',
  0 <= theta <= 180 ->
  legendre_poly oob nmax theta = Ok P -> legendre_poly oob nmax (180 - theta) = Ok P' ->
  forall n m, (m <= n <= nmax)%nat -> P' n m = (-1) ^ (n + m) * P n m.
Proof. exact equator_reflection. Qed.

Theorem C23_north_pole : forall oob nmax P,
  legendre_poly oob nmax 0 = Ok P ->
  forall n m, (m <= n <= nmax)%nat -> P n m = if (m =? 0)%nat then 1 else 0.
Proof. exact north_pole. Qed.

Theorem C23_south_pole : forall oob nmax P,
  legendre_poly oob nmax 180 = Ok P ->
  forall n m, (m <= n <= nmax)%nat -> P n m = if (m =? 0)%nat then (-1) ^ n else 0.
Proof. exact south_pole. Qed.

(** The specification is the usual one: P_1^1(cos t) = sin t, P_1^0 = cos t,
    P_2^0 = (3 cos^2 t - 1)/2, P_2^1 = sqrt 3 sin t cos t. *)
Example C20_schmidt_1_0 t : schmidt 1 0 t = cos t. Proof. exact (ex_schmidt_1_0 t). Qed.
Example C20_schmidt_1_1 t : schmidt 1 1 t = sin t. Proof. exact (ex_schmidt_1_1 t). Qed.
Example C20_schmidt_2_0 t : schmidt 2 0 t = (3 * cos t ^ 2 - 1) / 2. Proof. exact (ex_schmidt_2_0 t). Qed.
Example C20_schmidt_2_1 t : schmidt 2 1 t = sqrt 3 * sin t * cos t. Proof. exact (ex_schmidt_2_1 t). Qed.

(** Hypotheses are satisfiable. *)
Example C20_C21_C22_apply : exists P, legendre_poly 0 20 37.5 = Ok P. Proof. exact ex_table. Qed.

Print Assumptions C20_entries_are_schmidt_functions.
Print Assumptions C20_degree_zero_raises.
Print Assumptions C21_upper_entries_are_theta_derivatives.
Print Assumptions C21_derivative_of_the_returned_table.
Print Assumptions C22_squares_sum_to_one.
Print Assumptions C22_entries_bounded.
Print Assumptions C23_equator_reflection.
Print Assumptions C23_north_pole.
Print Assumptions C23_south_pole.
