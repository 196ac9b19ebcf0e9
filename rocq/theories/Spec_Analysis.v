(** What spherical harmonic analysis and the rotation of Gauss coefficients
    mean, independent of the code. *)
From Coq Require Import Reals List Arith.
From Coquelicot Require Import Coquelicot.
From Verif Require Import Spec_Legendre Spec_Field Spec_Coord.
Import ListNotations.
Open Scope R_scope.

(** The function on the sphere (angles in degrees) with Schmidt
    semi-normalised coefficients g, h of degrees nmin to nmax. *)
Definition surface (nmin nmax : nat) (g h : nat -> nat -> R) (theta phi : R) : R :=
  Rsum (map (fun n =>
    Rsum (map (fun m => (g n m * cos (INR m * rad phi) + h n m * sin (INR m * rad phi)) * schmidt n m (rad theta))
              (range_incl 0 n)))
    (range_incl nmin nmax)).

(** The function of degrees 1 to N whose coefficients are numbered in the
    documented order (g_1^0, g_1^1, h_1^1, g_2^0, ...). *)
Definition expand (N : nat) (c : nat -> R) (theta phi : R) : R :=
  surface 1 N (fun n m => c (g_position n m)) (fun n m => c (h_position n m)) theta phi.

(** Gauss-Legendre rule with n nodes: it integrates every polynomial of
    degree up to 2n-1 exactly over [-1, 1]. *)
Definition polynomial (d : nat) (c : nat -> R) (x : R) : R := sum_f_R0 (fun i => c i * x ^ i) d.

Definition gauss_rule (n : nat) (x w : list R) : Prop :=
  List.length x = n /\ List.length w = n /\ List.Forall (fun t => -1 < t < 1) x /\
  forall d c, (d <= 2 * n - 1)%nat ->
    Rsum (map (fun tw => polynomial d c (fst tw) * snd tw) (combine x w)) = RInt (polynomial d c) (-1) 1.

(** A function that returns such a rule (nodes, weights) for every number of
    nodes. *)
Definition gauss_legendre (leggauss : nat -> list R * list R) : Prop :=
  forall n, (1 <= n)%nat -> gauss_rule n (fst (leggauss n)) (snd (leggauss n)).

(** The coefficients of degree at most D, the others replaced by zero. *)
Definition up_to (D : nat) (a : nat -> nat -> R) (n m : nat) : R := if (n <=? D)%nat then a n m else 0.

(** Matrix times vector. *)
Definition times (matrix : nat -> nat -> R) (v : list R) (row : nat) : R :=
  Rsum (map (fun col => matrix row col * nth col v 0) (seq 0 (List.length v))).

(** A matrix given by its columns: shape and entries. *)
Definition is_matrix (rows cols : nat) (columns : list (list R)) : Prop :=
  List.length columns = cols /\ List.Forall (fun c => List.length c = rows) columns.

Definition delta (i j : nat) : R := if Nat.eqb i j then 1 else 0.

(** Position i holds a coefficient of degree n. *)
Definition of_degree (n i : nat) : Prop := (n * n - 1 <= i < (n + 1) * (n + 1) - 1)%nat.

(** ** Axes: three vectors with geographic components *)
Definition right_handed_axes (b : vec3 * vec3 * vec3) : Prop :=
  let '(e1, e2, e3) := b in right_handed_orthonormal e1 e2 e3.

(** theta, phi (geographic) and theta', phi' (with respect to the axes b) are
    the same direction. *)
Definition same_direction (b : vec3 * vec3 * vec3) (theta phi theta' phi' : R) : Prop :=
  let '(e1, e2, e3) := b in direction theta' phi' = resolve e1 e2 e3 (direction theta phi).

Definition geographic_axes : vec3 * vec3 * vec3 := (V3 1 0 0, V3 0 1 0, V3 0 0 1).

(** The geographic axes, seen from the axes b. *)
Definition inverse_axes (b : vec3 * vec3 * vec3) : vec3 * vec3 * vec3 :=
  let '(e1, e2, e3) := b in
  (V3 (vx e1) (vx e2) (vx e3), V3 (vy e1) (vy e2) (vy e3), V3 (vz e1) (vz e2) (vz e3)).

(** Geographic components of axes b' given by their components along b. *)
Definition axes_along (b b' : vec3 * vec3 * vec3) : vec3 * vec3 * vec3 :=
  let '(e1, e2, e3) := b in
  let along w := vadd (vadd (vscale (vx w) e1) (vscale (vy w) e2)) (vscale (vz w) e3) in
  let '(f1, f2, f3) := b' in (along f1, along f2, along f3).
