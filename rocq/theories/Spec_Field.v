(** Specification: spherical harmonic potential of internal / external
    sources and the order of its Gauss coefficients. *)
From Coq Require Import Reals List String.
From Verif Require Import Spec_Legendre.
Import ListNotations.
Open Scope R_scope.

Inductive src := Internal | External.
(** Names of the sources in the API. *)
Definition src_name (s : src) : string := match s with Internal => "internal" | External => "external" end.

Definition Rsum (l : list R) : R := fold_right Rplus 0 l.

(** n = a, a+1, ..., b *)
Definition range_incl (a b : nat) : list nat := seq a (b + 1 - a).

(** The coefficients in the documented order
    g(n,0), g(n,1), h(n,1), g(n,2), ... for n = nmin..nmax, orders up to mmax. *)
Definition gauss_list (nmin nmax mmax : nat) (g h : nat -> nat -> R) : list R :=
  flat_map (fun n => g n O :: flat_map (fun m => [g n m; h n m]) (range_incl 1 (Nat.min n mmax)))
           (range_incl nmin nmax).

(** radial dependence *)
Definition radial (s : src) (a r : R) (n : nat) : R :=
  match s with Internal => (a / r) ^ (n + 1) | External => (r / a) ^ n end.

(** V(r, theta, phi), angles in radians, reference radius a *)
Definition potential (s : src) (a : R) (nmin nmax mmax : nat) (g h : nat -> nat -> R)
    (r th ph : R) : R :=
  a * Rsum (map (fun n => radial s a r n *
        Rsum (map (fun m => (g n m * cos (INR m * ph) + h n m * sin (INR m * ph)) * schmidt n m th)
                  (range_incl 0 (Nat.min n mmax))))
      (range_incl nmin nmax)).

(** Documented 0-based positions of g_n^m and h_n^m in a coefficient vector
    that starts at degree 1. *)
Definition g_position (n m : nat) : nat := if Nat.eqb m 0 then (n * n - 1)%nat else (n * n + 2 * m - 2)%nat.
Definition h_position (n m : nat) : nat := (n * n - 1 + 2 * m)%nat.

(** Sum over m of (g_n^m)^2 + (h_n^m)^2. *)
Definition degree_power (l : list R) (n : nat) : R :=
  Rsum (map (fun m => nth (g_position n m) l 0 ^ 2 + (if Nat.eqb m 0 then 0 else nth (h_position n m) l 0 ^ 2))
            (range_incl 0 n)).
(** Sum over m of g_n^m g'_n^m + h_n^m h'_n^m. *)
Definition degree_product (l l' : list R) (n : nat) : R :=
  Rsum (map (fun m => nth (g_position n m) l 0 * nth (g_position n m) l' 0 +
                      (if Nat.eqb m 0 then 0 else nth (h_position n m) l 0 * nth (h_position n m) l' 0))
            (range_incl 0 n)).
(** All coefficients of degree n vanish. *)
Definition degree_vanishes (l : list R) (n : nat) : Prop :=
  forall m, (m <= n)%nat -> nth (g_position n m) l 0 = 0 /\ (m <> O -> nth (h_position n m) l 0 = 0).
