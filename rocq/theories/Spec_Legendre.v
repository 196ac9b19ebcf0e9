(** Independent specification of the Schmidt semi-normalised associated
    Legendre functions (Rodrigues' formula). *)
From Coq Require Import Reals.
From Coquelicot Require Import Coquelicot.
Open Scope R_scope.

(** Rodrigues: P_n(x) = 1/(2^n n!) d^n/dx^n (x^2-1)^n *)
Definition legendre (n : nat) (x : R) : R :=
  Derive_n (fun t => (t ^ 2 - 1) ^ n) n x / (2 ^ n * INR (fact n)).

(** Schmidt semi-normalised P_n^m(cos theta), theta in radians. *)
Definition schmidt (n m : nat) (theta : R) : R :=
  sqrt ((if Nat.eqb m 0 then 1 else 2) * INR (fact (n - m)) / INR (fact (n + m)))
  * sin theta ^ m * Derive_n (legendre n) m (cos theta).

(** Degrees to radians. *)
Definition rad (deg : R) : R := deg * PI / 180.
