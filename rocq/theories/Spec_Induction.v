(** Electromagnetic induction in a layered sphere, independent of the code.

    A poloidal field of degree n varying as exp(i w t) is described by its
    radial function u(r).  In a conductor with conductivity sigma(r) it obeys
       r^2 u'' + 2 r u' = (n (n+1) + i w mu0 sigma(r) r^2) u .
    Here sigma(r) = sigma_k (r_k / r)^2 in the layer with top radius r_k, so
    that sigma(r) r^2 is the constant sigma_k r_k^2.  u and u' are continuous
    at the interfaces and u is bounded at the centre. *)
From Coq Require Import Reals List.
From Coquelicot Require Import Coquelicot.
Import ListNotations.
Open Scope R_scope.

(** Complex-valued function of a real variable with derivative [l] at [x] *)
Definition Cder (u : R -> C) (x : R) (l : C) : Prop :=
  is_derive (fun r => fst (u r)) x (fst l) /\ is_derive (fun r => snd (u r)) x (snd l).

(** [u], [du], [ddu] solve the equation at [x] *)
Definition induction_at (w mu0 : R) (n : nat) (sigma_r2 : R) (u du ddu : R -> C) (x : R) : Prop :=
  Cder u x (du x) /\ Cder du x (ddu x) /\
  Cplus (Cmult (RtoC (x ^ 2)) (ddu x)) (Cmult (RtoC (2 * x)) (du x)) =
  Cmult (INR n * (INR n + 1), w * mu0 * sigma_r2) (u x).

(** [field_in layers v dv]: value and radial derivative, at the top of the
    layers (sigma, top radius in metres; surface first), of a field inside. *)
Inductive field_in (w mu0 : R) (n : nat) : list (R * R) -> C -> C -> Prop :=
| field_core s r u du ddu :
    (forall x, 0 < x <= r -> induction_at w mu0 n (s * r ^ 2) u du ddu x) ->
    (exists M d, 0 < d /\ forall x, 0 < x < d -> Cmod (u x) <= M) ->
    field_in w mu0 n [(s, r)] (u r) (du r)
| field_layer s r s1 r1 l u du ddu v dv :
    field_in w mu0 n ((s1, r1) :: l) v dv ->
    (forall x, r1 <= x <= r -> induction_at w mu0 n (s * r ^ 2) u du ddu x) ->
    u r1 = v -> du r1 = dv ->
    field_in w mu0 n ((s, r) :: (s1, r1) :: l) (u r) (du r).

(** Outside, the potential a (e (r/a)^n + i (a/r)^(n+1)) Y_n: [e] external,
    [i] internal (induced).  Continuity of the radial and the horizontal
    field at r = a. *)
Definition matches (a : R) (n : nat) (e i v dv : C) : Prop :=
  Cminus (Cmult (RtoC (INR n)) e) (Cmult (RtoC (INR n + 1)) i) = Cmult (RtoC (INR n * (INR n + 1) / a)) v /\
  Cplus e i = Cplus (Cmult (RtoC (/ a)) v) dv.
