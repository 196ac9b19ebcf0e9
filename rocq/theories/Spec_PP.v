(** Piecewise polynomials, independently of the code.

    A model has breaks x_0, ..., x_m and for every interval i and component d a
    polynomial in t - x_i; [c j i d] is the coefficient of the power K-1-j
    (highest power first, as documented for the class). *)
From Coq Require Import Reals List Arith String.
Import ListNotations.
Open Scope R_scope.

(** Polynomial piece i of component d, as function of time. *)
Definition piece (x : list R) (K : nat) (c : nat -> nat -> nat -> R) (i d : nat) (t : R) : R :=
  fold_right Rplus 0 (map (fun k => c (K - 1 - k)%nat i d * (t - nth i x 0) ^ k) (seq 0 K)).

(** Time t belongs to interval i; the last interval is closed. *)
Definition in_interval (x : list R) (i : nat) (t : R) : Prop :=
  (i + 1 < List.length x)%nat /\ nth i x 0 <= t /\
  (t < nth (i + 1) x 0 \/ (i + 2 = List.length x)%nat /\ t = nth (i + 1) x 0).

Definition first_break (x : list R) : R := nth 0 x 0.
Definition last_break (x : list R) : R := nth (List.length x - 1) x 0.
Definition outside (x : list R) (t : R) : Prop := t < first_break x \/ last_break x < t.
(** Strictly increasing, at least two breaks. *)
Definition good_breaks (x : list R) : Prop :=
  (2 <= List.length x)%nat /\ forall i, (i + 1 < List.length x)%nat -> nth i x 0 < nth (i + 1) x 0.

(** The straight line through (e, f e) with slope l. *)
Definition tangent (f : R -> R) (e l t : R) : R := f e + l * (t - e).

(** End of the model period, its polynomial piece and the times beyond it, on
    the right or on the left. *)
Definition end_of (x : list R) (right : bool) : R := if right then last_break x else first_break x.
Definition end_piece (x : list R) (right : bool) : nat := if right then (List.length x - 2)%nat else 0%nat.
Definition beyond (x : list R) (right : bool) (t : R) : Prop := if right then last_break x < t else t < first_break x.

(** The pieces join continuously. *)
Definition continuous_at_breaks (x : list R) (K : nat) (c : nat -> nat -> nat -> R) (d : nat) : Prop :=
  forall i, (i + 2 < List.length x)%nat -> piece x K c i d (nth (i + 1) x 0) = piece x K c (i + 1) d (nth (i + 1) x 0).

(** D coefficients hold all degrees up to N0; the degree used for the argument
    nmax is at most that. *)
Definition used_degree (D : nat) (nmax : option nat) (N : nat) : Prop :=
  exists N0, (N0 * (N0 + 2) <= D)%nat /\ (D < (N0 + 1) * (N0 + 3))%nat /\ N = match nmax with None => N0 | Some n => Nat.min n N0 end.

(** The documented extrapolation methods. *)
Definition documented : list string := ["linear"; "quadratic"; "cubic"; "constant"; "spline"; "off"]%string.
