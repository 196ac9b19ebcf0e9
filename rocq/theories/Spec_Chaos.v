(** What the CHAOS model adds to spherical harmonic models, independent of the
    code: rotation matrices given by Fourier spectra, baseline corrections,
    linear interpolation in a table, sums of sources. *)
From Coq Require Import Reals List Arith String.
From Coquelicot Require Import Complex.
From Verif Require Import M_ND Spec_Field Spec_PP Spec_Rotate.
Import ListNotations.
Open Scope R_scope.

(** Element (r, c) at time t of the matrix with [k] oscillations per element. *)
Definition rotation (k : nat) (freq : nd R) (spec : nd C) (t : R) (r c : nat) : R :=
  Rsum (map (fun j => oscillation (at_ freq [j; r; c]) (at_ spec [j; r; c]) t) (seq 0 k)).

(** The piece of a piecewise polynomial used at time t when the first and the
    last piece are continued beyond the ends. *)
Definition used_piece (x : list R) (p : nat) (t : R) : Prop :=
  in_interval x p t \/ t < first_break x /\ p = 0%nat \/ last_break x < t /\ p = (List.length x - 2)%nat.

(** [v] is the value at [t] of the piecewise linear function through the rows
    (time, value): between two rows with no other row between them. *)
Definition interpolates (rows : list (R * R)) (t v : R) : Prop :=
  exists p q, In p rows /\ In q rows /\ fst p <= t <= fst q /\
    (forall r, In r rows -> ~ (fst p < fst r < fst q)) /\
    (fst p = fst q -> v = snd p) /\
    (fst p < fst q -> v = snd p + (snd q - snd p) * ((t - fst p) / (fst q - fst p))).

(** [t] lies between the first and the last time of the rows. *)
Definition covered (rows : list (R * R)) (t : R) : Prop :=
  exists p q, In p rows /\ In q rows /\ fst p <= t <= fst q.

(** No two rows have the same time. *)
Definition distinct_times (rows : list (R * R)) : Prop := NoDup (map fst rows).

(** Sum of values that may be NaN. *)
Definition nan_sum (l : list (option R)) : option R :=
  fold_right (fun u v => match u, v with Some x, Some y => Some (x + y) | _, _ => None end) (Some 0) l.

(** The four sources of the model. *)
Definition all_sources : list string := ["tdep"; "static"; "gsm"; "sm"]%string.
