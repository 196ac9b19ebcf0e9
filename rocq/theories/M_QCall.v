(** Model of [q_response_1D] as called by users (chaosmagpy/coordinate_utils.py
    1640-1896): choice of the kind, shape of the periods, and the four outputs.

    Simplifications: as in M_Rotate (kind 'quadratic') and M_QConst (kind
    'constant'); [sigma] and [radius] come as one list of pairs (S/m, km), so
    that a [sigma] of two axes (1723) does not occur; divisions by zero and
    the overflow that line 1875 catches are not modelled. *)
From Coq Require Import Reals List Bool Arith String.
From Coquelicot Require Import Complex.
From Verif Require Import M_Prelude M_ND M_Coord M_Rotate M_QConst.
Import ListNotations.
Open Scope R_scope.

(** C, rho_a, phi, Q *)
Definition outputs := (C * C * R * C)%type.

(** phi = 90 + 57.3*np.angle(C), 1836 and 1888 *)
Definition np_angle (z : C) : R := np_arctan2 (snd z) (fst z).
Definition phase (c : C) : R := 90 + 57.3 * np_angle c.

(** Lines 1839-1891 for one period.  [omega] is complex (1846), and so is
    rho_a (1887). *)
Definition response_quad (n : nat) (layers : list (R * R)) (period : R) : outputs :=
  let c := C_response (omega period) n (map (fun sr => (fst sr, 1000 * snd sr)) layers) in
  (c, Cmult (Cmult (RtoC mu) (omega period)) (RtoC (Cmod (Cmult c (RtoC 1000)) ^ 2)), phase c, Q_1D period layers n).

(** kind='quadratic', 1839-1891: without a layer radius[-1] fails; a single
    number as period makes tauk a NumPy scalar, whose item assignment (1875)
    fails as soon as there is a layer above the core; Y has one row then. *)
Definition q_response_quadratic (periods : nd R) (layers : list (R * R)) (n : nat) : result (list outputs) :=
  if (List.length layers =? 0)%nat then Err IndexError
  else if ((List.length (sh periods) =? 0) && (2 <=? List.length layers))%nat%bool then Err TypeError
  else Ok (map (response_quad n layers) (elems periods)).

(** q_response_1D, 1715-1896 *)
Definition q_response_1D (fuel : nat) (periods : nd R) (layers : list (R * R)) (n : nat) (kind : option string) : option (result (list outputs)) :=
  let kind := match kind with None => "quadratic"%string | Some k => k end in
  if (1 <? List.length (sh periods))%nat then Some (Err ValueError)
  else if String.eqb kind "constant" then
    match q_response_constant fuel periods layers n with
    | None => None
    | Some (Err e) => Some (Err e)
    | Some (Ok l) => Some (Ok (map (fun out => let '(c, rho, Q) := out in (c, RtoC rho, phase c, Q)) l))
    end
  else if String.eqb kind "quadratic" then Some (q_response_quadratic periods layers n)
  else Some (Err ValueError).
