(** Model of the file written by [rotate_gauss_fft] (chaosmagpy/
    coordinate_utils.py 261-462, [save_to]: 369-370 and 451-460) and of the
    configured path under which CHAOS reads it (chaosmagpy/chaos.py 1580-1581
    and 1787-1788).

    Simplifications: [save_to] is a string; the directory exists and can be
    written; a file that np.savez did not write is not an npz file; what
    np.savez stores, np.load returns, a bool as a zero-dimensional array; the
    printed messages are dropped. *)
From Coq Require Import Reals List Arith ZArith String Ascii.
From Coquelicot Require Import Complex.
From Verif Require Import M_Prelude M_ND Spec_Coord M_Coord M_Rotate M_Analysis M_Spectrum M_Model M_Chaos.
Import ListNotations.
Open Scope R_scope.

(** The arrays of the file, 453-459; [w_file]: those that CHAOS uses. *)
Record written := mkwritten { w_file : rotfile; w_step : R; w_N : nat; w_filter : nat; w_reference : string; w_start : R }.

(** The npz files by their names *)
Definition disk := string -> option written.
Definition put (D : disk) (name : string) (w : written) : disk := fun p => if String.eqb p name then Some w else D p.

(** np.savez (external): the name is extended unless it ends with '.npz'. *)
Definition npz_name (s : string) : string :=
  let n := String.length s in
  if andb (4 <=? n)%nat (String.eqb (substring (n - 4) 4 s) ".npz") then s else (s ++ ".npz")%string.

(** [scaled] as it comes back from np.load, 372-373 and 457 *)
Definition saved_flag (f : flag) : flag := FlagArray (truthy f).

(** basicConfig['params.dipole'], 458 *)
Definition dipole_list (cfg : R * R * R) : list R := let '(g10, g11, h11) := cfg in [g10; g11; h11].

(** rotate_gauss_fft with the files, 261-462: what it returns and the files
    afterwards.  [if save_to:]: None and the empty string write nothing. *)
Definition rotate_gauss_fft_to (oob : R) (leggauss : nat -> list R * list R) (argsort : list R -> list nat)
    (cfg : R * R * R) (file : list (R * R)) (nmax kmax : nat) (qfunc : option (nat -> nat -> C))
    (step : option R) (N filter : option nat) (save_to : option string) (reference : option string)
    (scaled : flag) (start_date : option R) (D : disk) : result ((nd R * nd C * nd R * nd C) * disk) :=
  bind (rotate_gauss_fft oob leggauss argsort cfg file nmax kmax qfunc step N filter reference scaled start_date) (fun out =>
  let '(frequency, spectrum, frequency_ind, spectrum_ind) := out in
  let N := match N with None => Z.to_nat 70128 | Some N => N end in
  let w := mkwritten (mkrot frequency spectrum frequency_ind spectrum_ind (saved_flag scaled) (dipole_list cfg))
             (match step with None => 1 | Some s => s end) N
             (match filter with None => half N | Some f => f end)
             (match reference with None => "gsm"%string | Some r => r end)
             (match start_date with None => 0 | Some d => d end) in
  Ok (out, match save_to with
           | None => D
           | Some s => if String.eqb s "" then D else put D (npz_name s) w
           end)).

(** CHAOS with the configured paths: the files under exactly these names, and
    the configured dipole *)
Definition env_of (D : disk) (gsm sm : string) (rc : option rctable) (cfg : R * R * R) (r_surf oob : R) : env :=
  mkenv (option_map w_file (D gsm)) (option_map w_file (D sm)) rc (dipole_list cfg) r_surf oob.
