(** Model of [rotate_gauss] (465-618), [sh_analysis] (621-726) and
    [rotate_gauss_fft] (261-462) in chaosmagpy/coordinate_utils.py.

    Simplifications: exact arithmetic; np.polynomial.legendre.leggauss is a
    parameter; np.fft.fft is modelled by what it computes ([fft_over_N] in
    M_Rotate); [func] is applied element by element; the arrays of base
    vectors are a list of triples, one for each time (so the assertion that
    their shapes agree, line 501, always holds). *)
From Coq Require Import Reals List Arith ZArith String.
From Coquelicot Require Import Complex.
From Verif Require Import M_Prelude M_ND Spec_Coord M_Coord M_Legendre M_Rotate.
Import ListNotations.
Open Scope R_scope.

Section Analysis.
Variable oob : R. (* see M_Legendre *)
(** np.polynomial.legendre.leggauss: nodes and weights *)
Variable leggauss : nat -> list R * list R.

(** phi = np.arange(n_phi) * np.degrees(2*np.pi)/n_phi, lines 514 and 691 *)
Definition grid_phi (n_phi j : nat) : R := INR j * np_degrees (2 * PI) / INR n_phi.

(** theta = np.degrees(np.arccos(x)), lines 513 and 690 *)
Definition grid_theta (x : list R) : list R := map (fun t => np_degrees (acos t)) x.

(** np.sum(fft[m]*Pnm[n, m]*weights) over the colatitudes, lines 562, 568-569,
    713, 720: one entry of [nodes] for each colatitude, holding its Legendre
    functions, its weight and the Fourier coefficients of its row. *)
Definition project (nodes : list (tab * R * (nat -> C))) (n m : nat) : C :=
  Csum (map (fun e => let '(P, w, fft) := e in Cmult (fft m) (RtoC (P n m * w))) nodes).

(** sh_analysis, lines 681-726 *)
Definition sh_analysis (func : R -> R -> R) (nmax : nat) (kmax : option nat) : result (list R) :=
  let kmax := match kmax with None => nmax | Some k => k end in
  let n_theta := (Nat.max nmax kmax + 1)%nat in
  let n_phi := (2 * n_theta)%nat in
  let '(x, weights) := leggauss n_theta in
  let theta := grid_theta x in
  bind (mapM (legendre_poly oob nmax) theta) (fun Pnm =>
  let fft := map (fun t => fft_over_N n_phi (fun j => func t (grid_phi n_phi j))) theta in
  let nodes := combine (combine Pnm weights) fft in
  let c n m := Cdiv (project nodes n m) (RtoC (2 / (2 * INR n + 1))) in
  Ok (flat_map (fun n => fst (c n 0%nat)
        :: flat_map (fun m => [fst (c n m); - snd (c n m)]) (seq 1 n)) (seq 1 nmax))).

(** The rows of one column of the matrix: SH analysis of one real function
    given by its Fourier coefficients, lines 555-572 and 582-612 *)
Definition column (nmax : nat) (nodes : list (tab * R * (nat -> C))) : list R :=
  flat_map (fun n =>
    let norm m := if (m =? 0)%nat then 2 / (2 * INR n + 1) else 4 / (2 * INR n + 1) in
    fst (Cdiv (project nodes n 0) (RtoC (norm 0%nat)))
    :: flat_map (fun m =>
         let coeff := Cdiv (Cmult (RtoC 2) (project nodes n m)) (RtoC (norm m)) in
         [fst coeff; - snd coeff]) (seq 1 n)) (seq 1 nmax).

(** The body of the loop over time, lines 530-616: the columns of the matrix
    for one triple of base vectors.  [Pnm]: Legendre functions at the
    colatitudes of the grid (line 518). *)
Definition rotate_columns (nmax kmax n_phi : nat) (theta : list R) (Pnm : list tab) (weights : list R)
    (b : base) : result (list (list R)) :=
  (* theta_ref, phi_ref on the grid, 536-537; one row for each colatitude *)
  let ref := map (fun t => map (fun j => geo_to_base t (grid_phi n_phi j) b false) (seq 0 n_phi)) theta in
  (* Pnm_ref, 541 *)
  bind (mapM (fun row => mapM (fun p => legendre_poly oob kmax (fst p)) row) ref) (fun Pref =>
  let node_data (trig : R -> R) (k ll : nat) : list (tab * R * (nat -> C)) :=
    (* sh_ref.real or .imag, 544-545, 552, 578, and its fft, 553, 579-580 *)
    let sh i j := nth j (nth i Pref []) (fun _ _ => oob) k ll *
                  trig (np_radians (INR ll * snd (nth j (nth i ref []) (oob, oob)))) in
    combine (combine Pnm weights) (map (fun i => fft_over_N n_phi (sh i)) (seq 0 (List.length theta))) in
  Ok (flat_map (fun k =>
        column nmax (node_data cos k 0%nat)
        :: flat_map (fun ll => [column nmax (node_data cos k ll); column nmax (node_data sin k ll)]) (seq 1 k))
      (seq 1 kmax))).

(** rotate_gauss, lines 465-618: for each time the list of columns *)
Definition rotate_gauss (nmax kmax : nat) (bases : list base) : result (list (list (list R))) :=
  let n_theta := ((nmax + kmax + 1) / 2 + 1)%nat in
  let n_phi := (2 * n_theta)%nat in
  let '(x, weights) := leggauss n_theta in
  let theta := grid_theta x in
  bind (mapM (legendre_poly oob nmax) theta) (fun Pnm =>
  mapM (rotate_columns nmax kmax n_phi theta Pnm weights) bases).


(** matrix[row, col] of a matrix given by its columns *)
Definition entry (columns : list (list R)) (row col : nat) : R := nth row (nth col columns []) 0.

(** rotate_gauss_fft, lines 353-462, without writing the file; N >= 1.
    [cfg]: basicConfig['params.dipole'] (the base vectors are made without a
    dipole argument, 382 and 384), [file]: the conductivity profile of
    q_response, [qfunc k f]: response of coefficient k at the f-th frequency. *)
Definition rotate_gauss_fft (argsort : list R -> list nat) (cfg : R * R * R) (file : list (R * R))
    (nmax kmax : nat) (qfunc : option (nat -> nat -> C)) (step : option R) (N : option nat)
    (filter : option nat) (reference : option string) (scaled : flag) (start_date : option R)
    : result (nd R * nd C * nd R * nd C) :=
  let reference := match reference with None => "gsm"%string | Some r => r end in
  let step := match step with None => 1 | Some s => s end in
  let N := match N with None => Z.to_nat 70128 (* int(8*365.25*24) *) | Some N => N end in
  let start_date := match start_date with None => 0 | Some d => d end in
  let time := map (sample_time step start_date) (seq 0 N) in
  bind (if String.eqb (lower reference) "gsm" then basevectors_gsm cfg time DNone
        else if String.eqb (lower reference) "sm" then basevectors_sm cfg time DNone
        else Err ValueError) (fun bases =>
  bind (rotate_gauss nmax kmax bases) (fun matrix_time =>
  let q := match qfunc with
           | Some q => q
           | None => let table := q_response file (map (frequency_full N step) (seq 0 (half N))) nmax in
                     fun k f => nth f (nth (response_row k) table []) (RtoC 0)
           end in
  spectra argsort N step filter scaled (nmax * (nmax + 2)) (kmax * (kmax + 2))
    (fun j row col => entry (nth j matrix_time []) row col) q)).

End Analysis.
