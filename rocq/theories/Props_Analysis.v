(** Theorems about spherical harmonic analysis and the rotation of Gauss
    coefficients (C101-C108).  [surface], [expand], [gauss_legendre], [times],
    [same_direction] and the axes are in Spec_Analysis. *)
From Coq Require Import Reals List Bool String Arith Lia Lra.
From Coquelicot Require Import Complex.
From Verif Require Import M_Prelude M_ND Spec_Legendre Spec_Field Spec_Analysis Spec_Coord Spec_Rotate M_Coord M_Legendre M_Rotate M_Analysis
  P_Coord3 P_RotSH P_RotGauss P_Gauss P_Gauss2 P_RotOrtho P_Analysis2 P_RotProps P_RotFFT W_Analysis.
Import ListNotations.
Open Scope R_scope.

(** The contract of leggauss can be met. *)
Example C101_C103_leggauss_contract : gauss_legendre standard_leggauss.
Proof. exact standard_rules. Qed.

(** ** C101 *)

(** K = max(nmax, kmax), D the degree of the function. *)
Theorem C101_coefficients_are_recovered : forall oob leggauss func nmax kmax D g h,
  gauss_legendre leggauss -> (1 <= nmax)%nat ->
  (nmax + D <= 2 * match kmax with None => nmax | Some k => Nat.max nmax k end + 1)%nat ->
  (forall theta phi, 0 <= theta <= 180 -> func theta phi = surface 0 D g h theta phi) ->
  sh_analysis oob leggauss func nmax kmax = Ok (gauss_list 1 nmax nmax (up_to D g) (up_to D h)).
Proof. intros oob leggauss func nmax kmax D g h HG Hn HD EF. apply sh_analysis_any; try assumption. apply HG. destruct kmax; lia. Qed.

Theorem C101_small_kmax_is_ignored : forall oob leggauss func nmax k, (k <= nmax)%nat ->
  sh_analysis oob leggauss func nmax (Some k) = sh_analysis oob leggauss func nmax None.
Proof. exact sh_analysis_small_kmax. Qed.

Theorem C101_degree_zero_raises : forall oob leggauss func kmax, gauss_legendre leggauss ->
  sh_analysis oob leggauss func 0 kmax = Err IndexError.
Proof. intros. apply sh_analysis_zero. apply H. destruct kmax; lia. Qed.

(** ** C102 *)

(** The second example of the docstring: P_7 analysed with nmax = 1 gives
    5/9 = 0.55555556, whatever the rule with two nodes. *)
Theorem C102_too_few_points : forall oob leggauss func, gauss_legendre leggauss ->
  (forall theta phi, 0 <= theta <= 180 -> func theta phi = schmidt 7 0 (rad theta)) ->
  sh_analysis oob leggauss func 1 None = Ok [5 / 9; 0; 0].
Proof. intros oob leggauss func HG. apply docstring_example, HG. lia. Qed.

(** kmax = 4 is enough for it (the docstring uses 7). *)
Theorem C102_enough_points : forall oob leggauss func k, gauss_legendre leggauss -> (4 <= k)%nat ->
  (forall theta phi, 0 <= theta <= 180 -> func theta phi = schmidt 7 0 (rad theta)) ->
  sh_analysis oob leggauss func 1 (Some k) = Ok [0; 0; 0].
Proof. exact docstring_example_fine. Qed.

(** ** C103 *)
Theorem C103_same_function_in_both_systems : forall oob leggauss nmax kmax bases,
  gauss_legendre leggauss -> (1 <= nmax)%nat -> (1 <= kmax)%nat -> List.Forall right_handed_axes bases ->
  exists Ms, rotate_gauss oob leggauss nmax kmax bases = Ok Ms /\
    Forall2 (fun b M => is_matrix (nmax * (nmax + 2)) (kmax * (kmax + 2)) M /\
      forall v, List.length v = (kmax * (kmax + 2))%nat ->
      forall theta phi theta' phi', same_direction b theta phi theta' phi' ->
        expand nmax (times (entry M) v) theta phi = expand (Nat.min nmax kmax) (fun i => nth i v 0) theta' phi') bases Ms.
Proof. exact same_function. Qed.

Theorem C103_degree_zero_raises : forall oob leggauss nmax kmax bases,
  gauss_legendre leggauss -> bases <> [] -> (nmax = 0 \/ kmax = 0)%nat ->
  rotate_gauss oob leggauss nmax kmax bases = Err IndexError.
Proof. exact rotate_gauss_empty. Qed.

Example C103_axes : right_handed_axes (V3 (3 / 5) (4 / 5) 0, V3 (- (4 / 5)) (3 / 5) 0, V3 0 0 1) /\
  right_handed_axes (V3 0 0 1, V3 1 0 0, V3 0 1 0).
Proof. exact axes_case. Qed.

(** every direction has coordinates in every such system *)
Example C103_directions : forall b theta phi, right_handed_axes b ->
  exists theta' phi', same_direction b theta phi theta' phi' /\ 0 <= theta' <= 180 /\ -180 < phi' <= 180.
Proof. exact directions_exist. Qed.

(** ** C104 *)
Theorem C104_degrees_do_not_mix : forall oob leggauss nmax kmax bases Ms,
  gauss_legendre leggauss -> (1 <= nmax)%nat -> (1 <= kmax)%nat -> List.Forall right_handed_axes bases ->
  rotate_gauss oob leggauss nmax kmax bases = Ok Ms ->
  List.Forall (fun M => forall n k row col, n <> k -> (1 <= n <= nmax)%nat -> (1 <= k <= kmax)%nat ->
     of_degree n row -> of_degree k col -> entry M row col = 0) Ms.
Proof. exact no_mixing. Qed.

(** The truncation degrees only cut the matrix; no entry depends on them. *)
Theorem C104_truncation_only_cuts : forall oob leggauss nmax kmax nmax' kmax' bases Ms Ms',
  gauss_legendre leggauss -> (1 <= nmax)%nat -> (1 <= kmax)%nat -> (1 <= nmax')%nat -> (1 <= kmax')%nat ->
  List.Forall right_handed_axes bases ->
  rotate_gauss oob leggauss nmax kmax bases = Ok Ms -> rotate_gauss oob leggauss nmax' kmax' bases = Ok Ms' ->
  Forall2 (fun M M' => forall row col,
     (row < nmax * (nmax + 2))%nat -> (row < nmax' * (nmax' + 2))%nat ->
     (col < kmax * (kmax + 2))%nat -> (col < kmax' * (kmax' + 2))%nat -> entry M row col = entry M' row col) Ms Ms'.
Proof. exact truncation. Qed.

Example C104_of_degree : of_degree 1 2 /\ of_degree 2 3 /\ of_degree 3 14 /\ forall n m, (1 <= m <= n)%nat ->
  of_degree n (g_position n 0) /\ of_degree n (g_position n m) /\ of_degree n (h_position n m).
Proof. exact of_degree_case. Qed.

(** ** C105 *)
Theorem C105_power_of_each_degree_is_preserved : forall oob leggauss nmax kmax bases Ms v,
  gauss_legendre leggauss -> (1 <= nmax)%nat -> (1 <= kmax)%nat -> List.Forall right_handed_axes bases ->
  rotate_gauss oob leggauss nmax kmax bases = Ok Ms -> List.length v = (kmax * (kmax + 2))%nat ->
  List.Forall (fun M => let rotated := map (times (entry M) v) (seq 0 (nmax * (nmax + 2))) in
    (forall n, (1 <= n <= Nat.min nmax kmax)%nat -> degree_power rotated n = degree_power v n) /\
    (forall i, (kmax * (kmax + 2) <= i < nmax * (nmax + 2))%nat -> nth i rotated 0 = 0)) Ms.
Proof. exact power_preserved. Qed.

Theorem C105_square_matrices_are_orthogonal : forall oob leggauss nmax bases Ms,
  gauss_legendre leggauss -> (1 <= nmax)%nat -> List.Forall right_handed_axes bases ->
  rotate_gauss oob leggauss nmax nmax bases = Ok Ms ->
  List.Forall (fun M => forall i j, (i < nmax * (nmax + 2))%nat -> (j < nmax * (nmax + 2))%nat ->
    Rsum (map (fun l => entry M i l * entry M j l) (seq 0 (nmax * (nmax + 2)))) = delta i j /\
    Rsum (map (fun l => entry M l i * entry M l j) (seq 0 (nmax * (nmax + 2)))) = delta i j) Ms.
Proof. exact orthogonal. Qed.

(** ** C106 *)
Theorem C106_inverse_is_the_transpose : forall oob leggauss nmax b M M',
  gauss_legendre leggauss -> (1 <= nmax)%nat -> right_handed_axes b ->
  rotate_gauss oob leggauss nmax nmax [b] = Ok [M] -> rotate_gauss oob leggauss nmax nmax [inverse_axes b] = Ok [M'] ->
  forall i j, (i < nmax * (nmax + 2))%nat -> (j < nmax * (nmax + 2))%nat -> entry M' i j = entry M j i.
Proof. exact inverse_transpose. Qed.

Theorem C106_successive_rotations_multiply : forall oob leggauss nmax b b' M M' M'',
  gauss_legendre leggauss -> (1 <= nmax)%nat -> right_handed_axes b -> right_handed_axes b' ->
  rotate_gauss oob leggauss nmax nmax [b] = Ok [M] -> rotate_gauss oob leggauss nmax nmax [b'] = Ok [M'] ->
  rotate_gauss oob leggauss nmax nmax [axes_along b b'] = Ok [M''] ->
  forall i j, (i < nmax * (nmax + 2))%nat -> (j < nmax * (nmax + 2))%nat ->
    entry M'' i j = Rsum (map (fun l => entry M i l * entry M' l j) (seq 0 (nmax * (nmax + 2)))).
Proof. exact rotations_multiply. Qed.

Theorem C106_geographic_axes_give_the_identity : forall oob leggauss nmax, gauss_legendre leggauss -> (1 <= nmax)%nat ->
  exists M, rotate_gauss oob leggauss nmax nmax [geographic_axes] = Ok [M] /\
    forall i j, (i < nmax * (nmax + 2))%nat -> (j < nmax * (nmax + 2))%nat -> entry M i j = delta i j.
Proof. exact identity_matrix. Qed.

(** the results named in the hypotheses exist *)
Example C106_results_exist : forall oob leggauss nmax b b', gauss_legendre leggauss -> (1 <= nmax)%nat ->
  right_handed_axes b -> right_handed_axes b' ->
  (exists M, rotate_gauss oob leggauss nmax nmax [b] = Ok [M]) /\
  (exists M, rotate_gauss oob leggauss nmax nmax [inverse_axes b] = Ok [M]) /\
  exists M, rotate_gauss oob leggauss nmax nmax [axes_along b b'] = Ok [M].
Proof. exact results_exist. Qed.

(** ** C107 *)

(** For an odd number of samples and all Fourier components.  The matrix is
    evaluated at days since the start date, the axes are those of the date. *)
Theorem C107_spectrum_rotates_at_the_sample_times_partial : forall oob leggauss argsort cfg file nmax kmax qfunc step N (sm : bool) reference sc start axis,
  gauss_legendre leggauss -> sorts_indices argsort -> (1 <= nmax)%nat -> (1 <= kmax)%nat -> Nat.Odd N -> 0 < step ->
  (sc = FlagBool true \/ sc = FlagBool false) -> lower reference = (if sm then "sm" else "gsm")%string ->
  -10 ^ 7 <= start -> start + INR N * step / 24 < 36159.75 -> dipole_to_vec cfg DNone = Ok axis -> unit_vec axis -> 1 / 4 <= vz axis ^ 2 ->
  forall time j, (forall i, valid (sh time) i -> (j i < N)%nat /\ at_ time i = sample_time step start (j i) - start) ->
  exists F S FI SI M,
    rotate_gauss_fft oob leggauss argsort cfg file nmax kmax qfunc (Some step) (Some N) None (Some reference) sc (Some start) = Ok (F, S, FI, SI) /\
    synth_rotate_gauss time F S sc = Ok M /\ sh M = (sh time ++ [nmax * (nmax + 2); kmax * (kmax + 2)])%nat%list /\
    forall i, valid (sh time) i -> exists e1 e2 e3,
      frame_of (if sm then SM else GSM) axis (sun_direction (at_ time i + start)) e1 e2 e3 /\
      forall v, List.length v = (kmax * (kmax + 2))%nat ->
      forall theta phi theta' phi', same_direction (e1, e2, e3) theta phi theta' phi' ->
        expand nmax (times (fun r c => at_ M (i ++ [r; c])) v) theta phi =
        expand (Nat.min nmax kmax) (fun k => nth k v 0) theta' phi'.
Proof. exact spectrum_rotates. Qed.

(** For any number of samples: every sample has its axes, and the matrix at
    sample j maps coefficients in these axes to those of the same function,
    up to, for an even number, the alternating mean over all samples of the
    function seen in the axes of each. *)
Theorem C107_any_number_of_samples_partial : forall oob leggauss argsort cfg file nmax kmax qfunc step N (sm : bool) reference sc start axis,
  gauss_legendre leggauss -> sorts_indices argsort -> (1 <= nmax)%nat -> (1 <= kmax)%nat -> (1 <= N)%nat -> 0 < step ->
  (sc = FlagBool true \/ sc = FlagBool false) -> lower reference = (if sm then "sm" else "gsm")%string ->
  -10 ^ 7 <= start -> start + INR N * step / 24 < 36159.75 -> dipole_to_vec cfg DNone = Ok axis -> unit_vec axis -> 1 / 4 <= vz axis ^ 2 ->
  exists F S FI SI frames,
    rotate_gauss_fft oob leggauss argsort cfg file nmax kmax qfunc (Some step) (Some N) None (Some reference) sc (Some start) = Ok (F, S, FI, SI) /\
    (forall n, (n < N)%nat -> let '(e1, e2, e3) := frames n in
       frame_of (if sm then SM else GSM) axis (sun_direction (sample_time step start n)) e1 e2 e3) /\
    forall time j, (forall i, valid (sh time) i -> (j i < N)%nat /\ at_ time i = sample_time step start (j i) - start) ->
    exists M, synth_rotate_gauss time F S sc = Ok M /\ sh M = (sh time ++ [nmax * (nmax + 2); kmax * (kmax + 2)])%nat%list /\
      forall i, valid (sh time) i -> forall v, List.length v = (kmax * (kmax + 2))%nat ->
      forall theta phi theta' phi', (forall n, (n < N)%nat -> same_direction (frames n) theta phi (theta' n) (phi' n)) ->
        let field n := expand (Nat.min nmax kmax) (fun k => nth k v 0) (theta' n) (phi' n) in
        expand nmax (times (fun r c => at_ M (i ++ [r; c])) v) theta phi =
        field (j i) + (if Nat.even N then (-1) ^ (j i) * alternating_mean N field else 0).
Proof. exact fft_any_number. Qed.
Print Assumptions C107_any_number_of_samples_partial.

Theorem C107_other_systems_raise : forall oob leggauss argsort cfg file nmax kmax qfunc step N filter reference sc start,
  lower reference <> "gsm"%string -> lower reference <> "sm"%string ->
  rotate_gauss_fft oob leggauss argsort cfg file nmax kmax qfunc step N filter (Some reference) sc start = Err ValueError.
Proof. exact fft_bad_reference. Qed.

(** the default dipole and 29 samples from 2024, 3 hours apart *)
Example C107_case : exists axis, dipole_to_vec (-29442, -1501, 4797.1) DNone = Ok axis /\ unit_vec axis /\ 1 / 4 <= vz axis ^ 2 /\
  -10 ^ 7 <= 8766 /\ 8766 + INR 29 * 3 / 24 < 36159.75 /\ Nat.Odd 29 /\ lower "GSM" = "gsm"%string.
Proof. exact spectrum_case. Qed.

(** ** C108 *)
Theorem C108_analysis_of_a_rotated_field : forall oob leggauss nmax kmax b M v func,
  gauss_legendre leggauss -> (1 <= nmax)%nat -> (1 <= kmax)%nat -> right_handed_axes b ->
  rotate_gauss oob leggauss nmax kmax [b] = Ok [M] -> List.length v = (kmax * (kmax + 2))%nat ->
  (forall theta phi theta' phi', same_direction b theta phi theta' phi' -> func theta phi = expand kmax (fun i => nth i v 0) theta' phi') ->
  sh_analysis oob leggauss func nmax (Some kmax) = Ok (map (times (entry M) v) (seq 0 (nmax * (nmax + 2)))).
Proof. exact analysis_rotated. Qed.

Example C108_case : forall b kmax v, right_handed_axes b -> exists func,
  forall theta phi theta' phi', same_direction b theta phi theta' phi' -> func theta phi = expand kmax (fun i => nth i v 0) theta' phi'.
Proof. exact rotated_field_exists. Qed.

Print Assumptions C101_coefficients_are_recovered.
Print Assumptions C102_too_few_points.
Print Assumptions C103_same_function_in_both_systems.
Print Assumptions C104_truncation_only_cuts.
Print Assumptions C105_power_of_each_degree_is_preserved.
Print Assumptions C106_successive_rotations_multiply.
Print Assumptions C107_spectrum_rotates_at_the_sample_times_partial.
Print Assumptions C108_analysis_of_a_rotated_field.
Print Assumptions C101_small_kmax_is_ignored.
Print Assumptions C101_degree_zero_raises.
Print Assumptions C102_enough_points.
Print Assumptions C103_degree_zero_raises.
Print Assumptions C104_degrees_do_not_mix.
Print Assumptions C105_square_matrices_are_orthogonal.
Print Assumptions C106_inverse_is_the_transpose.
Print Assumptions C106_geographic_axes_give_the_identity.
Print Assumptions C107_other_systems_raise.
