(** C148: rotation files of one's own: rotate_gauss_fft with [save_to], and CHAOS
    with these files configured. *)
From Coq Require Import Reals List Arith ZArith String Bool Lia Lra.
From Coquelicot Require Import Complex.
From Verif Require Import M_Prelude M_ND Spec_Field Spec_PP Spec_Analysis Spec_Coord Spec_RotField Spec_Chaos M_Coord M_SynthArr M_Rotate M_Analysis M_PP M_Model M_Chaos M_RotFile
  P_ND P_Bcast P_SynthArr P_Chaos P_Chaos5 P_Gauss2 P_RotFile P_RotFile2 P_RotFile3 W_Rotate W_RotFile.
Import ListNotations.
Open Scope R_scope.

(** The file holds what is returned, the dipole configured when it is written, the
    arguments, and a flag that is read back as an array; other files stay. *)
Theorem C148_what_the_file_holds : forall oob leggauss argsort cfg file nmax kmax qfunc step N filter path reference sc start D F S FI SI D',
  rotate_gauss_fft_to oob leggauss argsort cfg file nmax kmax qfunc step N filter (Some path) reference sc start D = Ok ((F, S, FI, SI), D') -> path <> ""%string ->
  exists w, D' (npz_name path) = Some w /\ w_file w = mkrot F S FI SI (FlagArray (truthy sc)) (let '(g10, g11, h11) := cfg in [g10; g11; h11]) /\
    w_step w = (match step with None => 1 | Some s => s end) /\ w_start w = (match start with None => 0 | Some d => d end) /\
    w_reference w = (match reference with None => "gsm"%string | Some r => r end) /\
    (w_filter w = match filter with Some f => f | None => half (w_N w) end)%nat /\
    sh F = [w_filter w; nmax * (nmax + 2); kmax * (kmax + 2)]%nat /\ sh S = sh F /\ sh FI = sh F /\ sh SI = sh F /\
    (forall name, name <> npz_name path -> D' name = D name).
Proof. exact file_content. Qed.
Print Assumptions C148_what_the_file_holds.

(** No file for None and for the empty name. *)
Theorem C148_nothing_is_written : forall oob leggauss argsort cfg file nmax kmax qfunc step N filter save_to reference sc start D out D',
  save_to = None \/ save_to = Some ""%string ->
  rotate_gauss_fft_to oob leggauss argsort cfg file nmax kmax qfunc step N filter save_to reference sc start D = Ok (out, D') -> D' = D.
Proof. exact nothing_written. Qed.
Print Assumptions C148_nothing_is_written.

(** What is returned does not depend on the file. *)
Theorem C148_same_result_with_and_without_a_file : forall oob leggauss argsort cfg file nmax kmax qfunc step N filter save_to reference sc start D,
  bind (rotate_gauss_fft_to oob leggauss argsort cfg file nmax kmax qfunc step N filter save_to reference sc start D) (fun r => Ok (fst r)) =
  rotate_gauss_fft oob leggauss argsort cfg file nmax kmax qfunc step N filter reference sc start.
Proof. exact returned_anyway. Qed.
Print Assumptions C148_same_result_with_and_without_a_file.

(** GSM, a file written with scaled=True: at the sample times, for an odd number of
    samples and start_date = 0, the field vector of synth_values_gsm (external) is that
    of the GSM coefficients at the coordinates of the point in the GSM axes of the
    date, up to the degree asked for.  For another start_date the times have to be
    given in days since this date, see C107. *)
Theorem C148_gsm_field_from_own_file : forall oob leggauss argsort cfg file deg qfunc step n reference path D axis start,
  gauss_legendre leggauss -> sorts_indices argsort -> (1 <= deg)%nat -> Nat.Odd n -> 0 < step -> lower reference = "gsm"%string ->
  -10 ^ 7 <= start -> start + INR n * step / 24 < 36159.75 -> dipole_to_vec cfg DNone = Ok axis -> unit_vec axis -> 1 / 4 <= vz axis ^ 2 -> path <> ""%string ->
  exists out D', rotate_gauss_fft_to oob leggauss argsort cfg file deg deg qfunc (Some step) (Some n) None (Some path) (Some reference) (FlagBool true) (Some start) D = Ok (out, D') /\
  forall sm rc r_surf c gsm (time : nd R) j radius theta phi nmax F x,
    let E := env_of D' (npz_name path) sm rc cfg r_surf oob in let L := asked nmax deg in
    ch_gsm c = Some gsm -> ch_static c <> None -> List.length gsm = (deg * (deg + 2))%nat -> elems time <> [] -> nmax <> Some 0%nat ->
    (forall i, valid (sh time) i -> (j i < n)%nat /\ at_ time i = sample_time step 0 (j i)) ->
    synth_values_gsm E c time radius theta phi nmax (Some "external"%string) None = Ok F ->
    (forall t, In t (elems theta) -> 0 <= t <= 180) -> valid (f_sh F) x ->
    exists e1 e2 e3, frame_of GSM axis (sun_direction (bread time x + start)) e1 e2 e3 /\
    forall theta' phi', 0 <= theta' <= 180 -> same_direction (e1, e2, e3) (bread theta x) (bread phi x) theta' phi' ->
    exists F', synth_values oob r_surf (cvec gsm) (scalar (bread radius x)) (scalar theta') (scalar phi')
        (Some 1%Z) (Some (Z.of_nat L)) (Some (Z.of_nat L)) (Some "external"%string) false = Ok F' /\
      field_vector theta' phi' (f_r F' []) (f_t F' []) (f_p F' []) = resolve e1 e2 e3 (field_vector (bread theta x) (bread phi x) (f_r F x) (f_t F x) (f_p F x)).
Proof. exact gsm_own_file. Qed.
Print Assumptions C148_gsm_field_from_own_file.

(** The same for SM: the coefficients are the index terms, baselines and constants. *)
Theorem C148_sm_field_from_own_file : forall oob leggauss argsort cfg file deg qfunc step n reference path D axis start,
  gauss_legendre leggauss -> sorts_indices argsort -> (1 <= deg)%nat -> Nat.Odd n -> 0 < step -> lower reference = "sm"%string ->
  -10 ^ 7 <= start -> start + INR n * step / 24 < 36159.75 -> dipole_to_vec cfg DNone = Ok axis -> unit_vec axis -> 1 / 4 <= vz axis ^ 2 -> path <> ""%string ->
  exists out D', rotate_gauss_fft_to oob leggauss argsort cfg file deg deg qfunc (Some step) (Some n) None (Some path) (Some reference) (FlagBool true) (Some start) D = Ok (out, D') /\
  forall gsm tab r_surf c sm q10 q11 s11 (time : nd R) j radius theta phi rc rc_i nmax F x p0 p1 p2,
    let E := env_of D' gsm (npz_name path) tab cfg r_surf oob in let L := asked nmax deg in let i := bidx (sh time) x in
    ch_sm c = Some sm -> ch_delta c = Some (q10, q11, s11) ->
    good_breaks (d_breaks q10) -> good_breaks (d_breaks q11) -> good_breaks (d_breaks s11) ->
    List.length sm = (deg * (deg + 2))%nat -> elems time <> [] -> nmax <> Some 0%nat -> bfits (sh rc) (sh time) ->
    (forall i, valid (sh time) i -> (j i < n)%nat /\ at_ time i = sample_time step 0 (j i)) ->
    synth_values_sm E c time radius theta phi (Some rc) rc_i nmax (Some "external"%string) None = Ok F ->
    (forall t, In t (elems theta) -> 0 <= t <= 180) -> valid (f_sh F) x ->
    used_piece (d_breaks q10) p0 (at_ time i) -> used_piece (d_breaks q11) p1 (at_ time i) -> used_piece (d_breaks s11) p2 (at_ time i) ->
    let v := map (fun k => match k with
                    | 0%nat => bread rc i * nth 0 sm 0 + baseline q10 p0 (at_ time i)
                    | 1%nat => bread rc i * nth 1 sm 0 + baseline q11 p1 (at_ time i)
                    | 2%nat => bread rc i * nth 2 sm 0 + baseline s11 p2 (at_ time i)
                    | _ => nth k sm 0
                    end) (seq 0 (deg * (deg + 2))) in
    exists e1 e2 e3, frame_of SM axis (sun_direction (bread time x + start)) e1 e2 e3 /\
    forall theta' phi', 0 <= theta' <= 180 -> same_direction (e1, e2, e3) (bread theta x) (bread phi x) theta' phi' ->
    exists F', synth_values oob r_surf (cvec v) (scalar (bread radius x)) (scalar theta') (scalar phi')
        (Some 1%Z) (Some (Z.of_nat L)) (Some (Z.of_nat L)) (Some "external"%string) false = Ok F' /\
      field_vector theta' phi' (f_r F' []) (f_t F' []) (f_p F' []) = resolve e1 e2 e3 (field_vector (bread theta x) (bread phi x) (f_r F x) (f_t F x) (f_p F x)).
Proof. exact sm_own_file. Qed.
Print Assumptions C148_sm_field_from_own_file.

(** Once another dipole is configured, the file is not used. *)
Theorem C148_another_dipole_is_refused : forall oob leggauss argsort cfg file nmax kmax qfunc step N filter path reference sc start D out D',
  rotate_gauss_fft_to oob leggauss argsort cfg file nmax kmax qfunc step N filter (Some path) reference sc start D = Ok (out, D') -> path <> ""%string ->
  forall cfg', cfg' <> cfg -> forall other tab r_surf c time nmax s, elems time <> [] ->
  (forall gsm st, ch_gsm c = Some gsm -> ch_static c = Some st -> synth_coeffs_gsm (env_of D' (npz_name path) other tab cfg' r_surf oob) c time nmax s = Err AssertionError) /\
  (forall sm q10 q11 s11 rc, ch_sm c = Some sm -> ch_delta c = Some (q10, q11, s11) -> d_breaks q10 <> [] -> d_breaks q11 <> [] -> d_breaks s11 <> [] ->
     synth_coeffs_sm (env_of D' other (npz_name path) tab cfg' r_surf oob) c time nmax s rc = Err AssertionError).
Proof. exact other_dipole. Qed.
Print Assumptions C148_another_dipole_is_refused.

(** The ending that NumPy adds has to be part of the configured name. *)
Theorem C148_name_without_ending : forall oob leggauss argsort cfg file nmax kmax qfunc step N filter path reference sc start D out D',
  rotate_gauss_fft_to oob leggauss argsort cfg file nmax kmax qfunc step N filter (Some path) reference sc start D = Ok (out, D') ->
  npz_name path <> path -> D path = None ->
  forall cfg' other tab r_surf c time nmax s, elems time <> [] ->
  (forall gsm st, ch_gsm c = Some gsm -> ch_static c = Some st -> synth_coeffs_gsm (env_of D' path other tab cfg' r_surf oob) c time nmax s = Err FileNotFoundError) /\
  (forall sm q10 q11 s11 rc, ch_sm c = Some sm -> ch_delta c = Some (q10, q11, s11) -> d_breaks q10 <> [] -> d_breaks q11 <> [] -> d_breaks s11 <> [] ->
     synth_coeffs_sm (env_of D' other path tab cfg' r_surf oob) c time nmax s rc = Err FileNotFoundError).
Proof. exact bare_name. Qed.
Print Assumptions C148_name_without_ending.

(** The documented default, scaled=False, gives files that CHAOS reads wrongly: the
    coefficients are halfway between those of a file with scaled=True and their mean
    over all samples. *)
Theorem C148_unscaled_file_refuted : forall oob leggauss argsort cfg file deg qfunc step n reference path1 path2 start D out1 out2 D1 D2,
  sorts_indices argsort -> (2 <= n)%nat -> 0 < step -> path1 <> ""%string -> path2 <> ""%string ->
  rotate_gauss_fft_to oob leggauss argsort cfg file deg deg qfunc (Some step) (Some n) None (Some path1) reference (FlagBool true) start D = Ok (out1, D1) ->
  rotate_gauss_fft_to oob leggauss argsort cfg file deg deg qfunc (Some step) (Some n) None (Some path2) reference (FlagBool false) start D = Ok (out2, D2) ->
  forall sm rc r_surf c gsm (time : nd R) nmax K1 K2 KA,
    let E1 := env_of D1 (npz_name path1) sm rc cfg r_surf oob in let E2 := env_of D2 (npz_name path2) sm rc cfg r_surf oob in
    ch_gsm c = Some gsm -> List.length gsm = (deg * (deg + 2))%nat ->
    synth_coeffs_gsm E1 c time nmax (Some "external"%string) = Ok K1 ->
    synth_coeffs_gsm E2 c time nmax (Some "external"%string) = Ok K2 ->
    synth_coeffs_gsm E1 c (mknd [n] (fun i => sample_time step 0 (hd 0%nat i))) nmax (Some "external"%string) = Ok KA ->
    forall i r, valid (sh time) i -> (r < cdim K2)%nat -> cat K2 i r = (cat K1 i r + Rsum (map (fun m => cat KA [m] r) (seq 0 n)) / INR n) / 2.
Proof. exact unscaled_file. Qed.
Print Assumptions C148_unscaled_file_refuted.

(** The name *)
Example C148_names : npz_name "my_gsm" = "my_gsm.npz"%string /\ npz_name "a/b.npz" = "a/b.npz"%string /\ npz_name ".npy" = ".npy.npz"%string.
Proof. repeat split; reflexivity. Qed.

(** The hypotheses are met: 29 samples 3 hours apart from 2024 on, the default dipole *)
Example C148_case : exists out D', own_file (FlagBool true) "my_gsm" (fun _ => None) = Ok (out, D') /\
  let E := env_of D' "my_gsm.npz" "none" None own_cfg 6371.2 0 in
  exists F, synth_values_gsm E own_chaos (scalar (sample_time 3 0 4)) (scalar 6800) (scalar 45) (scalar (-30)) None (Some "external"%string) None = Ok F /\ f_sh F = [] /\
  exists K, forall s, s = "external"%string -> synth_coeffs_gsm E own_chaos (mknd [29]%nat (fun i => sample_time 3 0 (hd 0%nat i))) None (Some s) = Ok K.
Proof. exact gsm_file_case. Qed.
Example C148_unscaled_case : exists out D', own_file (FlagBool false) "my_gsm.npz" (fun _ => None) = Ok (out, D') /\
  exists K, synth_coeffs_gsm (env_of D' "my_gsm.npz" "none" None own_cfg 6371.2 0) own_chaos (scalar (sample_time 3 0 4)) None (Some "external"%string) = Ok K /\ cdim K = 3%nat.
Proof. exact unscaled_case. Qed.
