(** Theorems about rotation spectra and the induction response (C60, C61,
    C81-C83).  [one_sided], [dft], [profile] are in Spec_Rotate. *)
From Coq Require Import Reals List Bool String Arith Permutation Lia Lra.
From Coquelicot Require Import Complex.
From Verif Require Import M_Prelude M_ND Spec_Field Spec_Rotate Spec_Induction M_Rotate P_Induction P_ND P_Rotate P_Rotate2 P_Rotate3 P_Response P_Response2 P_Rotate4 W_Rotate.
Import ListNotations.
Open Scope R_scope.

(** ** C60 *)

(** With frequencies per element: the sum over the components, each
    non-constant one counted twice exactly when the flag says that the stored
    values were not doubled. *)
Theorem C60_matrix_is_the_real_signal : forall time frequency (spectrum : nd C) k m n (doubled : bool),
  sh frequency = [k; m; n] -> sh spectrum = [k; m; n] ->
  (forall j r c, (j < k)%nat -> (r < m)%nat -> (c < n)%nat -> 0 <= at_ frequency [j; r; c]) ->
  exists M, synth_rotate_gauss time frequency spectrum (FlagBool doubled) = Ok M /\ sh M = sh time ++ [m; n] /\
  forall i r c, valid (sh time) i -> (r < m)%nat -> (c < n)%nat ->
    at_ M (i ++ [r; c]) =
    Rsum (map (fun j => (if doubled then oscillation else one_sided)
                        (at_ frequency [j; r; c]) (at_ spectrum [j; r; c]) (at_ time i)) (seq 0 k)).
Proof.
  intros time F S k m n db EF ES Hf.
  destruct (synth_rotate_value time F S (FlagBool db) k m n EF ES) as (M & E1 & E2 & E3).
  exists M. split; [exact E1|]. split; [exact E2|]. intros i r c Hi Hr Hc. rewrite E3 by assumption.
  f_equal. apply map_ext_in. intros j Hj. apply in_seq in Hj. specialize (Hf j r c ltac:(lia) Hr Hc).
  unfold weight, is_False, one_sided. destruct db; cbn [negb]; [ring|].
  destruct (Rlt_dec _ _); destruct (Req_EM_T _ _); lra.
Qed.

(** Storing the spectrum doubled or not makes no difference. *)
Theorem C60_scaled_and_unscaled_files_agree : forall argsort N step filter rows cols x q time,
  sorts_indices argsort -> (0 < N)%nat -> 0 < step ->
  match filter with None => True | Some f => (f <= N / 2 + 1)%nat end ->
  exists F S FI SI F' S' FI' SI' M MI M' MI',
    spectra argsort N step filter (FlagBool true) rows cols x q = Ok (F, S, FI, SI) /\
    spectra argsort N step filter (FlagBool false) rows cols x q = Ok (F', S', FI', SI') /\
    synth_rotate_gauss time F S (FlagBool true) = Ok M /\ synth_rotate_gauss time FI SI (FlagBool true) = Ok MI /\
    synth_rotate_gauss time F' S' (FlagBool false) = Ok M' /\ synth_rotate_gauss time FI' SI' (FlagBool false) = Ok MI' /\
    sh M = sh M' /\ sh MI = sh MI' /\
    forall i r c, valid (sh time) i -> (r < rows)%nat -> (c < cols)%nat ->
      at_ M (i ++ [r; c]) = at_ M' (i ++ [r; c]) /\ at_ MI (i ++ [r; c]) = at_ MI' (i ++ [r; c]).
Proof.
  intros argsort N step filter rows cols x q time Hs HN Hst Hf.
  assert (G : forall sc, exists F S FI SI, spectra argsort N step filter sc rows cols x q = Ok (F, S, FI, SI)).
  { intros sc. destruct filter; [apply spectra_some_ok; exact Hf | apply spectra_ok]. }
  destruct (G (FlagBool true)) as (F & S & FI & SI & E). destruct (G (FlagBool false)) as (F' & S' & FI' & SI' & E').
  destruct (synth_spectra _ _ _ _ _ _ _ _ _ _ _ _ _ time Hs HN Hst (or_intror (ex_intro _ true eq_refl)) E) as (M & MI & A1 & A2 & A3 & A4 & A5).
  destruct (synth_spectra _ _ _ _ _ _ _ _ _ _ _ _ _ time Hs HN Hst (or_intror (ex_intro _ false eq_refl)) E') as (M' & MI' & B1 & B2 & B3 & B4 & B5).
  exists F, S, FI, SI, F', S', FI', SI', M, MI, M', MI'. repeat (split; [assumption || congruence|]).
  intros i r c Hi Hr Hc. destruct (A5 i r c Hi Hr Hc) as [-> ->]. destruct (B5 i r c Hi Hr Hc) as [-> ->]. auto.
Qed.

(** The documented vector of frequencies, shape (k,), does not work. *)
Theorem C60_documented_frequency_vector_refuted : forall time frequency (spectrum : nd C) sc k m n,
  sh frequency = [k] -> sh spectrum = [k; m; n] -> k <> n -> k <> 1%nat -> n <> 1%nat ->
  synth_rotate_gauss time frequency spectrum sc = Err ValueError.
Proof. exact vector_frequency_raises. Qed.

(** A [False] that was saved and loaded (as CHAOS.synth_coeffs_gsm and
    synth_coeffs_sm do) is no longer recognised. *)
Theorem C60_flag_read_from_file_refuted : exists F (S : nd C) time M M',
  sh F = [1; 1; 1]%nat /\ sh S = [1; 1; 1]%nat /\
  synth_rotate_gauss time F S (FlagBool false) = Ok M /\
  synth_rotate_gauss time F S (FlagArray false) = Ok M' /\ at_ M [0; 0]%nat <> at_ M' [0; 0]%nat.
Proof. exact saved_flag_refuted. Qed.

(** A saved [True] is fine: it is what the shipped files contain. *)
Theorem C60_true_flag_read_from_file : forall time frequency spectrum,
  synth_rotate_gauss time frequency spectrum (FlagArray true) = synth_rotate_gauss time frequency spectrum (FlagBool true).
Proof. reflexivity. Qed.

(** ** C61 *)
Theorem C61_no_response_without_positive_frequency : forall file frequency nmax n j f,
  (1 <= n <= nmax)%nat -> nth_error frequency j = Some f -> f <= 0 ->
  nth_error (nth (n - 1) (q_response file frequency nmax) []) j = Some (RtoC 0).
Proof. intros. rewrite (q_response_entry _ _ _ _ _ f) by assumption. destruct (Rlt_dec 0 f); [lra | reflexivity]. Qed.

Theorem C61_response_is_elementwise : forall file frequency frequency' nmax n j j' f,
  (1 <= n <= nmax)%nat -> nth_error frequency j = Some f -> nth_error frequency' j' = Some f ->
  nth_error (nth (n - 1) (q_response file frequency nmax) []) j =
  nth_error (nth (n - 1) (q_response file frequency' nmax) []) j'.
Proof. intros. rewrite !(q_response_entry _ _ _ _ _ f) by assumption. reflexivity. Qed.

Theorem C61_shape : forall file frequency nmax,
  List.length (q_response file frequency nmax) = nmax /\
  Forall (fun row => List.length row = List.length frequency) (q_response file frequency nmax).
Proof.
  intros. unfold q_response. split; [rewrite map_length, seq_length; reflexivity|].
  apply Forall_forall. intros row Hr. apply in_map_iff in Hr. destruct Hr as (n & <- & _). apply map_length.
Qed.

(** ** C81 *)

(** An odd number of samples from day 0 on: the matrices come back exactly. *)
Theorem C81_odd_series_is_reproduced : forall argsort N step sc rows cols x q time j,
  sorts_indices argsort -> Nat.Odd N -> 0 < step -> sc = FlagBool true \/ sc = FlagBool false ->
  (forall i, valid (sh time) i -> (j i < N)%nat /\ at_ time i = sample_time step 0 (j i)) ->
  exists F S FI SI M,
    spectra argsort N step None sc rows cols x q = Ok (F, S, FI, SI) /\
    synth_rotate_gauss time F S sc = Ok M /\ sh M = sh time ++ [rows; cols] /\
    forall i r c, valid (sh time) i -> (r < rows)%nat -> (c < cols)%nat -> at_ M (i ++ [r; c]) = x (j i) r c.
Proof.
  intros argsort N step sc rows cols x q time j Hs HN Hst Hsc Ht.
  destruct (spectra_ok argsort N step sc rows cols x q) as (F & S & FI & SI & E).
  assert (P : proper sc) by (right; destruct Hsc as [-> | ->]; eauto).
  destruct (spectra_at_samples argsort N step sc rows cols x q F S FI SI time 0 j Hs) as (M & E1 & E2 & E3); try assumption.
  - destruct HN as [K ->]. lia.
  - intros i Hi. destruct (Ht i Hi). split; [assumption | lra].
  - exists F, S, FI, SI, M. split; [exact E|]. split; [exact E1|]. split; [exact E2|]. intros i r c Hi Hr Hc.
    rewrite (E3 i r c Hi Hr Hc). destruct (Nat.even N) eqn:EN; [|ring].
    apply Nat.even_spec in EN. exfalso. exact (Nat.Even_Odd_False N EN HN).
Qed.

(** An even number: off by the alternating mean, with alternating sign. *)
Theorem C81_even_series_error_partial : forall argsort N step sc rows cols x q time j,
  sorts_indices argsort -> (0 < N)%nat -> Nat.Even N -> 0 < step -> sc = FlagBool true \/ sc = FlagBool false ->
  (forall i, valid (sh time) i -> (j i < N)%nat /\ at_ time i = sample_time step 0 (j i)) ->
  exists F S FI SI M,
    spectra argsort N step None sc rows cols x q = Ok (F, S, FI, SI) /\
    synth_rotate_gauss time F S sc = Ok M /\ sh M = sh time ++ [rows; cols] /\
    forall i r c, valid (sh time) i -> (r < rows)%nat -> (c < cols)%nat ->
      at_ M (i ++ [r; c]) = x (j i) r c + (-1) ^ (j i) * alternating_mean N (fun n => x n r c).
Proof.
  intros argsort N step sc rows cols x q time j Hs HN0 HN Hst Hsc Ht.
  destruct (spectra_ok argsort N step sc rows cols x q) as (F & S & FI & SI & E).
  assert (P : proper sc) by (right; destruct Hsc as [-> | ->]; eauto).
  destruct (spectra_at_samples argsort N step sc rows cols x q F S FI SI time 0 j Hs) as (M & E1 & E2 & E3); try assumption.
  - intros i Hi. destruct (Ht i Hi). split; [assumption | lra].
  - exists F, S, FI, SI, M. split; [exact E|]. split; [exact E1|]. split; [exact E2|]. intros i r c Hi Hr Hc.
    rewrite (E3 i r c Hi Hr Hc). apply Nat.even_spec in HN. rewrite HN. reflexivity.
Qed.

Theorem C81_even_series_refuted : exists x F S FI SI,
  spectra argsort0 2 1 None (FlagBool true) 1 1 x (fun _ _ => RtoC 0) = Ok (F, S, FI, SI) /\
  exists M, synth_rotate_gauss (scalar_time (sample_time 1 0 0)) F S (FlagBool true) = Ok M /\
    at_ M [0; 0]%nat <> x 0%nat 0%nat 0%nat.
Proof. exact even_refuted. Qed.

(** With another start date the matrices must be asked for at the time since
    that date, not at the date. *)
Theorem C81_start_date_partial : forall argsort N step sc rows cols x q F S FI SI time start j,
  sorts_indices argsort -> (0 < N)%nat -> 0 < step -> proper sc ->
  spectra argsort N step None sc rows cols x q = Ok (F, S, FI, SI) ->
  (forall i, valid (sh time) i -> (j i < N)%nat /\ at_ time i = sample_time step start (j i) - start) ->
  exists M, synth_rotate_gauss time F S sc = Ok M /\ sh M = sh time ++ [rows; cols] /\
  forall i r c, valid (sh time) i -> (r < rows)%nat -> (c < cols)%nat ->
    at_ M (i ++ [r; c]) = x (j i) r c +
      (if Nat.even N then (-1) ^ (j i) * alternating_mean N (fun n => x n r c) else 0).
Proof. exact spectra_at_samples. Qed.

Theorem C81_start_date_refuted : exists x F S FI SI,
  spectra argsort0 3 1 None (FlagBool true) 1 1 x (fun _ _ => RtoC 0) = Ok (F, S, FI, SI) /\
  exists M, synth_rotate_gauss (scalar_time (sample_time 1 (1 / 24) 0)) F S (FlagBool true) = Ok M /\
    at_ M [0; 0]%nat <> x 0%nat 0%nat 0%nat.
Proof. exact start_refuted. Qed.

(** ** C82 *)
Theorem C82_filter_keeps_the_largest_components : forall argsort N step f sc rows cols x q F S FI SI F' S' FI' SI' time,
  sorts_indices argsort -> (0 < N)%nat -> 0 < step -> proper sc ->
  spectra argsort N step (Some f) sc rows cols x q = Ok (F, S, FI, SI) ->
  spectra argsort N step None sc rows cols x q = Ok (F', S', FI', SI') ->
  exists M MI M' MI',
    synth_rotate_gauss time F S sc = Ok M /\ synth_rotate_gauss time FI SI sc = Ok MI /\
    synth_rotate_gauss time F' S' sc = Ok M' /\ synth_rotate_gauss time FI' SI' sc = Ok MI' /\
    forall r c, (r < rows)%nat -> (c < cols)%nat ->
      (exists kept dropped,
        Permutation (kept ++ dropped) (seq 0 (N / 2 + 1)) /\ List.length kept = f /\
        (forall a b, In a kept -> In b dropped ->
           Cmod (dft N (fun j => x j r c) b) <= Cmod (dft N (fun j => x j r c) a)) /\
        (forall i, valid (sh time) i ->
           at_ M (i ++ [r; c]) = Rsum (map (fun k => one_sided (24 * INR k / (INR N * step)) (dft N (fun j => x j r c) k) (at_ time i)) kept) /\
           Rabs (at_ M (i ++ [r; c]) - at_ M' (i ++ [r; c])) <= 2 * Rsum (map (fun k => Cmod (dft N (fun j => x j r c) k)) dropped))) /\
      (exists kept dropped,
        Permutation (kept ++ dropped) (seq 0 (N / 2 + 1)) /\ List.length kept = f /\
        (forall a b, In a kept -> In b dropped ->
           Cmod (Cmult (q r b) (dft N (fun j => x j r c) b)) <= Cmod (Cmult (q r a) (dft N (fun j => x j r c) a))) /\
        (forall i, valid (sh time) i ->
           at_ MI (i ++ [r; c]) = Rsum (map (fun k => one_sided (24 * INR k / (INR N * step)) (Cmult (q r k) (dft N (fun j => x j r c) k)) (at_ time i)) kept) /\
           Rabs (at_ MI (i ++ [r; c]) - at_ MI' (i ++ [r; c])) <= 2 * Rsum (map (fun k => Cmod (Cmult (q r k) (dft N (fun j => x j r c) k))) dropped))).
Proof.
  intros argsort N step f sc rows cols x q F S FI SI F' S' FI' SI' time Hs HN Hst Hsc E E'.
  assert (X : forall e t l, map (fun k => one_sided (24 * INR k / (INR N * step)) (e k) t) l = map (fun k => one_sided (per_day N step k) (e k) t) l).
  { intros. apply map_ext. intros k. rewrite per_day_eq by assumption. reflexivity. }
  destruct (truncation argsort N step f sc rows cols x q F S FI SI F' S' FI' SI' time Hs HN Hst Hsc E E')
    as (M & MI & M' & MI' & A1 & A2 & A3 & A4 & A5).
  exists M, MI, M', MI'. repeat (split; [assumption|]). intros r c Hr Hc.
  destruct (A5 r c Hr Hc) as [(kp & dr & P1 & P2 & P3 & P4) (kp' & dr' & Q1 & Q2 & Q3 & Q4)]. split.
  - exists kp, dr. repeat (split; [assumption|]). intros i Hi. rewrite (X (dft N (fun j => x j r c))). apply P4. exact Hi.
  - exists kp', dr'. repeat (split; [assumption|]). intros i Hi. rewrite (X (fun k => Cmult (q r k) (dft N (fun j => x j r c) k))). apply Q4. exact Hi.
Qed.

Theorem C82_more_components_than_there_are_raises : forall argsort N step f sc rows cols x q,
  (N / 2 + 1 < f)%nat -> spectra argsort N step (Some f) sc rows cols x q = Err ValueError.
Proof. intros. apply filter_too_large. assumption. Qed.

(** ** C83 *)
Theorem C83_induced_part_is_smaller_than_inducing : forall file frequency nmax n j f,
  profile 6371.2 file -> (1 <= n <= nmax)%nat -> nth_error frequency j = Some f ->
  exists z, nth_error (nth (n - 1) (q_response file frequency nmax) []) j = Some z /\
    Cmod z < INR n / (INR n + 1) /\ (f <= 0 -> z = RtoC 0).
Proof. exact q_response_bound. Qed.

(** The response is the one of the induction equation: for every external
    coefficient [e] some field inside the Earth matches it at the surface, and
    every one that does has the internal coefficient [z * e]. *)
Theorem C83_response_solves_the_induction_equation : forall file frequency nmax n j f,
  profile 6371.2 file -> (1 <= n <= nmax)%nat -> nth_error frequency j = Some f -> 0 < f ->
  let layers := map (fun ds => (snd ds, 1000 * (6371.2 - fst ds))) file in
  let a := 1000 * (6371.2 - fst (nth 0 file (0, 0))) in
  exists z, nth_error (nth (n - 1) (q_response file frequency nmax) []) j = Some z /\
    (forall e, exists i v dv, field_in (2 * PI * f) (4 * PI * / 10 ^ 7) n layers v dv /\ matches a n e i v dv) /\
    (forall e i v dv, field_in (2 * PI * f) (4 * PI * / 10 ^ 7) n layers v dv -> matches a n e i v dv -> i = Cmult z e).
Proof.
  intros file frequency nmax n j f P Hn Hj Hf layers a. eexists. split; [apply q_response_entry; [exact Hn | exact Hj]|].
  destruct (Rlt_dec 0 f); [|contradiction].
  pose proof (layers_earthlike _ (profile_earthlike _ P)) as E. unfold to_model in E. rewrite map_map in E. cbn [fst snd] in E. fold layers in E.
  assert (T : top layers = a).
  { unfold top, layers, a. destruct file; [destruct P as (X & _); congruence | reflexivity]. }
  assert (W : 2 * PI / (1 / f) = 2 * PI * f) by (field; lra).
  assert (W0 : 0 < 2 * PI * f) by (rewrite <- W; apply omega_pos; apply Rdiv_lt_0_compat; lra).
  change (4 * PI * / 10 ^ 7) with mu. split.
  - intros e. rewrite <- T. apply response_exists; [exact W0 | lia | exact E].
  - intros e i v dv F M. unfold Q_1D, omega. rewrite map_map. cbn [fst snd]. fold layers. change (snd (nth 0 layers (0, 0))) with (top layers).
    rewrite W. rewrite <- T in M. apply (response_matches _ n layers e i v dv); try assumption. lia.
Qed.

Theorem C83_insulating_earth_does_not_respond : forall file frequency nmax n j f,
  profile 6371.2 file -> (forall d s, In (d, s) file -> s = 0) -> (1 <= n <= nmax)%nat -> nth_error frequency j = Some f ->
  nth_error (nth (n - 1) (q_response file frequency nmax) []) j = Some (RtoC 0).
Proof.
  intros file frequency nmax n j f P Z Hn Hj. rewrite (q_response_entry _ _ _ _ _ f) by assumption.
  destruct (Rlt_dec 0 f); [|reflexivity]. f_equal. apply Q_insulator.
  - apply Rdiv_lt_0_compat; lra.
  - lia.
  - exact (profile_earthlike _ P).
  - intros sr Hi. apply in_map_iff in Hi. destruct Hi as ([d s] & <- & Hd). cbn. exact (Z d s Hd).
Qed.

(** The file means sigma(r) = sigma_k (r_k / r)^2 within a layer: tabulating
    that profile at one more depth changes nothing. *)
Theorem C83_refining_the_file_changes_nothing : forall A B d0 s0 d s' frequency nmax,
  profile 6371.2 (A ++ (d0, s0) :: B) -> profile 6371.2 (A ++ (d0, s0) :: (d, s') :: B) ->
  s' * (6371.2 - d) ^ 2 = s0 * (6371.2 - d0) ^ 2 ->
  q_response (A ++ (d0, s0) :: (d, s') :: B) frequency nmax = q_response (A ++ (d0, s0) :: B) frequency nmax.
Proof. exact q_response_split. Qed.

(** The C-response lies in the fourth quadrant. *)
Theorem C83_penetration_depth_positive : forall period layers n, 0 < period -> earthlike layers ->
  let c := C_response (omega period) n layers in 0 < fst c /\ snd c <= 0 /\ Cmod c < 2 * top layers / 1000.
Proof. exact C_quadrant. Qed.

(** rotate_gauss_fft pairs coefficient number k with the response of its degree. *)
Theorem C83_row_of_coefficient : forall n k, (1 <= n)%nat -> (n * n - 1 <= k < (n + 1) * (n + 1) - 1)%nat ->
  response_row k = (n - 1)%nat.
Proof. exact response_row_degree. Qed.

(** ** Witnesses *)
Example C60_C81_C82_argsort : sorts_indices argsort0.
Proof. exact argsort0_sorts. Qed.
Example C83_profile : profile 6371.2 [(0, 1 / 100); (400, 1); (2900, 1000)].
Proof. exact profile_ex. Qed.
Example C61_C83_rows : map response_row [0; 2; 3; 7; 8; 14; 15]%nat = [0; 0; 1; 1; 2; 2; 3]%nat.
Proof. reflexivity. Qed.
Example C82_filter : (20 <= 35064 / 2 + 1)%nat.
Proof. apply Nat.leb_le. vm_compute. reflexivity. Qed.

Print Assumptions C60_matrix_is_the_real_signal.
Print Assumptions C60_scaled_and_unscaled_files_agree.
Print Assumptions C60_documented_frequency_vector_refuted.
Print Assumptions C61_response_is_elementwise.
Print Assumptions C81_odd_series_is_reproduced.
Print Assumptions C81_start_date_refuted.
Print Assumptions C82_filter_keeps_the_largest_components.
Print Assumptions C83_induced_part_is_smaller_than_inducing.
Print Assumptions C83_response_solves_the_induction_equation.
Print Assumptions C83_refining_the_file_changes_nothing.
Print Assumptions C60_flag_read_from_file_refuted.
Print Assumptions C60_true_flag_read_from_file.
Print Assumptions C61_no_response_without_positive_frequency.
Print Assumptions C61_shape.
Print Assumptions C81_even_series_error_partial.
Print Assumptions C81_even_series_refuted.
Print Assumptions C81_start_date_partial.
Print Assumptions C82_more_components_than_there_are_raises.
Print Assumptions C83_insulating_earth_does_not_respond.
Print Assumptions C83_penetration_depth_positive.
Print Assumptions C83_row_of_coefficient.
