(** Theorems about the CHAOS model (C62-C64, C84-C88).

    [env] holds the files and parameters of the configuration.  [rotation],
    [interpolates], [covered], [nan_sum], [all_sources] are in Spec_Chaos,
    [contribution] and [part] in Spec_ChaosApi.  [rot_file f k ki m n]: the
    spectra in file f are arrays of shape (k, m, n) and (ki, m, n), saved with
    final amplitudes (scaled=True, as the shipped files); [spectra3 f]: they
    have three axes. *)
From Coq Require Import Reals List Arith ZArith String Ascii Bool Lia Lra.
From Coquelicot Require Import Complex.
From Verif Require Import M_Prelude M_ND Spec_Field Spec_PP Spec_Rotate Spec_Chaos M_Synth M_SynthArr M_PP M_Spectrum M_Model M_Rotate M_Chaos Spec_ChaosApi
  P_ND P_Bcast P_Chaos P_Chaos2 P_Chaos3 P_Chaos4 P_Chaos5 P_Chaos6 W_Chaos P_ChaosErr.
Import ListNotations.
Open Scope R_scope.

(** ** C62 *)

(** Every listed source contributes exactly once, nothing else does. *)
Theorem C62_call_is_the_sum_of_the_listed_sources : forall E c time radius theta phi rc_e rc_i sources nmax_static B,
  call E c time radius theta phi rc_e rc_i (SrcList sources) nmax_static = Ok B ->
  broadcast [sh time; sh radius; sh theta; sh phi] = Ok (o_sh B) /\
  (forall s, In s all_sources -> In s sources ->
     exists F, contribution E c time radius theta phi rc_e rc_i nmax_static s = Ok F /\ bfits (o_sh F) (o_sh B)) /\
  forall chosen, (forall s, In s chosen <-> In s all_sources /\ In s sources) -> NoDup chosen ->
  forall x,
    o_r B x = nan_sum (map (fun s => part E c time radius theta phi rc_e rc_i nmax_static s o_r x) chosen) /\
    o_t B x = nan_sum (map (fun s => part E c time radius theta phi rc_e rc_i nmax_static s o_t x) chosen) /\
    o_p B x = nan_sum (map (fun s => part E c time radius theta phi rc_e rc_i nmax_static s o_p x) chosen).
Proof. exact call_sum. Qed.

(** Shapes that fit together and sources that succeed are enough. *)
Theorem C62_call_succeeds_when_its_sources_do : forall E c time radius theta phi rc_e rc_i sources nmax_static g,
  (forall f, e_gsm E = Some f -> spectra3 f) -> (forall f, e_sm E = Some f -> spectra3 f) ->
  broadcast [sh time; sh radius; sh theta; sh phi] = Ok g ->
  (forall s, In s all_sources -> In s sources -> exists F, contribution E c time radius theta phi rc_e rc_i nmax_static s = Ok F) ->
  exists B, call E c time radius theta phi rc_e rc_i (SrcList sources) nmax_static = Ok B /\ o_sh B = g.
Proof. exact call_succeeds. Qed.

(** A complete and well-formed model can be evaluated for any selection of
    sources, the result has the broadcast shape. *)
Theorem C62_complete_model_can_be_evaluated : forall E breaks K D ct Ds cs sm gsm q10 q11 s11 be ce bc cc meta c fs fg k ki k' ki' N N'
    time radius theta phi rc_e rc_i g nmax_static sources,
  chaos_init breaks None (Some (mkc3 K (List.length breaks - 1) D ct)) (Some (mkc3 1 1 Ds cs)) (Some sm) (Some gsm)
    (Some (q10, q11, s11)) be ce bc cc meta = Ok c ->
  good_breaks breaks -> (1 <= K)%nat -> (3 <= D)%nat -> (3 <= Ds)%nat -> nmax_static <> Some 0%nat ->
  good_breaks (d_breaks q10) -> good_breaks (d_breaks q11) -> good_breaks (d_breaks s11) ->
  e_sm E = Some fs -> rf_dipole fs = e_dipole E -> (1 <= N)%nat -> (List.length sm = N * (N + 2))%nat -> rot_file fs k ki (N * (N + 2)) (N * (N + 2)) ->
  e_gsm E = Some fg -> rf_dipole fg = e_dipole E -> (1 <= N')%nat -> (List.length gsm = N' * (N' + 2))%nat -> rot_file fg k' ki' (N' * (N' + 2)) (N' * (N' + 2)) ->
  bfits (sh rc_e) (sh time) -> bfits (sh rc_i) (sh time) ->
  elems time <> [] -> elems theta <> [] -> (forall t, In t (elems theta) -> 0 <= t <= 180) ->
  broadcast [sh time; sh radius; sh theta; sh phi] = Ok g ->
  exists B, call E c time radius theta phi (Some rc_e) (Some rc_i) sources nmax_static = Ok B /\ o_sh B = g.
Proof. exact call_complete. Qed.

Theorem C62_exception_of_a_listed_source_is_passed_on : forall E c time radius theta phi rc_e rc_i sources nmax_static s,
  In s all_sources -> In s sources -> is_err (contribution E c time radius theta phi rc_e rc_i nmax_static s) ->
  is_err (call E c time radius theta phi rc_e rc_i (SrcList sources) nmax_static).
Proof. exact call_raises. Qed.

Theorem C62_order_and_repetition_do_not_matter : forall E c time radius theta phi rc_e rc_i l l' nmax_static,
  (forall s, In s l <-> In s l') ->
  call E c time radius theta phi rc_e rc_i (SrcList l) nmax_static = call E c time radius theta phi rc_e rc_i (SrcList l') nmax_static.
Proof. exact call_same_members. Qed.

Theorem C62_shorthands : forall E c time radius theta phi rc_e rc_i nmax_static,
  let f s := call E c time radius theta phi rc_e rc_i s nmax_static in
  f SrcNone = f (SrcList ["tdep"; "static"; "gsm"; "sm"]%string) /\
  f (SrcStr "internal") = f (SrcList ["tdep"; "static"]%string) /\
  f (SrcStr "external") = f (SrcList ["gsm"; "sm"]%string) /\
  forall s, In s all_sources -> f (SrcStr s) = f (SrcList [s]).
Proof.
  intros. split; [reflexivity|]. split; [reflexivity|]. split; [reflexivity|].
  intros s [<-|[<-|[<-|[<-|[]]]]]; reflexivity.
Qed.

(** One source alone is the method of that source. *)
Theorem C62_single_source : forall E c time radius theta phi rc_e rc_i nmax_static s B,
  In s all_sources -> call E c time radius theta phi rc_e rc_i (SrcStr s) nmax_static = Ok B ->
  exists F, contribution E c time radius theta phi rc_e rc_i nmax_static s = Ok F /\
    forall x, o_r B x = o_r F (bidx (o_sh F) x) /\ o_t B x = o_t F (bidx (o_sh F) x) /\ o_p B x = o_p F (bidx (o_sh F) x).
Proof. exact call_single. Qed.

Example C62_example : exists B, call w_env w_chaos w_time w_radius w_theta w_phi (Some w_rc) (Some w_rc) SrcNone None = Ok B /\ o_sh B = [2]%nat.
Proof. exact w_call. Qed.

(** ** C63 *)

(** A misspelt source contributes zero instead of an error. *)
Theorem C63_unknown_source_refuted : forall E c time radius theta phi rc_e rc_i nmax_static name g,
  ~ In name (all_sources ++ ["internal"; "external"]%string)%list -> broadcast [sh time; sh radius; sh theta; sh phi] = Ok g ->
  exists B, call E c time radius theta phi rc_e rc_i (SrcStr name) nmax_static = Ok B /\
    forall x, o_r B x = Some 0 /\ o_t B x = Some 0 /\ o_p B x = Some 0.
Proof. exact call_unknown. Qed.

(** The methods for a single frame do report unknown sources. *)
Theorem C63_methods_report_unknown_sources : forall E c time radius theta phi rc_e rc_i nmax grid s,
  ~ In s ["all"; "external"; "internal"]%string ->
  synth_values_gsm E c time radius theta phi nmax (Some s) grid = Err ValueError /\
  synth_values_sm E c time radius theta phi rc_e rc_i nmax (Some s) grid = Err ValueError /\
  is_err (synth_coeffs_gsm E c time nmax (Some s)) /\ forall rc, is_err (synth_coeffs_sm E c time nmax (Some s) rc).
Proof. exact methods_unknown. Qed.
Theorem C63_unknown_source_of_coefficients_is_a_ValueError : forall E c time nmax s rc K K', ~ In s ["external"; "internal"]%string ->
  (synth_coeffs_gsm E c time nmax (Some "external"%string) = Ok K -> synth_coeffs_gsm E c time nmax (Some s) = Err ValueError) /\
  (synth_coeffs_sm E c time nmax (Some "external"%string) (Some rc) = Ok K' -> synth_coeffs_sm E c time nmax (Some s) (Some rc) = Err ValueError).
Proof. exact unknown_value_error. Qed.

Example C63_example : ~ In "cmb"%string (all_sources ++ ["internal"; "external"]%string)%list /\
  broadcast [sh w_time; sh w_radius; sh w_theta; sh w_phi] = Ok [2%nat] /\ ~ In "both"%string ["all"; "external"; "internal"]%string.
Proof. split; [cbn; intuition discriminate|]. split; [reflexivity|]. cbn. intuition discriminate. Qed.

(** ** C64 *)

(** GSM: the constant GSM coefficients, rotated to GEO (external) or rotated
    with the induction response (internal), up to the degree asked for. *)
Theorem C64_gsm_coefficients : forall E c f gsm k ki N time nmax s,
  ch_gsm c = Some gsm -> ch_static c <> None -> e_gsm E = Some f -> rf_dipole f = e_dipole E -> elems time <> [] ->
  (List.length gsm = N * (N + 2))%nat -> rot_file f k ki (N * (N + 2)) (N * (N + 2)) ->
  exists K, synth_coeffs_gsm E c time nmax (Some (src_name s)) = Ok K /\ csh K = sh time /\
    (cdim K = asked nmax N * (asked nmax N + 2))%nat /\
    forall i r, valid (sh time) i -> (r < cdim K)%nat ->
      cat K i r = Rsum (map (fun j => match s with
                                      | External => rotation k (rf_freq f) (rf_spec f) (at_ time i) r j
                                      | Internal => rotation ki (rf_freq_ind f) (rf_spec_ind f) (at_ time i) r j
                                      end * nth j gsm 0) (seq 0 (N * (N + 2)))).
Proof. exact gsm_value. Qed.

(** SM, external: the first three coefficients are the RC-index times a factor
    plus a baseline correction, the others are constant. *)
Theorem C64_sm_external_coefficients : forall E c f sm q10 q11 s11 k ki N time nmax rc,
  ch_sm c = Some sm -> ch_delta c = Some (q10, q11, s11) ->
  good_breaks (d_breaks q10) -> good_breaks (d_breaks q11) -> good_breaks (d_breaks s11) ->
  e_sm E = Some f -> rf_dipole f = e_dipole E -> elems time <> [] ->
  (1 <= N)%nat -> (List.length sm = N * (N + 2))%nat -> rot_file f k ki (N * (N + 2)) (N * (N + 2)) -> bfits (sh rc) (sh time) ->
  exists K, synth_coeffs_sm E c time nmax (Some "external"%string) (Some rc) = Ok K /\ csh K = sh time /\
    (cdim K = asked nmax N * (asked nmax N + 2))%nat /\
    forall i p0 p1 p2, valid (sh time) i ->
      used_piece (d_breaks q10) p0 (at_ time i) -> used_piece (d_breaks q11) p1 (at_ time i) -> used_piece (d_breaks s11) p2 (at_ time i) ->
      let v j := match j with
                 | 0%nat => bread rc i * nth 0 sm 0 + baseline q10 p0 (at_ time i)
                 | 1%nat => bread rc i * nth 1 sm 0 + baseline q11 p1 (at_ time i)
                 | 2%nat => bread rc i * nth 2 sm 0 + baseline s11 p2 (at_ time i)
                 | _ => nth j sm 0
                 end in
      forall r, (r < cdim K)%nat ->
        cat K i r = Rsum (map (fun j => rotation k (rf_freq f) (rf_spec f) (at_ time i) r j * v j) (seq 0 (N * (N + 2)))).
Proof. exact sm_external_full. Qed.

(** SM, internal: corrections and constants with the induction response; the
    index terms only rotated, as the index is the induced one. *)
Theorem C64_sm_internal_coefficients : forall E c f sm q10 q11 s11 k ki N time nmax rc,
  ch_sm c = Some sm -> ch_delta c = Some (q10, q11, s11) ->
  good_breaks (d_breaks q10) -> good_breaks (d_breaks q11) -> good_breaks (d_breaks s11) ->
  e_sm E = Some f -> rf_dipole f = e_dipole E -> elems time <> [] ->
  (1 <= N)%nat -> (List.length sm = N * (N + 2))%nat -> rot_file f k ki (N * (N + 2)) (N * (N + 2)) -> bfits (sh rc) (sh time) ->
  exists K, synth_coeffs_sm E c time nmax (Some "internal"%string) (Some rc) = Ok K /\ csh K = sh time /\
    (cdim K = asked nmax N * (asked nmax N + 2))%nat /\
    forall i p0 p1 p2, valid (sh time) i ->
      used_piece (d_breaks q10) p0 (at_ time i) -> used_piece (d_breaks q11) p1 (at_ time i) -> used_piece (d_breaks s11) p2 (at_ time i) ->
      let v j := match j with
                 | 0%nat => baseline q10 p0 (at_ time i)
                 | 1%nat => baseline q11 p1 (at_ time i)
                 | 2%nat => baseline s11 p2 (at_ time i)
                 | _ => nth j sm 0
                 end in
      forall r, (r < cdim K)%nat ->
        cat K i r = Rsum (map (fun j => rotation ki (rf_freq_ind f) (rf_spec_ind f) (at_ time i) r j * v j) (seq 0 (N * (N + 2)))) +
          (if (r <? 3)%nat then
             bread rc i * (rotation k (rf_freq f) (rf_spec f) (at_ time i) r 0 * nth 0 sm 0 +
                           rotation k (rf_freq f) (rf_spec f) (at_ time i) r 1 * nth 1 sm 0 +
                           rotation k (rf_freq f) (rf_spec f) (at_ time i) r 2 * nth 2 sm 0)
           else 0).
Proof. exact sm_internal_full. Qed.

(** source='all' is the external part plus the internal part. *)
Theorem C64_gsm_all_is_external_plus_internal : forall E c f time radius theta phi nmax H,
  e_gsm E = Some f -> spectra3 f -> synth_values_gsm E c time radius theta phi nmax (Some "all"%string) None = Ok H ->
  exists F G, synth_values_gsm E c time radius theta phi nmax (Some "external"%string) None = Ok F /\
    synth_values_gsm E c time radius theta phi nmax (Some "internal"%string) None = Ok G /\
    f_sh F = f_sh H /\ f_sh G = f_sh H /\ broadcast [sh radius; sh theta; sh phi; sh time] = Ok (f_sh H) /\
    forall x, valid (f_sh H) x -> f_r H x = f_r F x + f_r G x /\ f_t H x = f_t F x + f_t G x /\ f_p H x = f_p F x + f_p G x.
Proof. exact gsm_all. Qed.

(** ... and the external part does not see rc_i, the internal part not rc_e. *)
Theorem C64_sm_all_is_external_plus_internal : forall E c f time radius theta phi rc_e rc_i nmax H,
  e_sm E = Some f -> spectra3 f -> synth_values_sm E c time radius theta phi rc_e rc_i nmax (Some "all"%string) None = Ok H ->
  exists F G, (forall other, synth_values_sm E c time radius theta phi rc_e other nmax (Some "external"%string) None = Ok F) /\
    (forall other, synth_values_sm E c time radius theta phi other rc_i nmax (Some "internal"%string) None = Ok G) /\
    f_sh F = f_sh H /\ f_sh G = f_sh H /\ broadcast [sh radius; sh theta; sh phi; sh time] = Ok (f_sh H) /\
    forall x, valid (f_sh H) x -> f_r H x = f_r F x + f_r G x /\ f_t H x = f_t F x + f_t G x /\ f_p H x = f_p F x + f_p G x.
Proof. exact sm_all. Qed.

Theorem C64_default_is_all : forall E c time radius theta phi rc_e rc_i nmax grid,
  synth_values_gsm E c time radius theta phi nmax None grid = synth_values_gsm E c time radius theta phi nmax (Some "all"%string) grid /\
  synth_values_sm E c time radius theta phi rc_e rc_i nmax None grid = synth_values_sm E c time radius theta phi rc_e rc_i nmax (Some "all"%string) grid.
Proof. split; reflexivity. Qed.

(** One source: the field of that source's coefficients. *)
Theorem C64_values_are_the_field_of_the_coefficients : forall E c time radius theta phi rc_e rc_i nmax grid s,
  let field K := synth_values (e_oob E) (e_rsurf E) K radius theta phi None None None (Some (src_name s))
                   (match grid with Some g => g | None => false end) in
  synth_values_gsm E c time radius theta phi nmax (Some (src_name s)) grid =
    bind (synth_coeffs_gsm E c time nmax (Some (src_name s))) field /\
  synth_values_sm E c time radius theta phi rc_e rc_i nmax (Some (src_name s)) grid =
    bind (synth_coeffs_sm E c time nmax (Some (src_name s)) (match s with External => rc_e | Internal => rc_i end)) field.
Proof. intros E c time radius theta phi rc_e rc_i nmax grid [|]; destruct grid; split; reflexivity. Qed.

(** A smaller nmax only drops coefficients. *)
Theorem C64_smaller_degree_is_a_prefix : forall E c time n s rc K K',
  (synth_coeffs_gsm E c time None s = Ok K /\ synth_coeffs_gsm E c time (Some n) s = Ok K') \/
  (synth_coeffs_sm E c time None s rc = Ok K /\ synth_coeffs_sm E c time (Some n) s rc = Ok K') ->
  csh K' = csh K /\ (cdim K' = Nat.min (n * (n + 2)) (cdim K))%nat /\ cat K' = cat K.
Proof. intros E c time n s rc K K' [[H1 H2]|[H1 H2]]; [apply (gsm_prefix _ _ _ _ _ _ _ H1 H2)|apply (sm_prefix _ _ _ _ _ _ _ _ H1 H2)]. Qed.

Example C64_example : exists f gsm sm q10 q11 s11,
  ch_gsm w_chaos = Some gsm /\ ch_static w_chaos <> None /\ e_gsm w_env = Some f /\ e_sm w_env = Some f /\ rf_dipole f = e_dipole w_env /\
  elems w_time <> [] /\ List.length gsm = 3%nat /\ rot_file f 2 1 3 3 /\ spectra3 f /\
  ch_sm w_chaos = Some sm /\ List.length sm = 3%nat /\ ch_delta w_chaos = Some (q10, q11, s11) /\
  good_breaks (d_breaks q10) /\ good_breaks (d_breaks q11) /\ good_breaks (d_breaks s11) /\ bfits (sh w_rc) (sh w_time) /\
  exists B, call w_env w_chaos w_time w_radius w_theta w_phi (Some w_rc) (Some w_rc) SrcNone None = Ok B /\ o_sh B = [2]%nat.
Proof. exact w_hyps. Qed.

(** ** C84 *)
Theorem C84_other_dipole_is_rejected : forall E c f time radius theta phi rc_e rc_i rc nmax source grid,
  rf_dipole f <> e_dipole E ->
  (e_gsm E = Some f -> is_err (synth_coeffs_gsm E c time nmax source) /\ is_err (synth_values_gsm E c time radius theta phi nmax source grid)) /\
  (e_sm E = Some f -> is_err (synth_coeffs_sm E c time nmax source rc) /\ is_err (synth_values_sm E c time radius theta phi rc_e rc_i nmax source grid)).
Proof.
  intros. split; intros He; split.
  - eapply gsm_dipole; eassumption. - eapply gsm_values_dipole; eassumption. - eapply sm_dipole; eassumption. - eapply sm_values_dipole; eassumption.
Qed.

(** If the model has the parts the method needs, the exception is AssertionError. *)
Theorem C84_other_dipole_is_an_AssertionError : forall E c f time radius theta phi rc_e rc_i rc nmax source grid,
  elems time <> [] -> rf_dipole f <> e_dipole E -> (forall s, source = Some s -> In s ["all"; "external"; "internal"]%string) ->
  (e_gsm E = Some f -> ch_gsm c <> None -> ch_static c <> None ->
     synth_coeffs_gsm E c time nmax source = Err AssertionError /\ synth_values_gsm E c time radius theta phi nmax source grid = Err AssertionError) /\
  (forall q10 q11 s11, e_sm E = Some f -> ch_sm c <> None -> ch_delta c = Some (q10, q11, s11) ->
     d_breaks q10 <> [] -> d_breaks q11 <> [] -> d_breaks s11 <> [] ->
     synth_coeffs_sm E c time nmax source rc = Err AssertionError /\
     synth_values_sm E c time radius theta phi rc_e rc_i nmax source grid = Err AssertionError).
Proof. exact dipole_assert. Qed.

Theorem C84_call_with_other_dipole_is_rejected : forall E c f time radius theta phi rc_e rc_i sources nmax_static,
  rf_dipole f <> e_dipole E -> (e_gsm E = Some f /\ In "gsm"%string sources) \/ (e_sm E = Some f /\ In "sm"%string sources) ->
  is_err (call E c time radius theta phi rc_e rc_i (SrcList sources) nmax_static).
Proof. exact call_dipole. Qed.

(** The dipole of the file is (1, 2, 3), another one is configured. *)
Example C84_example : exists f E, e_gsm E = Some f /\ e_sm E = Some f /\ rf_dipole f <> e_dipole E.
Proof. exists w_file, (mkenv (Some w_file) (Some w_file) None [1; 2; 4] 6371.2 0). split; [reflexivity|]. split; [reflexivity|]. cbn. intros H. injection H. lra. Qed.

(** ** C85 *)

(** Without rc the index is interpolated in the table of the configured file;
    the rows of the table may be in any order. *)
Theorem C85_default_index_is_interpolated : forall E c time nmax s tab,
  e_rc E = Some tab -> distinct_times (rc_rows s tab) -> elems time <> [] ->
  (forall i, valid (sh time) i -> covered (rc_rows s tab) (at_ time i)) ->
  exists rc, sh rc = sh time /\ (forall i, valid (sh time) i -> interpolates (rc_rows s tab) (at_ time i) (at_ rc i)) /\
    synth_coeffs_sm E c time nmax (Some (src_name s)) None = synth_coeffs_sm E c time nmax (Some (src_name s)) (Some rc).
Proof. exact default_rc. Qed.

(** [interpolates] determines the value. *)
Theorem C85_interpolation_is_unique : forall rows t v v',
  distinct_times rows -> interpolates rows t v -> interpolates rows t v' -> v = v'.
Proof. exact interpolates_unique. Qed.

(** A time outside the table is an error, whatever the other times are. *)
Theorem C85_times_outside_the_table_are_rejected : forall E c time nmax s tab i rc K,
  e_rc E = Some tab -> valid (sh time) i -> ~ covered (rc_rows s tab) (at_ time i) ->
  synth_coeffs_sm E c time nmax (Some (src_name s)) (Some rc) = Ok K ->
  synth_coeffs_sm E c time nmax (Some (src_name s)) None = Err ValueError.
Proof. exact default_rc_uncovered. Qed.

Example C85_example : exists tab, e_rc w_env = Some tab /\ forall s,
  distinct_times (rc_rows s tab) /\ (forall i, valid (sh w_time) i -> covered (rc_rows s tab) (at_ w_time i)) /\
  ~ covered (rc_rows s tab) 5.
Proof. exact w_rc_ok. Qed.

(** ** C86 *)

(** The GSM field does not need the static part, but cannot be evaluated
    without it. *)
Theorem C86_gsm_without_static_refuted : forall E c gsm time nmax source,
  ch_gsm c = Some gsm -> ch_static c = None -> synth_coeffs_gsm E c time nmax source = Err AttributeError.
Proof. intros E c gsm time nmax source H1 H2. unfold synth_coeffs_gsm. rewrite H1, H2. reflexivity. Qed.

Example C86_example : exists c, chaos_init [0; 1] None None None None (Some [1; 2; 3]) None None None None None MetaNone = Ok c /\
  ch_gsm c = Some [1; 2; 3] /\ ch_static c = None.
Proof. eexists. split; [reflexivity|]. split; reflexivity. Qed.

(** ** C87 *)

(** The angles of a satellite are those of its own breaks and coefficients:
    constant in every interval. *)
Theorem C87_angles_of_a_satellite : forall breaks order tdep static sm gsm dl l ce bc cc meta c sat br D v time r idx i d,
  chaos_init breaks order tdep static sm gsm dl (Some l) (Some ce) bc cc meta = Ok c -> NoDup (map fst l) ->
  In (sat, br) l -> lookup sat ce = Some (mkc3 1 (List.length br - 1) D v) -> good_breaks br ->
  synth_euler_angles c time sat None None XNone = Ok r -> valid (sh time) idx -> (d < D)%nat -> in_interval br i (at_ time idx) ->
  s_at r idx d = Some (v 0%nat i d).
Proof. exact euler_value. Qed.

Theorem C87_evaluation_succeeds : forall breaks order tdep static sm gsm dl l ce bc cc meta c sat br D v time,
  chaos_init breaks order tdep static sm gsm dl (Some l) (Some ce) bc cc meta = Ok c -> NoDup (map fst l) ->
  In (sat, br) l -> lookup sat ce = Some (mkc3 1 (List.length br - 1) D v) -> good_breaks br -> (1 <= D)%nat -> elems time <> [] ->
  exists r, synth_euler_angles c time sat None None XNone = Ok r /\ s_sh r = sh time /\ s_dim r = D.
Proof. exact euler_ok. Qed.

Theorem C87_unknown_satellite_is_reported : forall breaks order tdep static sm gsm dl l ce bc cc meta c sat time dim deriv e,
  chaos_init breaks order tdep static sm gsm dl (Some l) ce bc cc meta = Ok c -> ~ In sat (map fst l) ->
  synth_euler_angles c time sat dim deriv e = Err ValueError.
Proof. exact euler_unknown. Qed.

(** Without meta a model with Euler angles cannot be built. *)
Theorem C87_missing_meta_refuted : forall breaks order tdep sm gsm dl sat br l ce bc cc,
  chaos_init breaks order tdep None sm gsm dl (Some ((sat, br) :: l)) ce bc cc MetaNone = Err TypeError.
Proof. reflexivity. Qed.

Example C87_example : exists c r, chaos_init [0; 2] None None None None None None
    (Some [("a"%string, [0; 1]); ("b"%string, [0; 1; 2])]) (Some [("b"%string, mkc3 1 2 3 (fun _ i d => INR (i + d))); ("a"%string, mkc3 1 1 3 (fun _ _ _ => 0))])
    None None MetaPlain = Ok c /\ synth_euler_angles c (scalar (3/2)) "b" None None XNone = Ok r /\ s_at r [] 2%nat = Some 3.
Proof. exact w_euler. Qed.

(** ** C88 *)

(** The static field is the field of its coefficients up to the degree used,
    at every time. *)
Theorem C88_static_field : forall E breaks order tdep D v sm gsm dl be ce bc cc meta c radius theta phi nmax F idx N,
  chaos_init breaks order tdep (Some (mkc3 1 1 D v)) sm gsm dl be ce bc cc meta = Ok c -> first_break breaks < last_break breaks ->
  synth_values_static E c radius theta phi nmax None None XNone = Ok F ->
  (forall t, In t (elems theta) -> 0 <= t <= 180) -> used_degree D nmax N -> valid (o_sh F) idx ->
  exists G, synth_values (e_oob E) (e_rsurf E) (cvec (map (fun d => v 0%nat 0%nat d) (seq 0 (N * (N + 2)))))
      (scalar (bread radius idx)) (scalar (bread theta idx)) (scalar (bread phi idx))
      (Some 1%Z) (Some (Z.of_nat N)) (Some (Z.of_nat N)) (Some "internal"%string) false = Ok G /\
    o_r F idx = Some (f_r G []) /\ o_t F idx = Some (f_t G []) /\ o_p F idx = Some (f_p G []).
Proof. exact static_value. Qed.

Theorem C88_missing_parts_are_reported : forall E c time radius theta phi nmax deriv grid e source rc rc_e rc_i,
  (ch_tdep c = None -> synth_values_tdep E c time radius theta phi nmax deriv grid e = Err ValueError /\ synth_coeffs_tdep c time nmax deriv e = Err ValueError) /\
  (ch_static c = None -> synth_values_static E c radius theta phi nmax deriv grid e = Err ValueError /\ synth_coeffs_static c nmax deriv e = Err ValueError) /\
  (ch_gsm c = None -> is_err (synth_values_gsm E c time radius theta phi nmax source grid) /\ synth_coeffs_gsm E c time nmax source = Err ValueError) /\
  (ch_sm c = None -> is_err (synth_values_sm E c time radius theta phi rc_e rc_i nmax source grid) /\ synth_coeffs_sm E c time nmax source rc = Err ValueError).
Proof. exact missing_parts. Qed.
Theorem C88_missing_external_parts_are_ValueErrors : forall E c time radius theta phi nmax source grid rc_e rc_i,
  (ch_gsm c = None -> synth_values_gsm E c time radius theta phi nmax source grid = Err ValueError) /\
  (ch_sm c = None -> synth_values_sm E c time radius theta phi rc_e rc_i nmax source grid = Err ValueError).
Proof. exact missing_parts_exact. Qed.
Theorem C88_missing_rotation_files_are_reported : forall E c g st m q10 q11 s11 time nmax s rc, elems time <> [] ->
  (ch_gsm c = Some g -> ch_static c = Some st -> e_gsm E = None -> synth_coeffs_gsm E c time nmax s = Err FileNotFoundError) /\
  (ch_sm c = Some m -> ch_delta c = Some (q10, q11, s11) -> d_breaks q10 <> [] -> d_breaks q11 <> [] -> d_breaks s11 <> [] -> e_sm E = None ->
     synth_coeffs_sm E c time nmax s rc = Err FileNotFoundError).
Proof. exact missing_files. Qed.

Example C88_example : first_break [0; 1; 3] < last_break [0; 1; 3] /\ chaos_init [0; 1; 3] None (Some (mkc3 2 2 8 (fun r i d => INR (r + i + d))))
    (Some (mkc3 1 1 15 (fun _ _ d => INR d))) (Some [10; 20; 30]) (Some [3; 2; 1]) (Some (w_delta 0, w_delta 1, w_delta 2)) None None None None MetaNone = Ok w_chaos /\
  exists B, call w_env w_chaos w_time w_radius w_theta w_phi (Some w_rc) (Some w_rc) (SrcStr "static") None = Ok B.
Proof.
  split; [unfold first_break, last_break; cbn; lra|]. split; [exact w_chaos_init|]. destruct (w_call_any (SrcStr "static")) as (B & H & _). eauto.
Qed.

Print Assumptions C62_call_is_the_sum_of_the_listed_sources.
Print Assumptions C62_call_succeeds_when_its_sources_do.
Print Assumptions C62_complete_model_can_be_evaluated.
Print Assumptions C62_exception_of_a_listed_source_is_passed_on.
Print Assumptions C62_order_and_repetition_do_not_matter.
Print Assumptions C62_shorthands.
Print Assumptions C62_single_source.
Print Assumptions C63_unknown_source_refuted.
Print Assumptions C63_methods_report_unknown_sources.
Print Assumptions C64_gsm_coefficients.
Print Assumptions C64_sm_external_coefficients.
Print Assumptions C64_sm_internal_coefficients.
Print Assumptions C64_gsm_all_is_external_plus_internal.
Print Assumptions C64_sm_all_is_external_plus_internal.
Print Assumptions C64_default_is_all.
Print Assumptions C64_values_are_the_field_of_the_coefficients.
Print Assumptions C64_smaller_degree_is_a_prefix.
Print Assumptions C84_other_dipole_is_rejected.
Print Assumptions C84_call_with_other_dipole_is_rejected.
Print Assumptions C85_default_index_is_interpolated.
Print Assumptions C85_interpolation_is_unique.
Print Assumptions C85_times_outside_the_table_are_rejected.
Print Assumptions C86_gsm_without_static_refuted.
Print Assumptions C87_angles_of_a_satellite.
Print Assumptions C87_evaluation_succeeds.
Print Assumptions C87_unknown_satellite_is_reported.
Print Assumptions C87_missing_meta_refuted.
Print Assumptions C88_static_field.
Print Assumptions C88_missing_parts_are_reported.
Print Assumptions C88_missing_external_parts_are_ValueErrors.
Print Assumptions C88_missing_rotation_files_are_reported.
Print Assumptions C63_unknown_source_of_coefficients_is_a_ValueError.
Print Assumptions C84_other_dipole_is_an_AssertionError.
