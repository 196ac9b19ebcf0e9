(** Properties C65, C66, C89-C92: saving a CHAOS model to a MAT-file and
    loading it. *)
From Coq Require Import Reals List Arith ZArith String Bool Lia Lra.
From Verif Require Import M_Prelude M_ND Spec_Field Spec_PP M_SynthArr M_PP M_Spectrum M_Model M_Rotate M_Chaos M_Matfile Spec_Matfile P_ND P_Chaos4 P_Matfile P_Matfile2 P_Matfile3 P_Matfile4 P_Matfile5 P_Matfile6 P_Matfile7 P_Matfile8 P_Matfile9 W_Matfile.
Import ListNotations.
Open Scope R_scope.

(** ** C65 *)

(** Whatever other parts the model has: once it was saved to a new file and
    the file was loaded, breaks, order, number of pieces and all coefficients
    of both internal parts are those of the model that was saved. *)
Theorem C65_internal_parts_are_reproduced : forall breaks order ct static sm gsm ds be ce bc cc mt c meta f sats c' n1 n2,
  chaos_init breaks order (Some ct) static sm gsm ds be ce bc cc mt = Ok c ->
  (2 <= List.length breaks)%nat -> (1 <= c_k ct)%nat -> c_m ct = (List.length breaks - 1)%nat -> (forall o, order = Some o -> (1 <= o)%Z) ->
  (forall k, static = Some k -> c_k k = 1%nat /\ c_m k = 1%nat) ->
  save_matfile c meta no_file = (f, Ok tt) -> load_CHAOS_matfile f sats = Ok (c', n1, n2) ->
  same_part same_model (ch_tdep c) (ch_tdep c') /\ same_part same_model (ch_static c) (ch_static c').
Proof. exact internal_round_trip. Qed.

(** The reloaded model gives the same coefficients (or the same exception) and
    the same field at every time, position, degree and derivative. *)
Theorem C65_reloaded_model_evaluates_the_same : forall E breaks order ct static sm gsm ds be ce bc cc mt c meta f sats c' n1 n2,
  chaos_init breaks order (Some ct) static sm gsm ds be ce bc cc mt = Ok c ->
  (2 <= List.length breaks)%nat -> (1 <= c_k ct)%nat -> c_m ct = (List.length breaks - 1)%nat -> (3 <= c_d ct)%nat -> (forall o, order = Some o -> (1 <= o)%Z) ->
  (forall k, static = Some k -> c_k k = 1%nat /\ c_m k = 1%nat) ->
  save_matfile c meta no_file = (f, Ok tt) -> load_CHAOS_matfile f sats = Ok (c', n1, n2) ->
  forall time nmax deriv e,
  same_cres (synth_coeffs_tdep c time nmax deriv e) (synth_coeffs_tdep c' time nmax deriv e) /\
  (nmax <> Some 0%nat -> forall radius theta phi grid,
   same_field (synth_values_tdep E c time radius theta phi nmax deriv grid e) (synth_values_tdep E c' time radius theta phi nmax deriv grid e)).
Proof. exact reloaded_tdep. Qed.

Theorem C65_reloaded_static_field_is_the_same : forall E breaks order ct D v sm gsm ds be ce bc cc mt c meta f sats c' n1 n2,
  chaos_init breaks order (Some ct) (Some (mkc3 1 1 D v)) sm gsm ds be ce bc cc mt = Ok c ->
  (2 <= List.length breaks)%nat -> (1 <= c_k ct)%nat -> c_m ct = (List.length breaks - 1)%nat -> (3 <= D)%nat -> (forall o, order = Some o -> (1 <= o)%Z) ->
  save_matfile c meta no_file = (f, Ok tt) -> load_CHAOS_matfile f sats = Ok (c', n1, n2) ->
  forall nmax deriv e,
  same_cres (synth_coeffs_static c nmax deriv e) (synth_coeffs_static c' nmax deriv e) /\
  (nmax <> Some 0%nat -> forall radius theta phi grid,
   same_field (synth_values_static E c radius theta phi nmax deriv grid e) (synth_values_static E c' radius theta phi nmax deriv grid e)).
Proof. exact reloaded_static. Qed.

(** Saving and loading succeed for every model with internal parts only ... *)
Theorem C65_internal_models_can_be_saved_and_loaded : forall breaks order ct static meta sats mt,
  (2 <= List.length breaks)%nat -> (1 <= c_k ct)%nat -> c_m ct = (List.length breaks - 1)%nat -> (forall o, order = Some o -> (1 <= o)%Z) ->
  exists c f c', chaos_init breaks order (Some ct) static None None None None None None None mt = Ok c /\
    save_matfile c meta no_file = (f, Ok tt) /\ load_CHAOS_matfile f sats = Ok (c', sat_list sats, sat_list sats).
Proof. exact internal_success. Qed.

(** ... and for complete models, with Euler angles of several satellites (not
    all with the same number of intervals) and the calibration of one. *)
Theorem C65_complete_models_can_be_saved_and_loaded : forall breaks order ct D sv sm gsm q10 q11 s11 lb lc sat bcal kcal mt pre c,
  chaos_init breaks order (Some ct) (Some (mkc3 1 1 D sv)) (Some sm) (Some gsm) (Some (q10, q11, s11)) (Some lb) (Some lc) (Some [(sat, bcal)]) (Some [(sat, kcal)]) mt = Ok c ->
  (2 <= List.length breaks)%nat -> (1 <= c_k ct)%nat -> c_m ct = (List.length breaks - 1)%nat -> (forall o, order = Some o -> (1 <= o)%Z) ->
  (3 <= List.length sm)%nat -> (4 <= List.length gsm)%nat -> d_order q10 = 1%nat -> d_order q11 = 1%nat -> d_order s11 = 1%nat ->
  d_breaks q11 = d_breaks s11 -> (3 <= List.length (d_breaks q11))%nat ->
  NoDup (map fst lb) -> (forall s br, In (s, br) lb -> exists K, lookup s lc = Some K /\ good_angles br K) ->
  (exists s1 b1 s2 b2, In (s1, b1) lb /\ In (s2, b2) lb /\ bins b1 <> bins b2) -> (List.length lb <= List.length pre)%nat ->
  (2 <= List.length bcal)%nat -> c_k kcal = 1%nat -> c_m kcal = (List.length bcal - 1)%nat -> c_d kcal = 9%nat ->
  exists f c', save_matfile c (SMeta pre (map fst lb)) no_file = (f, Ok tt) /\
    load_CHAOS_matfile f (Some (map fst lb)) = Ok (c', map fst lb, map fst lb).
Proof. exact complete. Qed.

Example C65_example : exists c f c',
  chaos_init v_breaks None (Some v_ct) (Some v_static) (Some v_sm) (Some v_gsm) (Some v_deltas)
    (Some v_lb) (Some v_lc) (Some [("x"%string, [0; 5])]) (Some [("x"%string, v_cal)]) (MetaPre v_pre) = Ok c /\
  save_matfile c (SMeta v_pre (map fst v_lb)) no_file = (f, Ok tt) /\
  load_CHAOS_matfile f (Some (map fst v_lb)) = Ok (c', map fst v_lb, map fst v_lb).
Proof. apply v_complete. cbn. lia. Qed.

(** ** C66 *)

(** All SM coefficients and the baseline corrections are reproduced; of the
    GSM coefficients only those at positions 0 and 3 (n = 1, 2 and m = 0)
    are, the others become zero. *)
Theorem C66_external_part_partial : forall c meta f0 f sats c' n1 n2 sm gsm q10 q11 s11,
  ch_sm c = Some sm -> ch_gsm c = Some gsm -> ch_delta c = Some (q10, q11, s11) ->
  (3 <= List.length sm)%nat -> (4 <= List.length gsm)%nat -> d_order q10 = 1%nat -> d_order q11 = 1%nat -> d_order s11 = 1%nat ->
  (List.length (d_breaks q11) - 1 = List.length (d_breaks s11) - 1)%nat ->
  save_matfile c meta f0 = (f, Ok tt) -> load_CHAOS_matfile f sats = Ok (c', n1, n2) ->
  ch_sm c' = Some sm /\ ch_gsm c' = Some [nth 0 gsm 0; 0; 0; nth 3 gsm 0; 0; 0; 0; 0] /\
  exists a b d, ch_delta c' = Some (a, b, d) /\ same_delta q10 a /\ same_delta q11 b /\
    d_breaks d = d_breaks q11 /\ d_order d = 1%nat /\ forall i, (i < List.length (d_breaks s11) - 1)%nat -> d_coeffs d 0%nat i = d_coeffs s11 0%nat i.
Proof. exact ext_parts. Qed.

(** Hence the reloaded model gives the same SM coefficients. *)
Theorem C66_sm_coefficients_evaluate_the_same : forall E c meta f0 f sats c' n1 n2 sm gsm q10 q11 s11,
  ch_sm c = Some sm -> ch_gsm c = Some gsm -> ch_delta c = Some (q10, q11, s11) ->
  (3 <= List.length sm)%nat -> (4 <= List.length gsm)%nat -> d_order q10 = 1%nat -> d_order q11 = 1%nat -> d_order s11 = 1%nat ->
  d_breaks q11 = d_breaks s11 -> (2 <= List.length (d_breaks q10))%nat -> (2 <= List.length (d_breaks q11))%nat ->
  save_matfile c meta f0 = (f, Ok tt) -> load_CHAOS_matfile f sats = Ok (c', n1, n2) ->
  forall time nmax source rc, synth_coeffs_sm E c time nmax source rc = synth_coeffs_sm E c' time nmax source rc.
Proof. exact reloaded_sm. Qed.

(** A GSM coefficient is lost without an error. *)
Theorem C66_gsm_coefficients_refuted : exists c f c', ch_gsm c = Some v_gsm_full /\
  save_matfile c (SMeta v_pre (map fst v_lb)) no_file = (f, Ok tt) /\
  load_CHAOS_matfile f (Some (map fst v_lb)) = Ok (c', map fst v_lb, map fst v_lb) /\ ch_gsm c' <> ch_gsm c.
Proof. exact gsm_lost. Qed.

(** A model whose q11 and s11 corrections have one interval is saved to a file
    that cannot be loaded, for every such model. *)
Theorem C66_one_interval_cannot_be_loaded_refuted : forall c meta f0 f sats sm gsm q10 q11 s11,
  ch_sm c = Some sm -> ch_gsm c = Some gsm -> ch_delta c = Some (q10, q11, s11) ->
  (3 <= List.length sm)%nat -> (4 <= List.length gsm)%nat -> d_order q10 = 1%nat -> d_order q11 = 1%nat -> d_order s11 = 1%nat ->
  (List.length (d_breaks q11) - 1 = 1)%nat -> (List.length (d_breaks s11) - 1 = 1)%nat ->
  save_matfile c meta f0 = (f, Ok tt) -> exists e, load_CHAOS_matfile f sats = Err e.
Proof. exact ext_single. Qed.

Example C66_one_interval_example : exists f, save_matfile (ext_only (v_short 1, v_short 2, v_short 3)) SNone no_file = (f, Ok tt) /\
  exists e, load_CHAOS_matfile f None = Err e.
Proof. exact single_bin. Qed.

(** ** C89 *)

(** The angles of every satellite are reproduced, under its name. *)
Theorem C89_euler_angles_are_reproduced : forall breaks order tdep static sm gsm ds lb lc bc cc mt c pre f0 f arg c' n1 n2,
  chaos_init breaks order tdep static sm gsm ds (Some lb) (Some lc) bc cc mt = Ok c ->
  NoDup (map fst lb) -> (forall s br, In (s, br) lb -> exists K, lookup s lc = Some K /\ good_angles br K) ->
  (exists s1 b1 s2 b2, In (s1, b1) lb /\ In (s2, b2) lb /\ bins b1 <> bins b2) -> (List.length lb <= List.length pre)%nat ->
  fst (name_satellites (List.length lb) (sat_list arg)) = map fst lb ->
  save_matfile c (SMeta pre (map fst lb)) f0 = (f, Ok tt) -> load_CHAOS_matfile f arg = Ok (c', n1, n2) ->
  n1 = map fst lb /\ exists es es', ch_euler c = Some es /\ ch_euler c' = Some es' /\ map fst es' = map fst lb /\
    forall s, In s (map fst lb) -> exists e e', lookup s es = Some e /\ lookup s es' = Some e' /\ same_base (eu_base e) (eu_base e').
Proof. exact reloaded_angles. Qed.

(** and evaluate to the same values *)
Theorem C89_euler_angles_evaluate_the_same : forall breaks order tdep static sm gsm ds lb lc bc cc mt c pre f0 f arg c' n1 n2,
  chaos_init breaks order tdep static sm gsm ds (Some lb) (Some lc) bc cc mt = Ok c ->
  NoDup (map fst lb) -> (forall s br, In (s, br) lb -> exists K, lookup s lc = Some K /\ good_angles br K) ->
  (exists s1 b1 s2 b2, In (s1, b1) lb /\ In (s2, b2) lb /\ bins b1 <> bins b2) -> (List.length lb <= List.length pre)%nat ->
  fst (name_satellites (List.length lb) (sat_list arg)) = map fst lb ->
  save_matfile c (SMeta pre (map fst lb)) f0 = (f, Ok tt) -> load_CHAOS_matfile f arg = Ok (c', n1, n2) ->
  forall time sat dim deriv e, In sat (map fst lb) ->
    same_cres (synth_euler_angles c time sat dim deriv e) (synth_euler_angles c' time sat dim deriv e).
Proof. exact reloaded_angles_values. Qed.

(** A file with Euler angles but without params cannot be loaded, although the
    loader announces the missing entry by a warning only. *)
Theorem C89_missing_params_refuted : forall f u t tb arg, mf_euler f = Some u -> u_breaks u = Cells (t :: tb) -> mf_params f = None ->
  exists e, load_CHAOS_matfile f arg = Err e.
Proof. exact euler_needs_params. Qed.

Example C89_example : NoDup (map fst v_lb) /\ (forall s br, In (s, br) v_lb -> exists K, lookup s v_lc = Some K /\ good_angles br K) /\
  (exists s1 b1 s2 b2, In (s1, b1) v_lb /\ In (s2, b2) v_lb /\ bins b1 <> bins b2) /\ (List.length v_lb <= List.length v_pre)%nat /\
  fst (name_satellites (List.length v_lb) (sat_list (Some ["a"; "b"; "c"]%string))) = map fst v_lb.
Proof. split; [exact v_nodup|]. split; [exact v_angles|]. split; [exact v_bins|]. split; [cbn; lia|reflexivity]. Qed.

(** ** C90 *)

(** n satellites in the file get the first n names of the user, and generic
    names with their number from then on. *)
Theorem C90_names : forall n sats, let used := fst (name_satellites n sats) in
  List.length used = n /\
  (forall i, (i < n)%nat -> nth i used EmptyString = if (i <? List.length sats)%nat then nth i sats EmptyString else generic_name (i + 1)).
Proof. exact names_spec. Qed.

Theorem C90_names_are_distinct : forall n sats, NoDup sats -> (forall k, (List.length sats < k <= n)%nat -> ~ In (generic_name k) sats) ->
  NoDup (fst (name_satellites n sats)).
Proof. exact names_nodup. Qed.

(** Generic names may clash with the user's. *)
Theorem C90_clash_refuted : exists sats, NoDup sats /\ ~ NoDup (fst (name_satellites 2 sats)).
Proof. exact name_clash. Qed.

(** The list passed by the caller is extended by the generic names. *)
Theorem C90_caller_list_is_changed_refuted : forall f u tb sats c' n1 n2, mf_euler f = Some u -> u_breaks u = Cells tb ->
  load_CHAOS_matfile f (Some sats) = Ok (c', n1, n2) ->
  n2 = (sats ++ map generic_name (seq (List.length sats + 1) (List.length tb - List.length sats)))%list.
Proof. exact caller_list. Qed.

Example C90_example : name_satellites 4 ["a"; "b"]%string = (["a"; "b"; "satellite_3"; "satellite_4"], ["a"; "b"; "satellite_3"; "satellite_4"])%string.
Proof. reflexivity. Qed.

(** ** C91 *)

(** Parts that the model does not have are left in the file as they were. *)
Theorem C91_other_parts_are_kept : forall c meta f0 f, save_matfile c meta f0 = (f, Ok tt) ->
  (ch_tdep c = None -> mf_pp f = mf_pp f0) /\ (ch_delta c = None -> mf_ext f = mf_ext f0) /\ (ch_euler c = None -> mf_euler f = mf_euler f0) /\
  (ch_cal c = None -> mf_cal f = mf_cal f0) /\ (ch_static c = None -> mf_g f = mf_g f0).
Proof. exact save_keeps. Qed.

(** Hence a model without static part, saved over an older file, comes back
    with the old static part. *)
Theorem C91_stale_part_refuted : exists c1 f1 f2 c', chaos_init v_breaks None (Some v_ct) (Some v_static) None None None None None None None MetaNone = Ok c1 /\
  save_matfile c1 SNone no_file = (f1, Ok tt) /\ save_matfile tdep_only SNone f1 = (f2, Ok tt) /\
  load_CHAOS_matfile f2 None = Ok (c', default_satellites, default_satellites) /\ ch_static tdep_only = None /\ ch_static c' <> None.
Proof. exact stale. Qed.

(** A save that raises an exception leaves a half-written file. *)
Theorem C91_failed_save_refuted : exists f, chaos_init v_breaks None (Some v_ct) None None None (Some v_deltas) None None None None MetaNone = Ok no_sm /\
  save_matfile no_sm SNone no_file = (f, Err TypeError) /\ mf_pp f <> None.
Proof. exact half_written. Qed.

(** ** C92 *)

(** The calibration of a single satellite is reproduced, but its name is
    replaced by cryosat-2_1. *)
Theorem C92_calibration_partial : forall c sat br K f0 f meta arg c' n1 n2,
  ch_cal c = Some [(sat, base_init (Some br) (Some 1%Z) (Some K))] -> (2 <= List.length br)%nat -> c_k K = 1%nat -> c_m K = (List.length br - 1)%nat -> c_d K = 9%nat ->
  save_matfile c meta f0 = (f, Ok tt) -> load_CHAOS_matfile f arg = Ok (c', n1, n2) ->
  exists b', ch_cal c' = Some [("cryosat-2_1"%string, b')] /\ same_base (base_init (Some br) (Some 1%Z) (Some K)) b'.
Proof. exact reloaded_cal. Qed.

(** With calibrations of several satellites the file cannot be loaded. *)
Theorem C92_several_satellites_refuted : forall c e1 e2 l f0 f meta arg,
  ch_cal c = Some (e1 :: e2 :: l) -> save_matfile c meta f0 = (f, Ok tt) -> exists e, load_CHAOS_matfile f arg = Err e.
Proof. exact cal_several. Qed.

Example C92_example : exists c, chaos_init v_breaks None (Some v_ct) (Some v_static) (Some v_sm) (Some v_gsm) (Some v_deltas)
    (Some v_lb) (Some v_lc) (Some [("x"%string, [0; 5])]) (Some [("x"%string, v_cal)]) (MetaPre v_pre) = Ok c /\
  ch_cal c = Some [("x"%string, base_init (Some [0; 5]) (Some 1%Z) (Some v_cal))].
Proof. eexists. split; reflexivity. Qed.

Print Assumptions C65_internal_parts_are_reproduced.
Print Assumptions C65_reloaded_model_evaluates_the_same.
Print Assumptions C65_reloaded_static_field_is_the_same.
Print Assumptions C65_internal_models_can_be_saved_and_loaded.
Print Assumptions C65_complete_models_can_be_saved_and_loaded.
Print Assumptions C66_external_part_partial.
Print Assumptions C66_sm_coefficients_evaluate_the_same.
Print Assumptions C66_gsm_coefficients_refuted.
Print Assumptions C66_one_interval_cannot_be_loaded_refuted.
Print Assumptions C89_euler_angles_are_reproduced.
Print Assumptions C89_euler_angles_evaluate_the_same.
Print Assumptions C89_missing_params_refuted.
Print Assumptions C90_names.
Print Assumptions C90_names_are_distinct.
Print Assumptions C90_clash_refuted.
Print Assumptions C90_caller_list_is_changed_refuted.
Print Assumptions C91_other_parts_are_kept.
Print Assumptions C91_stale_part_refuted.
Print Assumptions C91_failed_save_refuted.
Print Assumptions C92_calibration_partial.
Print Assumptions C92_several_satellites_refuted.
