(** Property C141: exceptions of invalid calls. *)
From Coq Require Import Reals QArith List Arith ZArith String Bool Lia Lra.
From Verif Require Import M_Prelude M_ND Spec_Field Spec_PP Spec_Coord Spec_Chaos M_SynthArr M_PP M_Spectrum M_Model M_Rotate M_Coord M_CoordArr M_Chaos Spec_ChaosApi M_Text M_Loaders Spec_Loaders Spec_Invalid P_Invalid W_Chaos.
Import ListNotations.
Open Scope R_scope.

(** An empty array of times. *)
Theorem C141_empty_times : forall x K D c time dim deriv e,
  (2 <= List.length x)%nat -> (1 <= K)%nat -> (1 <= D)%nat -> elems time = [] ->
  synth_coeffs (base_init (Some x) None (Some (mkc3 K (List.length x - 1) D c))) time dim deriv e = Err ValueError.
Proof. exact empty_time. Qed.

Theorem C141_empty_times_of_the_model : forall E c m x K D v time,
  ch_tdep c = Some m -> m_base m = base_init (Some x) None (Some (mkc3 K (List.length x - 1) D v)) ->
  m_nmax m <> None -> (2 <= List.length x)%nat -> (1 <= K)%nat -> (1 <= D)%nat -> elems time = [] -> forall nmax deriv e,
  synth_coeffs_tdep c time nmax deriv e = Err ValueError /\
  forall radius theta phi grid, synth_values_tdep E c time radius theta phi nmax deriv grid e = Err ValueError.
Proof. exact empty_time_tdep. Qed.

Theorem C141_empty_times_of_external_parts : forall E c time nmax source rc, elems time = [] ->
  (ch_gsm c <> None -> ch_static c <> None -> synth_coeffs_gsm E c time nmax source = Err ValueError) /\
  (forall q10 q11 s11, ch_sm c <> None -> ch_delta c = Some (q10, q11, s11) -> d_breaks q10 <> [] -> d_breaks q11 <> [] -> d_breaks s11 <> [] ->
     synth_coeffs_sm E c time nmax source rc = Err ValueError).
Proof. exact empty_time_ext. Qed.

(** A reference frame that is none of GSM, SM, MAG in any spelling, or none. *)
Theorem C141_unknown_reference : forall cfg theta phi B_theta B_phi time r inverse dip,
  (forall k s, r = Some s -> ~ In s (spellings k)) ->
  transform_points_nd cfg theta phi time r inverse dip = Err ValueError /\
  transform_vectors_nd cfg theta phi B_theta B_phi time r inverse dip = Err ValueError.
Proof. exact unknown_reference_nd. Qed.

(** GSM and SM without a time. *)
Theorem C141_missing_time : forall cfg theta phi B_theta B_phi k r inverse dip v,
  In r (spellings k) -> k <> MAG -> dipole_to_vec_nd cfg dip = Ok v ->
  transform_points_nd cfg theta phi None (Some r) inverse dip = Err TypeError /\
  transform_vectors_nd cfg theta phi B_theta B_phi None (Some r) inverse dip = Err TypeError.
Proof. exact missing_time_nd. Qed.

(** The call of the model evaluates the listed sources in the order tdep,
    static, gsm, sm, whatever the order of the list, and raises the exception
    of the first one that fails. *)
Theorem C141_first_exception_of_a_call : forall E c time radius theta phi rc_e rc_i nmax_static l s e B,
  In s all_sources -> In s l -> contribution E c time radius theta phi rc_e rc_i nmax_static s = Err e ->
  call E c time radius theta phi rc_e rc_i (SrcList (listed_before s l)) nmax_static = Ok B ->
  call E c time radius theta phi rc_e rc_i (SrcList l) nmax_static = Err e.
Proof. exact first_exception. Qed.

Theorem C141_incompatible_shapes_of_a_call : forall E c time radius theta phi rc_e rc_i nmax_static sources,
  (forall g, broadcast [sh time; sh radius; sh theta; sh phi] <> Ok g) ->
  call E c time radius theta phi rc_e rc_i sources nmax_static = Err ValueError.
Proof. intros. apply incompatible_call. assumption. Qed.

(** Model files that end before the sizes are known. *)
Theorem C141_truncated_headers : forall content,
  (covobs_truncated content -> load_CovObs_txtfile content = Err IndexError) /\
  (gufm1_truncated content -> load_gufm1_txtfile content = Err IndexError) /\
  (cals7k_truncated content -> load_CALS7K_txtfile content = Err IndexError).
Proof. intros content. split; [apply covobs_short|]. split; [apply gufm1_short|apply cals7k_short]. Qed.

(** ** Examples *)
Example C141_empty : elems (vec 0 []) = [] /\ ch_gsm w_chaos <> None /\ ch_static w_chaos <> None.
Proof. split; [reflexivity|]. split; discriminate. Qed.

Example C141_references : (forall k s, Some "geo"%string = Some s -> ~ In s (spellings k)) /\ In "Gsm"%string (spellings GSM) /\
  dipole_to_vec_nd (1, 2, 3) NNone = Ok (scalar (unit3 (1, 2, 3))).
Proof.
  split; [|split; [cbn; tauto|reflexivity]]. intros k s H. injection H as <-. destruct k; cbn; intros X; repeat (destruct X as [X|X]; [discriminate|]); exact X.
Qed.

(** no time-dependent part: ValueError, although other sources come first in
    the list *)
Example C141_call : forall E, let c := mkchaos None None None None None None None in
  contribution E c (scalar 0) (scalar 6371) (scalar 45) (scalar 0) None None None "tdep" = Err ValueError /\
  listed_before "tdep" ["sm"; "tdep"]%string = [] /\ listed_before "gsm" ["sm"; "gsm"; "tdep"]%string = ["tdep"%string] /\
  (exists B, call E c (scalar 0) (scalar 6371) (scalar 45) (scalar 0) None None (SrcList []) None = Ok B) /\
  call E c (scalar 0) (scalar 6371) (scalar 45) (scalar 0) None None (SrcList ["sm"; "tdep"]%string) None = Err ValueError.
Proof.
  intros E c. split; [reflexivity|]. split; [reflexivity|]. split; [reflexivity|]. split; [eexists; reflexivity|].
  apply (first_exception E c _ _ _ _ _ _ _ ["sm"; "tdep"]%string "tdep"%string _ (mkofield [] (fun _ => Some 0) (fun _ => Some 0) (fun _ => Some 0))); [cbn; tauto|cbn; tauto|reflexivity|reflexivity].
Qed.

Example C141_shapes : forall g, broadcast [sh (vec 0 [1; 2]); sh (vec 0 [1; 2; 3]); sh (scalar 0); sh (scalar 0)] <> Ok g.
Proof. intros g H. discriminate. Qed.

Example C141_headers : covobs_truncated (txt "COV-OBS") /\ gufm1_truncated [] /\ cals7k_truncated (txt "1 2D0") /\ load_CALS7K_txtfile (txt "1 2D0") = Err IndexError.
Proof.
  split; [left; cbn; lia|]. split; [left; reflexivity|].
  assert (H : cals7k_truncated (txt "1 2D0")).
  { exists [inject_Z 1; inject_Z 2]. split; [|cbn; lia]. unfold numbers_D. vm_compute words. repeat (apply Forall2_cons; [vm_compute; reflexivity|]); apply Forall2_nil. }
  split; [exact H|]. apply cals7k_short. exact H.
Qed.

Print Assumptions C141_empty_times.
Print Assumptions C141_empty_times_of_the_model.
Print Assumptions C141_empty_times_of_external_parts.
Print Assumptions C141_unknown_reference.
Print Assumptions C141_missing_time.
Print Assumptions C141_first_exception_of_a_call.
Print Assumptions C141_incompatible_shapes_of_a_call.
Print Assumptions C141_truncated_headers.
