(** Property C140: the contents of a saved MAT-file, and the models that
    cannot be saved. *)
From Coq Require Import Reals List Arith ZArith String Bool Lia Lra.
From Verif Require Import M_Prelude M_ND Spec_Field Spec_PP M_SynthArr M_PP M_Spectrum M_Model M_Chaos M_Matfile Spec_Matfile Spec_MatContent P_Matfile P_Matfile2 P_Matfile3 P_Chaos4 P_Matfile4 P_Matfile5 P_Matfile6 P_Matfile7 P_Matfile8 W_Matfile P_MatContent P_MatContent2.
Import ListNotations.
Open Scope R_scope.

(** pp: order, pieces and dim, the breaks as a row, and the coefficients with
    one row per piece and component (pieces first) and one column per power. *)
Theorem C140_time_dependent_part : forall c meta f0 f m x K D v,
  save_matfile c meta f0 = (f, Ok tt) -> ch_tdep c = Some m -> made_from (m_base m) x K D v ->
  exists pp, mf_pp f = Some pp /\ pp_order pp = K /\ pp_pieces pp = (List.length x - 1)%nat /\ pp_dim pp = D /\
    matrix (pp_breaks pp) 1 (List.length x) (fun _ j => nth j x 0) /\
    matrix (pp_coefs pp) ((List.length x - 1) * D) K (fun p r => v r (p / D) (p mod D))%nat.
Proof. exact saved_made. Qed.

(** MATLAB's ppval of pp has the values of the model. *)
Theorem C140_matlab_evaluates_the_same : forall c meta f0 f x K D v m,
  save_matfile c meta f0 = (f, Ok tt) -> ch_tdep c = Some m ->
  m_base m = base_init (Some x) None (Some (mkc3 K (List.length x - 1) D v)) -> good_breaks x -> (1 <= K)%nat ->
  exists pp, mf_pp f = Some pp /\
    forall time e r idx i d, valid (sh time) idx -> (d < D)%nat -> synth_coeffs (m_base m) time None None e = Ok r ->
      in_interval x i (at_ time idx) -> s_at r idx d = Some (ppval pp i d (at_ time idx)).
Proof. exact saved_ppval. Qed.

(** g: the static coefficients as a column. *)
Theorem C140_static_part : forall c meta f0 f D v m,
  save_matfile c meta f0 = (f, Ok tt) -> ch_static c = Some m -> b_coeffs (m_base m) = Some (mkc3 1 1 D v) ->
  exists g, mf_g f = Some g /\ matrix g D 1 (fun d _ => v 0%nat 0%nat d).
Proof. exact saved_static. Qed.

(** params: the prerotation angles of the meta data. *)
Theorem C140_parameters : forall c meta f0 f, save_matfile c meta f0 = (f, Ok tt) ->
  mf_params f = match meta with SNone => mf_params f0 | SMeta pre _ => Some pre end.
Proof. exact saved_params. Qed.

(** model_ext: baseline corrections as columns (q11 and s11 side by side); in
    m_sm the first three SM coefficients are replaced by the means of the
    corrections, their values are in m_Dst; m_gsm has GSM coefficients 0 and 3. *)
Theorem C140_external_part : forall c meta f0 f sm gsm q10 q11 s11, save_matfile c meta f0 = (f, Ok tt) ->
  ch_delta c = Some (q10, q11, s11) -> ch_sm c = Some sm -> ch_gsm c = Some gsm ->
  exists x, mf_ext f = Some x /\ (3 <= List.length sm)%nat /\ (4 <= List.length gsm)%nat /\
    (d_order q11 * intervals q11 = d_order s11 * intervals s11)%nat /\
    matrix (x_tq10 x) (List.length (d_breaks q10)) 1 (fun i _ => nth i (d_breaks q10) 0) /\
    matrix (x_q10 x) (d_order q10 * intervals q10) 1 (fun p _ => d_coeffs q10 (p / intervals q10) (p mod intervals q10))%nat /\
    matrix (x_tqs11 x) (List.length (d_breaks q11)) 1 (fun i _ => nth i (d_breaks q11) 0) /\
    matrix (x_qs11 x) (d_order q11 * intervals q11) 2
      (fun p j => if (j =? 0)%nat then d_coeffs q11 (p / intervals q11)%nat (p mod intervals q11)%nat
                                  else d_coeffs s11 (p / intervals s11)%nat (p mod intervals s11)%nat) /\
    matrix (x_sm x) (List.length sm) 1
      (fun i _ => match i with 0%nat => average q10 | 1%nat => average q11 | 2%nat => average s11 | _ => nth i sm 0 end) /\
    matrix (x_dst x) 3 1 (fun i _ => nth i sm 0) /\
    matrix (x_gsm x) 2 1 (fun i _ => nth (3 * i) gsm 0).
Proof. exact saved_ext. Qed.

(** model_Euler: one cell per satellite of the meta data, in their order, with
    the breaks (one, if the first and the last are equal) and the three angles
    as columns; cells of one shape are merged by NumPy into one array. *)
Theorem C140_euler_angles : forall c meta f0 f q es, save_matfile c meta f0 = (f, Ok tt) -> ch_euler c = Some (q :: es) ->
  exists pre sats u, meta = SMeta pre sats /\ mf_euler f = Some u /\
    (forall w, In w [u_breaks u; u_alpha u; u_beta u; u_gamma u] -> List.length (contents w) = List.length sats /\
       (stacked w <-> contents w <> [] /\ forall a b, In a (contents w) -> In b (contents w) -> a_sh a = a_sh b)) /\
    forall k s, nth_error sats k = Some s -> exists e x C ta a b g,
      lookup s (q :: es) = Some e /\ b_breaks (eu_base e) = Some x /\ b_coeffs (eu_base e) = Some C /\ (3 <= c_d C)%nat /\
      nth_error (contents (u_breaks u)) k = Some ta /\ nth_error (contents (u_alpha u)) k = Some a /\
      nth_error (contents (u_beta u)) k = Some b /\ nth_error (contents (u_gamma u)) k = Some g /\
      matrix ta (List.length (reduced x)) 1 (fun i _ => nth i (reduced x) 0) /\ matrix a (c_m C) 1 (fun i _ => c_v C 0%nat i 0%nat) /\
      matrix b (c_m C) 1 (fun i _ => c_v C 0%nat i 1%nat) /\ matrix g (c_m C) 1 (fun i _ => c_v C 0%nat i 2%nat).
Proof. exact saved_euler. Qed.

(** pp_CAL: one pp-form per satellite of the calibration. *)
Theorem C140_calibration : forall c meta f0 f q cs, save_matfile c meta f0 = (f, Ok tt) -> ch_cal c = Some (q :: cs) ->
  exists l, mf_cal f = Some l /\ List.length l = List.length (q :: cs) /\
    forall k s b x K D v, nth_error (q :: cs) k = Some (s, b) -> made_from b x K D v -> exists pp, nth_error l k = Some pp /\ pp_form pp x K D v.
Proof. exact saved_cal. Qed.

(** ** Models that cannot be saved *)

(** Saving succeeds unless the external part or the Euler angles are not
    fully specified ... *)
Theorem C140_complete_models_are_saved : forall c meta f0, well_made c -> no_ext_problem c -> no_euler_problem c meta ->
  exists f, save_matfile c meta f0 = (f, Ok tt).
Proof. exact saves. Qed.

(** ... and otherwise raises the exception of the first problem, after the
    parts before it have been written to the file. *)
Theorem C140_incomplete_external_part : forall c meta f0 q10 q11 s11 e, well_made c -> ch_delta c = Some (q10, q11, s11) ->
  ext_problem (ch_sm c) (ch_gsm c) q11 s11 e ->
  exists f, save_matfile c meta f0 = (f, Err e) /\ save_matfile (only_tdep c) SNone f0 = (f, Ok tt).
Proof. exact fails_ext. Qed.

Theorem C140_incomplete_euler_angles : forall c meta f0 q es e, well_made c -> no_ext_problem c -> ch_euler c = Some (q :: es) ->
  euler_problem (q :: es) meta e ->
  exists f, save_matfile c meta f0 = (f, Err e) /\ save_matfile (tdep_and_ext c) SNone f0 = (f, Ok tt).
Proof. exact fails_euler. Qed.

(** ** Examples *)
Example C140_example : exists c f, chaos_init v_breaks None (Some v_ct) (Some v_static) (Some v_sm) (Some v_gsm) (Some v_deltas)
    (Some v_lb) (Some v_lc) (Some [("x"%string, [0; 5])]) (Some [("x"%string, v_cal)]) (MetaPre v_pre) = Ok c /\
  save_matfile c (SMeta v_pre (map fst v_lb)) no_file = (f, Ok tt) /\
  (exists m, ch_tdep c = Some m /\ made_from (m_base m) v_breaks 2 8 (fun r i d => INR (r + i + d))) /\
  exists x, mf_ext f = Some x /\ nth 0 (a_v (x_sm x)) 0 = 3 / 2 /\ nth 3 (a_v (x_sm x)) 0 = 1 /\ nth 0 (a_v (x_dst x)) 0 = 10.
Proof.
  destruct (v_complete v_gsm) as (c & f & c' & H1 & H2 & _); [cbn; lia|]. exists c, f. split; [exact H1|]. split; [exact H2|].
  destruct (init_parts _ _ _ _ _ _ _ _ _ _ _ _ _ H1) as (P1 & _ & _ & P4 & P5 & P6 & _). split.
  - eexists. split; [exact P1|]. split; [reflexivity|split; cbn; lia].
  - destruct (saved_ext _ _ _ _ _ _ _ _ _ H2 P6 P4 P5) as (x & X1 & _ & _ & _ & _ & _ & _ & _ & (_ & _ & X2) & (_ & _ & X3) & _).
    exists x. split; [exact X1|]. specialize (X2 0%nat 0%nat) as Y0. specialize (X2 3%nat 0%nat) as Y3. specialize (X3 0%nat 0%nat) as Z0.
    cbn in Y0, Y3, Z0. rewrite Y0, Y3, Z0 by lia. unfold average, intervals. cbn. repeat split; lra.
Qed.

(** baseline corrections without SM coefficients; Euler angles without meta
    data, or with a satellite that the model does not have *)
Example C140_no_sm : well_made no_sm /\ ext_problem (ch_sm no_sm) (ch_gsm no_sm) (v_delta 2) (v_delta 3) TypeError /\ ch_delta no_sm = Some v_deltas.
Proof.
  split; [|split; [apply ep_no_sm; reflexivity|reflexivity]]. split; [|split; [discriminate|split; discriminate]].
  intros m Em. injection Em as <-. exists v_breaks, 2%nat, 8%nat, (fun r i d => INR (r + i + d)). split; [reflexivity|split; cbn; lia].
Qed.

Definition w_euler : list (string * euler) := [("a"%string, mkeuler (base_init (Some [0]) (Some 1%Z) (Some (mkc3 1 1 3 (fun _ i d => INR (i + d))))) None)].
Example C140_euler_problems : angles_made w_euler /\ euler_problem w_euler SNone TypeError /\ euler_problem w_euler (SMeta [] ["a"; "z"]%string) KeyError /\
  (forall e, ~ euler_problem w_euler (SMeta [] ["a"]%string) e).
Proof.
  assert (HA : angles_made w_euler).
  { intros s e. cbn [w_euler lookup]. destruct (s =? "a")%string; [|discriminate]. intros H. injection H as <-. do 2 eexists. split; [reflexivity|]. split; [discriminate|]. split; [reflexivity|]. cbn. lia. }
  split; [exact HA|]. split; [apply eu_no_meta; reflexivity|]. split.
  - apply (eu_unknown _ _ [] ["a"%string] "z"%string []); [reflexivity| |reflexivity]. intros t [<-|[]]. do 2 eexists. split; [reflexivity|]. split; [reflexivity|]. cbn. lia.
  - exact (proj1 (euler_result w_euler (SMeta [] ["a"]%string) HA)).
Qed.

Print Assumptions C140_time_dependent_part.
Print Assumptions C140_matlab_evaluates_the_same.
Print Assumptions C140_static_part.
Print Assumptions C140_parameters.
Print Assumptions C140_external_part.
Print Assumptions C140_euler_angles.
Print Assumptions C140_calibration.
Print Assumptions C140_complete_models_are_saved.
Print Assumptions C140_incomplete_external_part.
Print Assumptions C140_incomplete_euler_angles.
