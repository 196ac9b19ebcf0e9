(** Theorems about CHAOS models in SHC files (C95, C96).

    [chaos_save_shc] returns the new file system and the outcome; [tq], [cq]
    are the exported numbers ([exported]).  [load_chaos_shc lsq]: import with
    the least-squares fit lsq, as in Props_SHCImport. *)
From Coq Require Import Reals QArith Qreals List Arith ZArith String Ascii Bool Lia Lra.
From Verif Require Import M_Prelude M_ND Spec_Field Spec_PP Spec_Smooth M_Spectrum M_PP M_Model M_Time M_Text M_SHC M_SHCModel M_Chaos M_ChaosSHC Spec_SHC Spec_Lsq Spec_Loaders
  P_Time2 P_SHCModel P_ChaosSHC W_SHCModel W_SHCImport.
Import ListNotations.
Open Scope R_scope.

Local Notation degree_model x K D c := (model_init (Some x) None (Some (mkc3 K (List.length x - 1) D c)) (Some "internal"%string)).

(** ** C95: save_shcfile writes the part asked for, or reports why not *)
Theorem C95_missing_parts_are_reported : forall now fs name c tq cq path lp,
  (ch_tdep c = None -> chaos_save_shc now fs name c tq cq path None lp = (fs, Err ValueError) /\
     chaos_save_shc now fs name c tq cq path (Some "tdep"%string) lp = (fs, Err ValueError)) /\
  (ch_static c = None -> chaos_save_shc now fs name c tq cq path (Some "static"%string) lp = (fs, Err ValueError)).
Proof. intros. unfold chaos_save_shc. cbn [String.eqb Ascii.eqb Bool.eqb]. split; intros ->; [split|]; reflexivity. Qed.

(** The default is the time-dependent part, with 365.25 days per year. *)
Theorem C95_defaults : forall now fs name c tq cq path,
  chaos_save_shc now fs name c tq cq path None None = chaos_save_shc now fs name c tq cq path (Some "tdep"%string) (Some false).
Proof. reflexivity. Qed.

(** A misspelt part: no exception and no file. *)
Theorem C95_unknown_part_refuted : exists part, forall now fs name c tq cq path lp,
  chaos_save_shc now fs name c tq cq path (Some part) lp = (fs, Ok tt).
Proof. exists "Static"%string. reflexivity. Qed.

(** A model that consists of a static part only (as loaded from a file) cannot
    be written, although the part is there. *)
Theorem C95_static_part_alone_refuted : exists breaks D v c, chaos_init breaks None None (Some (mkc3 1 1 D v)) None None None None None None None MetaNone = Ok c /\
  ch_static c <> None /\ forall now fs name tq cq path lp, chaos_save_shc now fs name c tq cq path (Some "static"%string) lp = (fs, Err AttributeError).
Proof. eexists [0; 1], 3%nat, (fun _ _ _ => 1), _. split; [reflexivity|]. split; [discriminate|reflexivity]. Qed.

(** ** C96: load_CHAOS_shcfile (save_shcfile model) *)
(** Time-dependent part of order two or more with K - 2 continuous derivatives
    and numbers of at most eight decimals *)
Theorem C96_time_dependent_part : forall now fs name c0 x K D c tq cq path model lp b lsq,
  let M := degree_model x K D c in
  ch_tdep c0 = Some M -> (model = None \/ model = Some "tdep"%string) ->
  least_squares lsq -> good_breaks x -> (2 <= K)%nat -> exported M tq cq ->
  (1 <= b)%nat -> (b * (b + 2) <= D)%nat -> (D < (b + 1) * (b + 3))%nat ->
  ~ In "010"%char name -> ~ In "010"%char now ->
  (forall d, (d < b * (b + 2))%nat -> smooth_at_breaks x K c d) ->
  (lp = Some true -> forall t, In t tq -> mjd_ok t) ->
  (forall t, In t tq -> exists y, mjd_to_dyear t (Some (leap_flag lp)) = Ok y /\ exact8 y) ->
  (forall i j, (i < List.length tq)%nat -> (j < b * (b + 2))%nat -> exact8 (c_at cq i j)) ->
  exists fs' text M' f,
    chaos_save_shc now fs name c0 tq cq path model lp = (fs', Ok tt) /\ fs' path = Some text /\
    load_chaos_shc lsq text lp = Ok (mkchaos (Some M') None None None None None None) /\
    m_nmax M' = Some (Z.of_nat b) /\ m_source M' = "internal"%string /\ b_breaks (m_base M') = Some x /\
    takes_values M' (b * (b + 2)) (first_break x) (last_break x) f /\
    forall p d t, (d < b * (b + 2))%nat -> in_interval x p t -> f d t = piece x K c p d t.
Proof. exact chaos_smooth_round_trip. Qed.

(** Piecewise constant, at least two pieces *)
Theorem C96_piecewise_constant_part : forall now fs name c0 x D c tq cq path model lp b lsq,
  let M := degree_model x 1 D c in
  ch_tdep c0 = Some M -> (model = None \/ model = Some "tdep"%string) -> good_breaks x -> (3 <= List.length x)%nat -> exported M tq cq ->
  (1 <= b)%nat -> (b * (b + 2) <= D)%nat -> (D < (b + 1) * (b + 3))%nat ->
  ~ In "010"%char name -> ~ In "010"%char now ->
  (lp = Some true -> forall i, (i + 1 < List.length x)%nat -> -106650 <= nth i x 0 < 107016) ->
  exists fs' text M' y c',
    chaos_save_shc now fs name c0 tq cq path model lp = (fs', Ok tt) /\ fs' path = Some text /\
    load_chaos_shc lsq text lp = Ok (mkchaos (Some M') None None None None None None) /\
    M' = model_init (Some y) (Some 1%Z) (Some (mkc3 1 (List.length x - 1) (b * (b + 2)) c')) None /\
    List.length y = List.length x /\
    (forall i, (i + 1 < List.length x)%nat -> Rabs (nth i y 0 - nth i x 0) <= 2 / 1000000) /\
    forall i j, (i + 1 < List.length x)%nat -> (j < b * (b + 2))%nat -> Rabs (c' 0%nat i j - c 0%nat i j) <= 1 / 200000000.
Proof. exact chaos_const_round_trip. Qed.

(** Static part: the degrees above those of the time-dependent part are kept;
    the others are dropped. *)
Theorem C96_static_part : forall now fs name c0 td x D v tq cq path lp N b lsq,
  let M := model_init (Some x) None (Some (mkc3 1 1 D v)) (Some "internal"%string) in
  ch_static c0 = Some M -> ch_tdep c0 = Some td -> m_nmax td = Some (Z.of_nat N) ->
  List.length x = 2%nat -> good_breaks x -> exported M tq cq ->
  (N + 1 <= b)%nat -> (b * (b + 2) <= D)%nat -> (D < (b + 1) * (b + 3))%nat ->
  ~ In "010"%char name -> ~ In "010"%char now -> (lp = Some true -> -106650 <= first_break x < 107016) ->
  exists fs' text c' w,
    chaos_save_shc now fs name c0 tq cq path (Some "static"%string) lp = (fs', Ok tt) /\ fs' path = Some text /\
    load_chaos_shc lsq text lp = Ok c' /\ ch_tdep c' = None /\ ch_sm c' = None /\ ch_gsm c' = None /\ ch_euler c' = None /\ ch_cal c' = None /\
    (forall nmax, exists r, synth_coeffs_static c' nmax None XNone = Ok r /\ s_sh r = [] /\
      s_dim r = (match nmax with None => b * (b + 2) | Some n => Nat.min (n * (n + 2)) (b * (b + 2)) end)%nat /\ forall d, (d < s_dim r)%nat -> s_at r [] d = Some (w d)) /\
    forall d, (d < b * (b + 2))%nat -> ((d < N * (N + 2))%nat -> w d = 0) /\ ((N * (N + 2) <= d)%nat -> Rabs (w d - v 0%nat 0%nat d) <= 1 / 200000000).
Proof. exact chaos_static_round_trip. Qed.

(** A time-dependent part with one piece of order one comes back as static part. *)
Theorem C96_single_piece_refuted : forall lsq, exists now fs name c0 tq cq path fs' text c',
  ch_tdep c0 = Some (degree_model [0; 366] 1 3 (fun _ i j => Q2R (w_c i j))) /\
  exported (degree_model [0; 366] 1 3 (fun _ i j => Q2R (w_c i j))) tq cq /\
  chaos_save_shc now fs name c0 tq cq path None None = (fs', Ok tt) /\ fs' path = Some text /\
  load_chaos_shc lsq text None = Ok c' /\ ch_tdep c' = None /\ ch_static c' <> None.
Proof.
  intros lsq. assert (XE : [0; 366] = map Q2R [0; 366]%Q) by (cbn; repeat f_equal; unfold Q2R; cbn; lra).
  assert (G : good_breaks [0; 366]) by (split; [cbn; lia|intros [|i] Hi; cbn in *; try lia; lra]).
  assert (EX : exported (degree_model [0; 366] 1 3 (fun _ i j => Q2R (w_c i j))) [0]%Q w_coefs).
  { rewrite XE in *. exact (exported_exists [0; 366]%Q 3 w_c (Some "internal"%string) 1 G ltac:(lia) ltac:(lia) ltac:(lia)). }
  set (c0 := mkchaos (Some (degree_model [0; 366] 1 3 (fun _ i j => Q2R (w_c i j)))) None None None None None None).
  destruct (chaos_single_bin (txt "now") (fun _ => None) (txt "m") c0 [0; 366] 3 (fun _ i j => Q2R (w_c i j)) [0]%Q w_coefs "f.shc" None None 1 lsq
    eq_refl (or_introl eq_refl) G eq_refl EX ltac:(lia) ltac:(lia) ltac:(lia)) as (fs' & text & c' & H).
  { cbn. intuition discriminate. } { cbn. intuition discriminate. } { discriminate. }
  exists (txt "now"), (fun _ => None), (txt "m"), c0, [0]%Q, w_coefs, "f.shc"%string, fs', text, c'. split; [reflexivity|]. split; [exact EX|exact H].
Qed.

(** ** Concrete cases *)
(** A model with a quadratic time-dependent part of degree 1 and a static part of degree 2 *)
Definition w_static (i j : nat) : Q := (Z.of_nat j + 1 # 8).
Example C96_hypotheses : exists c0,
  chaos_init w3_x None (Some (mkc3 3 (List.length w3_x - 1) 3 w3_c)) (Some (mkc3 1 1 8 (fun _ i j => Q2R (w_static i j)))) None None None None None None None MetaNone = Ok c0 /\
  ch_tdep c0 = Some (degree_model w3_x 3 3 w3_c) /\ m_nmax (degree_model w3_x 3 3 w3_c) = Some (Z.of_nat 1) /\
  exported (degree_model w3_x 3 3 w3_c) w3_t (mkcoefs false 5 3 w3_v) /\
  ch_static c0 = Some (model_init (Some [0; 2922]) None (Some (mkc3 1 1 8 (fun _ i j => Q2R (w_static i j)))) (Some "internal"%string)) /\
  exported (model_init (Some [0; 2922]) None (Some (mkc3 1 1 8 (fun _ i j => Q2R (w_static i j)))) (Some "internal"%string)) [0]%Q (mkcoefs false 1 8 w_static) /\
  good_breaks [0; 2922].
Proof.
  eexists. split; [reflexivity|]. split; [reflexivity|]. split; [reflexivity|]. split; [exact w3_exported|]. split; [reflexivity|].
  assert (G : good_breaks [0; 2922]) by (split; [cbn; lia|intros [|i] Hi; cbn in *; try lia; lra]). split; [|exact G].
  assert (XE : [0; 2922] = map Q2R [0; 2922]%Q) by (cbn; repeat f_equal; unfold Q2R; cbn; lra).
  rewrite XE in *. exact (exported_exists [0; 2922]%Q 8 w_static (Some "internal"%string) 2 G ltac:(lia) ltac:(lia) ltac:(lia)).
Qed.

Print Assumptions C95_missing_parts_are_reported.
Print Assumptions C95_defaults.
Print Assumptions C95_unknown_part_refuted.
Print Assumptions C95_static_part_alone_refuted.
Print Assumptions C96_time_dependent_part.
Print Assumptions C96_piecewise_constant_part.
Print Assumptions C96_static_part.
Print Assumptions C96_single_piece_refuted.
