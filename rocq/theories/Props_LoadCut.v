(** C146: model files in text of which only a beginning was written. *)
From Coq Require Import Reals QArith Qreals List Arith ZArith String Ascii Bool Lia.
From Verif Require Import M_Prelude M_ND M_Text M_SHC M_PP M_Model M_Loaders Spec_Loaders Spec_LoadCut
  P_Loaders P_Loaders2 P_Loaders3 P_LoadCut P_LoadCut2 P_LoadCut3 W_Loaders.
Import ListNotations.
Open Scope nat_scope.

(** The claim: a file that was cut off is rejected, unless only the last number is
    affected.  Proved: the only other thing that can come out is a model all of
    whose coefficients are zero, and only if the cut is in the list of knots. *)
Theorem C146_gufm1_cut_partial : forall content cut nmax years data M, 1 <= nmax -> 4 < List.length years -> gufm1_file content nmax years data ->
  cut_off cut content -> load_gufm1_txtfile cut = Ok M -> outcome M nmax 4 years data.
Proof. exact gufm1_cut. Qed.
Print Assumptions C146_gufm1_cut_partial.
Theorem C146_cals7k_cut_partial : forall content cut nmax years data M, 1 <= nmax -> 4 < List.length years -> cals7k_file content nmax years data ->
  cut_off cut content -> load_CALS7K_txtfile cut = Ok M -> outcome M nmax 4 years data.
Proof. exact cals7k_cut. Qed.
Print Assumptions C146_cals7k_cut_partial.
Theorem C146_covobs_cut_partial : forall content cut nmax order years data M, 1 <= nmax -> 2 <= order < List.length years ->
  covobs_file content nmax order years data -> cut_off cut content -> load_CovObs_txtfile cut = Ok M -> outcome M nmax order years data.
Proof. exact covobs_cut. Qed.
Print Assumptions C146_covobs_cut_partial.

(** Missing is that a cut in the list of knots is rejected; this is false of every
    such file: cut after the first knots, as many as the order, it is loaded
    without an error as a model without field. *)
Theorem C146_gufm1_zero_refuted : forall content nmax years data, 1 <= nmax -> 4 < List.length years -> gufm1_file content nmax years data ->
  exists cut M, cut_off cut content /\ load_gufm1_txtfile cut = Ok M /\ zero_model M nmax.
Proof. exact gufm1_zero. Qed.
Print Assumptions C146_gufm1_zero_refuted.
Theorem C146_cals7k_zero_refuted : forall content nmax years data, 1 <= nmax -> 4 < List.length years -> cals7k_file content nmax years data ->
  exists cut M, cut_off cut content /\ load_CALS7K_txtfile cut = Ok M /\ zero_model M nmax.
Proof. exact cals7k_zero. Qed.
Print Assumptions C146_cals7k_zero_refuted.
Theorem C146_covobs_zero_refuted : forall content nmax order years data, 1 <= nmax -> 2 <= order < List.length years ->
  covobs_file content nmax order years data ->
  exists cut M, cut_off cut content /\ load_CovObs_txtfile cut = Ok M /\ zero_model M nmax.
Proof. exact covobs_zero. Qed.
Print Assumptions C146_covobs_zero_refuted.

(** IGRF: what is loaded is the table with its first rows (the last number perhaps
    another one), as if the file had ended there, or no coefficients. *)
Theorem C146_igrf_cut_partial : forall content cut epochs table M, igrf_file content epochs table -> cut_off cut content -> load_IGRF_txtfile cut = Ok M ->
  no_coefficients M \/
  exists cut0 more table', cut = (cut0 ++ more)%list /\ igrf_file cut0 epochs table' /\ first_rows table' table /\ load_IGRF_txtfile cut0 = Ok M.
Proof. exact igrf_cut. Qed.
Print Assumptions C146_igrf_cut_partial.
(** Files cut after a row are indeed accepted, as models of a lower degree. *)
Theorem C146_igrf_fewer_refuted : forall content epochs table j, igrf_file content epochs table -> 1 <= j < List.length table ->
  List.Forall (fun y => (1708 <= y)%Q /\ (y < 2288)%Q) epochs ->
  exists cut M, cut_off cut content /\ igrf_file cut epochs (firstn j table) /\ load_IGRF_txtfile cut = Ok M /\
    forall n, j = n * (n + 2) -> m_nmax M = Some (Z.of_nat n).
Proof. exact igrf_fewer. Qed.
Print Assumptions C146_igrf_fewer_refuted.

Example C146_gufm1_applies : gufm1_file gufm1_text 1 [1590; 1600; 1610; 1620; 1630]%Q [-30000; 1; 25 # 10]%Q /\
  cut_off (file ["gufm1"; "1 1"; "1590 1600 1610 1620"]%string) gufm1_text /\
  exists M, load_gufm1_txtfile (file ["gufm1"; "1 1"; "1590 1600 1610 1620"]%string) = Ok M.
Proof.
  split; [exact gufm1_example|]. split; [exists (file ["1630"; "-3e4 1 2.5"]%string); split; [discriminate|reflexivity]|].
  destruct (zero_loads 1 4 [1590; 1600; 1610; 1620; 1630]%Q ltac:(lia) ltac:(cbn; lia)) as (M & E & _).
  - incr.
  - exists M. rewrite <- E. reflexivity.
Qed.
(** a cut inside of the last number: 2.5 becomes 2 *)
Example C146_gufm1_last_number : cut_off (removelast (removelast (removelast gufm1_text))) gufm1_text /\
  same_but_last [-30000; 1; 25 # 10]%Q [-30000; 1; 2]%Q /\ exists M, load_gufm1_txtfile (removelast (removelast (removelast gufm1_text))) = Ok M.
Proof.
  split; [exists (txt ".5" ++ nl)%list; split; [discriminate|reflexivity]|]. split; [split; reflexivity|].
  destruct (spline_model_ok 1 4 [1590; 1600; 1610; 1620; 1630]%Q [-30000; 1; 2]%Q) as (M & E & _); [lia|lia|incr|cbn; lia|reflexivity|].
  exists M. rewrite <- E. reflexivity.
Qed.
Example C146_cals7k_applies : cals7k_file cals7k_text 1 [-5000; -3000; 0; 1000; 1950]%Q [-300000 # 10; 10 # 10; 25 # 10]%Q.
Proof. exact cals7k_example. Qed.
Example C146_covobs_applies : covobs_file covobs_text 1 2 covobs_years covobs_data.
Proof. exact covobs_example. Qed.
Example C146_igrf_applies : igrf_file igrf_text [20150 # 10; 20200 # 10]%Q igrf_table /\ List.length igrf_table = 3 /\
  List.Forall (fun y => (1708 <= y)%Q /\ (y < 2288)%Q) [20150 # 10; 20200 # 10]%Q.
Proof. split; [exact igrf_example|]. split; [reflexivity|]. repeat (apply List.Forall_cons; [split; vm_compute; congruence|]). apply List.Forall_nil. Qed.
