(** C67, C68: loaders of text files. *)
From Coq Require Import Reals QArith Qreals List Arith ZArith String Ascii Bool.
From Verif Require Import M_Prelude M_Time M_ND M_Text M_PP M_Model M_Loaders Spec_Calendar Spec_Spline Spec_PP Spec_Loaders
  P_Loaders P_Loaders2 P_Loaders3 W_Loaders.
Import ListNotations.
Open Scope R_scope.

(** C68.  The model has degree nmax and its coefficients are the splines with
    the knots and the coefficients written in the file. *)
Theorem C68_covobs_keeps_every_coefficient_partial : forall content nmax order years data,
  (1 <= nmax)%nat -> (2 <= order)%nat -> covobs_file content nmax order years data ->
  exists M, load_CovObs_txtfile content = Ok M /\ is_spline_model M nmax order years data.
Proof. exact covobs_loads. Qed.
Print Assumptions C68_covobs_keeps_every_coefficient_partial.
Example C68_covobs_applies : covobs_file covobs_text 1 2 covobs_years covobs_data.
Proof. exact covobs_example. Qed.

(** Missing above is order one, for which the claim is false: with two knots
    all coefficients are lost, with more the file is rejected. *)
Theorem C68_covobs_order_one_refuted :
  (forall content nmax years data, (1 <= nmax)%nat -> covobs_file content nmax 1 years data ->
     (2 < List.length years)%nat -> load_CovObs_txtfile content = Err ValueError) /\
  (forall content nmax years data, (1 <= nmax)%nat -> covobs_file content nmax 1 years data ->
     List.length years = 2%nat -> exists M, load_CovObs_txtfile content = Ok M /\
     takes_values M (nmax * (nmax + 2)) (days (nth 0 (map Q2R years) 0)) (days (last (map Q2R years) 0)) (fun _ _ => 0)).
Proof. exact (conj covobs_order_one covobs_order_one_zero). Qed.
Print Assumptions C68_covobs_order_one_refuted.
Example C68_covobs_order_one_applies :
  covobs_file covobs_const_text 1 1 [2000; 2010]%Q [1; 2; 3]%Q /\ covobs_file covobs_const3_text 1 1 [2000; 2010; 2020]%Q [1; 2; 3; 4; 5; 6]%Q.
Proof. exact (conj covobs_const_example covobs_const3_example). Qed.

Theorem C68_gufm1_keeps_every_coefficient : forall content nmax years data,
  (1 <= nmax)%nat -> gufm1_file content nmax years data ->
  exists M, load_gufm1_txtfile content = Ok M /\ is_spline_model M nmax 4 years data.
Proof. exact gufm1_loads. Qed.
Print Assumptions C68_gufm1_keeps_every_coefficient.
Example C68_gufm1_applies : gufm1_file gufm1_text 1 [1590; 1600; 1610; 1620; 1630]%Q [-30000; 1; 25 # 10]%Q.
Proof. exact gufm1_example. Qed.

Theorem C68_cals7k_keeps_every_coefficient : forall content nmax years data,
  (1 <= nmax)%nat -> cals7k_file content nmax years data ->
  exists M, load_CALS7K_txtfile content = Ok M /\ is_spline_model M nmax 4 years data.
Proof. exact cals7k_loads. Qed.
Print Assumptions C68_cals7k_keeps_every_coefficient.
Example C68_cals7k_applies : cals7k_file cals7k_text 1 [-5000; -3000; 0; 1000; 1950]%Q [-300000 # 10; 10 # 10; 25 # 10]%Q.
Proof. exact cals7k_example. Qed.

(** C67.  Between two consecutive epochs (converted with the calendar) every
    coefficient is the straight line through the table values; after the last
    epoch it runs for five years to last + 5 SV. *)
Theorem C67_igrf_interpolates_linearly : forall content epochs table,
  igrf_file content epochs table -> table <> [] -> Forall (fun y => (1708 <= y)%Q /\ (y < 2288)%Q) epochs ->
  exists M, load_IGRF_txtfile content = Ok M /\ m_source M = "internal"%string /\
    (forall n, List.length table = (n * (n + 2))%nat -> m_nmax M = Some (Z.of_nat n)) /\
    forall i t0 t1, (i < List.length epochs)%nat ->
      dyear_to_mjd (nth i (igrf_epochs epochs) 0%Q) None = Ok t0 -> dyear_to_mjd (nth (i + 1) (igrf_epochs epochs) 0%Q) None = Ok t1 ->
      takes_values M (List.length table) (Q2R t0) (Q2R t1) (fun d t =>
        let v := igrf_value (nth d table []) (List.length epochs) in line_through (Q2R t0) (v i) (Q2R t1) (v (i + 1)%nat) t).
Proof. exact igrf_loads. Qed.
Print Assumptions C67_igrf_interpolates_linearly.
(** On the first of January of an epoch year the value is that of the table. *)
Theorem C67_igrf_january_first : forall content epochs table,
  igrf_file content epochs table -> table <> [] -> Forall (fun y => (1708 <= y)%Q /\ (y < 2288)%Q) epochs ->
  exists M, load_IGRF_txtfile content = Ok M /\
    forall i y k, (i < List.length epochs)%nat -> (nth i epochs 0 == inject_Z y)%Q -> day_distance (mkdate 2000 1 1) (mkdate y 1 1) k ->
      takes_values M (List.length table) (IZR k) (IZR k) (fun d _ => Q2R (nth i (nth d table []) 0%Q)).
Proof. exact igrf_january. Qed.
Print Assumptions C67_igrf_january_first.
Example C67_applies : igrf_file igrf_text [20150 # 10; 20200 # 10]%Q igrf_table /\
  Forall (fun y => (1708 <= y)%Q /\ (y < 2288)%Q) [20150 # 10; 20200 # 10]%Q.
Proof. split; [exact igrf_example|]. repeat (apply Forall_cons; [split; vm_compute; congruence|]). apply Forall_nil. Qed.
