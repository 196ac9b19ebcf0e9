(** C148: files written without [scaled]. *)
From Coq Require Import Reals List Arith ZArith String Ascii Bool Lia Lra Permutation.
From Coquelicot Require Import Coquelicot.
From Verif Require Import M_Prelude M_ND Spec_Legendre Spec_Field Spec_Analysis Spec_Coord Spec_RotField Spec_Rotate Spec_PP Spec_Chaos M_Coord
  M_Synth M_SynthArr M_PP M_Spectrum M_Model M_Rotate M_Analysis M_Chaos M_RotFile P_Synth P_Spline P_SynthArr P_ND P_Bcast P_SHC2 P_RotSH P_RotGauss P_RotOrtho P_RotProps W_Analysis
  P_Rotate P_Rotate2 P_Chaos P_ChaosErr P_Chaos4 P_Chaos5 P_Chaos6 P_RotField P_RotField2 P_RotFile P_Dft P_Rotate3 W_Rotate.
Import ListNotations.
Open Scope R_scope.

Definition mean (n : nat) (x : nat -> R) : R := Rsum (map x (seq 0 n)) / INR n.

(** ** One element *)
Section Element.
Variables (argsort : list R -> list nat) (N : nat) (step : R).
Hypothesis Hs : sorts_indices argsort.
Hypothesis HN : (0 < N)%nat.
Hypothesis Hst : 0 < step.
Lemma half_sum x t :
  Rsum (map (fun fx => oscillation (fst fx) (snd fx) t) (keep argsort (half N) N step (dft N x))) =
  (Rsum (map (fun fx => one_sided (fst fx) (snd fx) t) (keep argsort (half N) N step (dft N x))) + mean N x) / 2.
Proof.
  pose proof (keep_all argsort Hs N step (dft N x)) as P.
  rewrite (Rsum_perm _ _ (Permutation_map (fun fx => oscillation (fst fx) (snd fx) t) P)), (Rsum_perm _ _ (Permutation_map (fun fx => one_sided (fst fx) (snd fx) t) P)).
  rewrite !map_map. unfold half. rewrite Nat.add_1_r. cbn [seq map]. rewrite !Rsum_cons. cbn [fst snd].
  assert (Z0 : frequency_full N step 0 * (24 * 3600) = 0) by (apply (freq_pos N step 0 HN Hst); reflexivity).
  rewrite Z0.
  assert (O : oscillation 0 (dft N x 0) t = mean N x).
  { unfold oscillation. replace (2 * PI * 0 * t) with 0 by rring. rewrite cos_0, sin_0. cbn [dft fst snd]. unfold mean.
    replace (Rsum (map (fun n => x n * cos (2 * PI * INR 0 * INR n / INR N)) (seq 0 N))) with (Rsum (map x (seq 0 N))); [rring|].
    apply Rsum_map_ext. intros n _. replace (2 * PI * INR 0 * INR n / INR N) with 0 by (cbn [INR]; unfold Rdiv; rring). rewrite cos_0. rring. }
  assert (O1 : one_sided 0 (dft N x 0) t = mean N x).
  { unfold one_sided. destruct (Req_EM_T 0 0); [|lra]. rewrite O. rring. }
  rewrite O, O1.
  assert (R2 : Rsum (map (fun k => one_sided (frequency_full N step k * (24 * 3600)) (dft N x k) t) (seq 1 (N / 2))) =
     2 * Rsum (map (fun k => oscillation (frequency_full N step k * (24 * 3600)) (dft N x k) t) (seq 1 (N / 2)))).
  { rewrite <- Rsum_map_scal. apply Rsum_map_ext. intros k Hk. apply in_seq in Hk. unfold one_sided.
    pose proof (proj2 (freq_pos N step k HN Hst) ltac:(lia)). destruct (Req_EM_T _ 0); [lra|rring]. }
  rewrite R2. match goal with |- ?a = ?b => change (@eq R a b) end. field.
Qed.
End Element.

(** ** The synthesis of what [spectra] returns for scaled=False, read from a file *)
Lemma synth_unscaled argsort N step rows cols x q F S FI SI time :
  sorts_indices argsort -> (0 < N)%nat -> 0 < step ->
  spectra argsort N step None (FlagBool false) rows cols x q = Ok (F, S, FI, SI) ->
  exists M, synth_rotate_gauss time F S (FlagArray false) = Ok M /\ sh M = (sh time ++ [rows; cols])%list /\
   forall i r c, valid (sh time) i -> (r < rows)%nat -> (c < cols)%nat ->
    at_ M (i ++ [r; c])%list = (Rsum (map (fun fx => one_sided (fst fx) (snd fx) (at_ time i)) (keep argsort (half N) N step (dft N (fun j => x j r c)))) + mean N (fun j => x j r c)) / 2.
Proof.
  intros Hs HN Hst E. unfold spectra in E. rewrite Nat.leb_refl in E.
  apply (f_equal (fun r => match r with Ok v => v | Err _ => (F, S, FI, SI) end)) in E. cbn beta iota in E.
  set (kept := fun k ll => scale_spectrum (FlagBool false) (keep argsort (half N) N step (dft N (fun j => x j k ll)))).
  assert (EF : F = column_array 0 (half N) rows cols (fun k ll => map fst (kept k ll))) by (injection E as <- _ _ _; reflexivity).
  assert (ES : S = column_array (RtoC 0) (half N) rows cols (fun k ll => map snd (kept k ll))) by (injection E as _ <- _ _; reflexivity).
  destruct (synth_rotate_value time F S (FlagArray false) (half N) rows cols) as (M & E1 & E2 & E3); [rewrite EF; reflexivity|rewrite ES; reflexivity|].
  exists M. split; [exact E1|]. split; [exact E2|]. intros i r c Hi Hr Hc. rewrite (E3 i r c Hi Hr Hc), EF, ES. cbn [column_array at_].
  rewrite <- half_sum by assumption.
  set (l := keep argsort (half N) N step (dft N (fun j => x j r c))).
  cbv beta. assert (KL : kept r c = l) by reflexivity. rewrite KL.
  assert (L : List.length l = half N) by (apply keep_length; [exact Hs|lia]).
  transitivity (Rsum (map (fun fx => oscillation (fst fx) (snd fx) (at_ time i)) (map (fun j => nth j l (0, RtoC 0)) (seq 0 (List.length l))))); [|rewrite nth_seq_id; reflexivity].
  rewrite map_map, L. apply Rsum_map_ext. intros j _.
  pose proof (map_nth (@fst R C) l (0, RtoC 0) j) as N1. pose proof (map_nth (@snd R C) l (0, RtoC 0) j) as N2. cbn [fst snd] in N1, N2.
  rewrite N1, N2. unfold weight. cbn [is_False]. rring.
Qed.

(** ** Files with and without [scaled] *)
Lemma fft_same oob leggauss argsort cfg file nmax kmax qfunc step N filter reference sc start out :
  rotate_gauss_fft oob leggauss argsort cfg file nmax kmax qfunc (Some step) (Some N) filter reference sc start = Ok out ->
  exists x q, forall sc, rotate_gauss_fft oob leggauss argsort cfg file nmax kmax qfunc (Some step) (Some N) filter reference sc start =
    spectra argsort N step filter sc (nmax * (nmax + 2)) (kmax * (kmax + 2)) x q.
Proof.
  unfold rotate_gauss_fft. cbv zeta. intros H.
  destruct (if String.eqb _ _ then _ else _) as [bases|]; [|discriminate]. cbn [bind] in *.
  destruct (rotate_gauss _ _ _ _ bases) as [Ms|]; [|discriminate]. cbn [bind] in *. eexists. eexists. intros sc'. reflexivity.
Qed.

Lemma alternating_zero N : Nat.even N = true -> Rsum (map (fun j => (-1) ^ j) (seq 0 N)) = 0.
Proof.
  intros H. apply Nat.even_spec in H. destruct H as [k ->]. induction k as [|k IH]; [reflexivity|].
  replace (2 * S k)%nat with (S (S (2 * k))) by lia. rewrite !seq_S, !map_app, !Rsum_app, IH. cbn [map]. rewrite !Rsum_cons. cbn [Nat.add pow Rsum fold_right map]. rring.
Qed.

Lemma file_pair argsort N step rows cols x q F1 S1 FI1 SI1 F2 S2 FI2 SI2 dip1 dip2 :
  sorts_indices argsort -> (2 <= N)%nat -> 0 < step ->
  spectra argsort N step None (FlagBool true) rows cols x q = Ok (F1, S1, FI1, SI1) ->
  spectra argsort N step None (FlagBool false) rows cols x q = Ok (F2, S2, FI2, SI2) ->
  let w1 := mkrot F1 S1 FI1 SI1 (FlagArray true) dip1 in let w2 := mkrot F2 S2 FI2 SI2 (FlagArray false) dip2 in
  forall t r c, (r < rows)%nat -> (c < cols)%nat ->
  file_rotation w2 (half N) (half N) External t r c =
  (file_rotation w1 (half N) (half N) External t r c + mean N (fun m => file_rotation w1 (half N) (half N) External (sample_time step 0 m) r c)) / 2.
Proof.
  intros Hs HN Hst E1 E2 w1 w2 t r c Hr Hc.
  assert (SH : forall sc F S FI SI, spectra argsort N step None sc rows cols x q = Ok (F, S, FI, SI) -> sh F = [half N; rows; cols] /\ sh S = [half N; rows; cols]).
  { intros sc F S FI SI E. unfold spectra in E. rewrite Nat.leb_refl in E. injection E as <- <- _ _. split; reflexivity. }
  destruct (SH _ _ _ _ _ E1) as (A1 & A2). destruct (SH _ _ _ _ _ E2) as (A3 & A4). clear SH.
  assert (V1 : forall t, file_rotation w1 (half N) (half N) External t r c =
     Rsum (map (fun fx => one_sided (fst fx) (snd fx) t) (keep argsort (half N) N step (dft N (fun j => x j r c))))).
  { intros t0. destruct (synth_spectra argsort N step None (FlagBool true) rows cols x q _ _ _ _ (scalar t0) Hs ltac:(lia) Hst (or_intror (ex_intro _ true eq_refl)) E1) as (M & MI & EM & _ & _ & _ & VM).
    destruct (VM [] r c (Forall2_nil _) Hr Hc) as [VM' _]. change (at_ (scalar t0) []) with t0 in VM'. rewrite <- VM'.
    destruct (rotate_value (scalar t0) F1 S1 (FlagBool true) _ _ _ A1 A2 eq_refl) as (M' & EM' & _ & VM''). pose proof (eq_trans (eq_sym EM) EM') as X. injection X as <-.
    symmetry. exact (VM'' [] r c (Forall2_nil _) Hr Hc). }
  assert (V2 : file_rotation w2 (half N) (half N) External t r c =
     (Rsum (map (fun fx => one_sided (fst fx) (snd fx) t) (keep argsort (half N) N step (dft N (fun j => x j r c)))) + mean N (fun j => x j r c)) / 2).
  { destruct (synth_unscaled argsort N step rows cols x q _ _ _ _ (scalar t) Hs ltac:(lia) Hst E2) as (M & EM & _ & VM).
    pose proof (VM [] r c (Forall2_nil _) Hr Hc) as VM'. change (at_ (scalar t) []) with t in VM'. rewrite <- VM'.
    destruct (rotate_value (scalar t) F2 S2 (FlagArray false) _ _ _ A3 A4 eq_refl) as (M' & EM' & _ & VM''). pose proof (eq_trans (eq_sym EM) EM') as X. injection X as <-.
    symmetry. exact (VM'' [] r c (Forall2_nil _) Hr Hc). }
  rewrite V2, V1. f_equal. f_equal. unfold mean. f_equal.
  assert (VS : forall m, (m < N)%nat -> file_rotation w1 (half N) (half N) External (sample_time step 0 m) r c =
     x m r c + (if Nat.even N then (-1) ^ m * alternating_mean N (fun j => x j r c) else 0)).
  { intros m Hm. destruct (spectra_at_samples argsort N step (FlagBool true) rows cols x q _ _ _ _ (scalar (sample_time step 0 m)) 0 (fun _ => m) Hs ltac:(lia) Hst (or_intror (ex_intro _ true eq_refl)) E1) as (M & EM & _ & VM).
    { intros i _. split; [exact Hm|]. unfold scalar. cbn [at_]. lra. }
    rewrite <- (VM [] r c (Forall2_nil _) Hr Hc). destruct (rotate_value (scalar (sample_time step 0 m)) F1 S1 (FlagBool true) _ _ _ A1 A2 eq_refl) as (M' & EM' & _ & VM'').
    pose proof (eq_trans (eq_sym EM) EM') as X. injection X as <-. symmetry. exact (VM'' [] r c (Forall2_nil _) Hr Hc). }
  transitivity (Rsum (map (fun m => x m r c + (if Nat.even N then (-1) ^ m * alternating_mean N (fun j => x j r c) else 0)) (seq 0 N))).
  2:{ apply Rsum_map_ext. intros m Hm. apply in_seq in Hm. symmetry. apply VS. lia. }
  destruct (Nat.even N) eqn:EN.
  - transitivity (Rsum (map (fun m => x m r c) (seq 0 N)) + alternating_mean N (fun j => x j r c) * Rsum (map (fun m => (-1) ^ m) (seq 0 N))).
    + rewrite alternating_zero by exact EN. rring.
    + rewrite <- Rsum_map_scal, <- Rsum_map_plus. apply Rsum_map_ext. intros m _. rring.
  - apply Rsum_map_ext. intros m _. rring.
Qed.

Theorem unscaled_file oob leggauss argsort cfg file deg qfunc step n reference path1 path2 start D out1 out2 D1 D2 :
  sorts_indices argsort -> (2 <= n)%nat -> 0 < step -> path1 <> ""%string -> path2 <> ""%string ->
  rotate_gauss_fft_to oob leggauss argsort cfg file deg deg qfunc (Some step) (Some n) None (Some path1) reference (FlagBool true) start D = Ok (out1, D1) ->
  rotate_gauss_fft_to oob leggauss argsort cfg file deg deg qfunc (Some step) (Some n) None (Some path2) reference (FlagBool false) start D = Ok (out2, D2) ->
  forall sm rc r_surf c gsm (time : nd R) nmax K1 K2 KA,
    let E1 := env_of D1 (npz_name path1) sm rc cfg r_surf oob in let E2 := env_of D2 (npz_name path2) sm rc cfg r_surf oob in
    ch_gsm c = Some gsm -> List.length gsm = (deg * (deg + 2))%nat ->
    synth_coeffs_gsm E1 c time nmax (Some "external"%string) = Ok K1 ->
    synth_coeffs_gsm E2 c time nmax (Some "external"%string) = Ok K2 ->
    synth_coeffs_gsm E1 c (mknd [n] (fun i => sample_time step 0 (hd 0%nat i))) nmax (Some "external"%string) = Ok KA ->
    forall i r, valid (sh time) i -> (r < cdim K2)%nat -> cat K2 i r = (cat K1 i r + mean n (fun m => cat KA [m] r)) / 2.
Proof.
  intros Hs Hn Hst Hp1 Hp2 W1 W2 sm rc r_surf c gsm time nmax K1 K2 KA E1 E2 Hg HL EK1 EK2 EKA i r Hi Hr.
  assert (R1 : exists o, rotate_gauss_fft oob leggauss argsort cfg file deg deg qfunc (Some step) (Some n) None reference (FlagBool true) start = Ok o).
  { unfold rotate_gauss_fft_to in W1. destruct (rotate_gauss_fft _ _ _ _ _ _ _ _ _ _ _ _ _ _); [eauto|discriminate]. }
  destruct R1 as ([[[F1 S1] FI1] SI1] & R1). destruct (fft_same _ _ _ _ _ _ _ _ _ _ _ _ _ _ _ R1) as (x & q & HX).
  destruct (spectra_ok argsort n step (FlagBool false) (deg * (deg + 2)) (deg * (deg + 2)) x q) as (F2 & S2 & FI2 & SI2 & R2).
  pose proof (HX (FlagBool false)) as R2'. rewrite R2 in R2'. pose proof (HX (FlagBool true)) as R1'. rewrite R1 in R1'. symmetry in R1'.
  destruct (fft_to_writes _ _ _ _ _ _ _ _ _ _ _ _ _ _ D _ _ _ _ path1 R1 Hp1) as (w1 & P1 & Q1).
  destruct (fft_to_writes _ _ _ _ _ _ _ _ _ _ _ _ _ _ D _ _ _ _ path2 R2' Hp2) as (w2 & P2 & Q2).
  pose proof (eq_trans (eq_sym W1) P1) as X1. apply (f_equal (fun v => match v with Ok p => snd p | Err _ => D end)) in X1. cbn [snd] in X1.
  pose proof (eq_trans (eq_sym W2) P2) as X2. apply (f_equal (fun v => match v with Ok p => snd p | Err _ => D end)) in X2. cbn [snd] in X2. subst D1 D2.
  destruct (fft_shapes _ _ _ _ _ _ _ _ _ _ _ _ _ _ _ _ _ _ R1) as (A1 & A2 & A3 & A4).
  destruct (fft_shapes _ _ _ _ _ _ _ _ _ _ _ _ _ _ _ _ _ _ R2') as (B1 & B2 & B3 & B4).
  assert (RF1 : rot_file (w_file w1) (half n) (half n) (deg * (deg + 2)) (deg * (deg + 2))) by (rewrite Q1; split; assumption || reflexivity).
  assert (RF2 : rot_file (w_file w2) (half n) (half n) (deg * (deg + 2)) (deg * (deg + 2))) by (rewrite Q2; split; assumption || reflexivity).
  assert (EG1 : e_gsm E1 = Some (w_file w1)) by (unfold E1, env_of; cbn [e_gsm]; rewrite put_same; reflexivity).
  assert (EG2 : e_gsm E2 = Some (w_file w2)) by (unfold E2, env_of; cbn [e_gsm]; rewrite put_same; reflexivity).
  assert (DP1 : rf_dipole (w_file w1) = e_dipole E1) by (rewrite Q1; reflexivity).
  assert (DP2 : rf_dipole (w_file w2) = e_dipole E2) by (rewrite Q2; reflexivity).
  assert (ST : ch_static c <> None).
  { intros Z. unfold synth_coeffs_gsm in EK1. rewrite Hg, Z in EK1. discriminate. }
  assert (NE : elems time <> []).
  { intros Z. unfold synth_coeffs_gsm in EK1. rewrite Hg, Z in EK1. destruct (ch_static c); discriminate. }
  destruct (gsm_value E1 c (w_file w1) gsm (half n) (half n) deg time nmax External Hg ST EG1 DP1 NE HL RF1) as (K1' & Z1 & _ & C1 & V1).
  destruct (gsm_value E2 c (w_file w2) gsm (half n) (half n) deg time nmax External Hg ST EG2 DP2 NE HL RF2) as (K2' & Z2 & _ & C2 & V2).
  destruct (gsm_value E1 c (w_file w1) gsm (half n) (half n) deg (mknd [n] (fun i => sample_time step 0 (hd 0%nat i))) nmax External Hg ST EG1 DP1) as (KA' & ZA & SA & CA & VA); [|exact HL|exact RF1|].
  { unfold elems. cbn [sh]. intros Z. destruct n as [|n0]; [lia|]. cbn in Z. discriminate. }
  cbn [src_name] in Z1, Z2, ZA. pose proof (eq_trans (eq_sym Z1) EK1) as Y. injection Y as ->. pose proof (eq_trans (eq_sym Z2) EK2) as Y. injection Y as ->.
  pose proof (eq_trans (eq_sym ZA) EKA) as Y. injection Y as ->. clear Z1 Z2 ZA.
  rewrite V2, V1 by (rewrite ?C1, <- ?C2; assumption).
  assert (RB : (r < deg * (deg + 2))%nat) by (rewrite C2 in Hr; pose proof (asked_le nmax deg); nia).
  assert (MA : mean n (fun m => cat KA [m] r) = Rsum (map (fun j => mean n (fun m => file_rotation (w_file w1) (half n) (half n) External (sample_time step 0 m) r j) * nth j gsm 0) (seq 0 (deg * (deg + 2))))).
  { unfold mean.
    transitivity (Rsum (map (fun m => Rsum (map (fun j => file_rotation (w_file w1) (half n) (half n) External (sample_time step 0 m) r j * nth j gsm 0) (seq 0 (deg * (deg + 2))))) (seq 0 n)) / INR n).
    - f_equal. apply Rsum_map_ext. intros m Hm. apply in_seq in Hm. rewrite VA; [reflexivity| |rewrite CA, <- C2; exact Hr].
      cbn [sh]. constructor; [cbn; lia|constructor].
    - rewrite Rsum_swap. unfold Rdiv. rewrite Rmult_comm, <- Rsum_map_scal. apply Rsum_map_ext. intros j _.
      transitivity (nth j gsm 0 * / INR n * Rsum (map (fun m => file_rotation (w_file w1) (half n) (half n) External (sample_time step 0 m) r j) (seq 0 n))); [|rring].
      rewrite <- !Rsum_map_scal. apply Rsum_map_ext. intros m _. rring. }
  rewrite MA. unfold Rdiv. rewrite <- Rsum_map_plus, Rmult_comm, <- Rsum_map_scal. apply Rsum_map_ext. intros j Hj. apply in_seq in Hj.
  pose proof (file_pair argsort n step _ _ x q _ _ _ _ _ _ _ _ (dipole_list cfg) (dipole_list cfg) Hs Hn Hst R1' R2 (at_ time i) r j RB ltac:(lia)) as FP.
  cbv zeta in FP. rewrite <- (eq_trans Q1 eq_refl : w_file w1 = mkrot F1 S1 FI1 SI1 (FlagArray true) (dipole_list cfg)) in FP.
  rewrite <- (eq_trans Q2 eq_refl : w_file w2 = mkrot F2 S2 FI2 SI2 (FlagArray false) (dipole_list cfg)) in FP. rewrite FP.
  match goal with |- ?a = ?b => change (@eq R a b) end. field.
Qed.
