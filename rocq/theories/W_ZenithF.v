(** A library accurate to 2.3e-16 with which the zenith angle of the sun's own
    position is NaN; and the correctly rounded library as an ordinary one. *)
From Coq Require Import ZArith Reals List Lia Lra Psatz.
From Flocq Require Import Core.
From Verif Require Import Spec_Coord M_Coord P_Coord P_Coord2 Spec_Float Spec_Rounding P_Float P_Rounding Spec_CoordF M_CoordF P_CoordF W_CoordF M_ZenithF P_ZenithF P_QCall.
Open Scope R_scope.

Lemma rn_err1 x : Rabs x <= 1 -> Rabs (rn x - x) <= 5.56e-17.
Proof.
  intros H. eapply Rle_trans; [apply (rn_err x 0 ltac:(lia) H)|].
  replace (bpow radix2 (0 - 54)) with (/ 18014398509481984) by reflexivity. lra.
Qed.
Lemma rn_err2 x : Rabs x <= 2 -> Rabs (rn x - x) <= 1.1103e-16.
Proof.
  intros H. eapply Rle_trans; [apply (rn_err x 1 ltac:(lia) H)|].
  replace (bpow radix2 (1 - 54)) with (/ 9007199254740992) by reflexivity. lra.
Qed.
Lemma rn_err4 x : Rabs x <= 4 -> Rabs (rn x - x) <= 2.3e-16.
Proof.
  intros H. eapply Rle_trans; [apply (rn_err x 2 ltac:(lia) H)|].
  replace (bpow radix2 (2 - 54)) with (/ 4503599627370496) by reflexivity. lra.
Qed.

Definition racos (x : R) : R := rn (acos x).
Lemma racos_ok : accurate_acos 2.3e-16 racos.
Proof.
  intros x _ _. apply rn_err4. pose proof (acos_bound x). pose proof PI_size. apply Rabs_le. lra.
Qed.

Definition a45 : R := radians_f 45.
Definition bcos (x : R) : R := if Req_EM_T x a45 then rn (cos x + 1.4e-16) else rn (cos x).
Definition bsin (x : R) : R := if Req_EM_T x a45 then rn (sin x + 1.4e-16) else rn (sin x).

Lemma sqrt2 : 1.414 < sqrt 2 < 1.415.
Proof.
  split.
  - rewrite <- (sqrt_square 1.414) by lra. apply sqrt_lt_1_alt. lra.
  - rewrite <- (sqrt_square 1.415) by lra. apply sqrt_lt_1_alt. lra.
Qed.

Lemma a45_near : Rabs (a45 - PI / 4) <= 3e-15.
Proof.
  pose proof (radians_f_err 45 ltac:(rewrite Rabs_pos_eq; lra)) as E. unfold deg in E.
  replace (45 * (PI / 180)) with (PI / 4) in E by field. exact E.
Qed.
Lemma a45_trig : 0.7069 <= cos a45 <= 0.708 /\ 0.7069 <= sin a45 <= 0.708.
Proof.
  pose proof (Rle_trans _ _ _ (cos_lip a45 (PI / 4)) a45_near) as C. pose proof (Rle_trans _ _ _ (sin_lip a45 (PI / 4)) a45_near) as S.
  rewrite cos_PI4 in C. rewrite sin_PI4 in S. pose proof sqrt2 as Q.
  assert (E : 1 / sqrt 2 = sqrt 2 / 2).
  { apply Rmult_eq_reg_r with (sqrt 2); [|lra]. unfold Rdiv. rewrite Rmult_assoc, Rinv_l by lra.
    transitivity (sqrt 2 * sqrt 2 / 2); [|field]. rewrite sqrt_sqrt by lra. field. }
  rewrite E in *. apply Rabs_le_inv in C, S. lra.
Qed.

Lemma bcos_ok : accurate_within 2.3e-16 cos bcos.
Proof.
  intros x _. unfold bcos. pose proof (COS_bound x) as B. destruct (Req_EM_T x a45) as [->|].
  - pose proof a45_trig as [T _]. pose proof (rn_err1 (cos a45 + 1.4e-16) ltac:(apply Rabs_le; lra)) as E.
    apply Rabs_le_inv in E. apply Rabs_le. lra.
  - pose proof (rn_err1 (cos x) (cos_1 x)) as E. lra.
Qed.
Lemma bsin_ok : accurate_within 2.3e-16 sin bsin.
Proof.
  intros x _. unfold bsin. pose proof (SIN_bound x) as B. destruct (Req_EM_T x a45) as [->|].
  - pose proof a45_trig as [_ T]. pose proof (rn_err1 (sin a45 + 1.4e-16) ltac:(apply Rabs_le; lra)) as E.
    apply Rabs_le_inv in E. apply Rabs_le. lra.
  - pose proof (rn_err1 (sin x) (sin_1 x)) as E. lra.
Qed.

Lemma nan_case facos p : zenith_point_f bcos bsin facos 45 p 45 p = None.
Proof.
  unfold zenith_point_f, cos_zeta_f. cbv zeta. fold a45. rewrite Rminus_diag_eq, rn_0 by reflexivity.
  assert (N : 0 <> a45).
  { intros E. pose proof a45_near as A. rewrite <- E in A. pose proof PI_3. apply Rabs_le_inv in A. lra. }
  assert (B0 : bcos 0 = 1).
  { unfold bcos. destruct (Req_EM_T 0 a45); [contradiction|]. rewrite cos_0. apply rn_id. apply (double_int 1). lia. }
  rewrite B0, Rmult_1_r, (rn_id (rn _)) by apply rn_double.
  pose proof a45_trig as [Tc Ts].
  assert (Fc : cos a45 + 8.4e-17 <= bcos a45 <= 0.709).
  { unfold bcos. destruct (Req_EM_T a45 a45); [|contradiction]. pose proof (rn_err1 (cos a45 + 1.4e-16) ltac:(apply Rabs_le; lra)) as E.
    apply Rabs_le_inv in E. lra. }
  assert (Fs : sin a45 + 8.4e-17 <= bsin a45 <= 0.709).
  { unfold bsin. destruct (Req_EM_T a45 a45); [|contradiction]. pose proof (rn_err1 (sin a45 + 1.4e-16) ltac:(apply Rabs_le; lra)) as E.
    apply Rabs_le_inv in E. lra. }
  set (fc := bcos a45) in *. set (fs := bsin a45) in *. pose proof (sc1 a45) as S.
  set (c := cos a45) in *. set (s := sin a45) in *.
  assert (Qc : c * c + 1.18e-16 <= fc * fc <= 0.71).
  { split; [|nra]. apply Rle_trans with ((c + 8.4e-17) * (c + 8.4e-17)); [nra|]. apply Rmult_le_compat; lra. }
  assert (Qs : s * s + 1.18e-16 <= fs * fs <= 0.71).
  { split; [|nra]. apply Rle_trans with ((s + 8.4e-17) * (s + 8.4e-17)); [nra|]. apply Rmult_le_compat; lra. }
  pose proof (rn_err1 (fc * fc) ltac:(apply Rabs_le; split; [nra|lra])) as E1.
  pose proof (rn_err1 (fs * fs) ltac:(apply Rabs_le; split; [nra|lra])) as E2.
  apply Rabs_le_inv in E1, E2.
  assert (Sum : 1 + 1.24e-16 <= rn (fc * fc) + rn (fs * fs) <= 2) by lra.
  pose proof (rn_err2 (rn (fc * fc) + rn (fs * fs)) ltac:(apply Rabs_le; lra)) as E3. apply Rabs_le_inv in E3.
  destruct (Rle_dec _ 1) as [L|]; [|reflexivity]. exfalso. apply Rabs_le_inv in L. lra.
Qed.

Lemma angle_case : angle_between 90 0 90 60 60.
Proof.
  split; [lra|]. unfold vdot, direction, deg. cbn [vx vy vz].
  replace (90 * (PI / 180)) with (PI / 2) by field. replace (0 * (PI / 180)) with 0 by ring.
  replace (60 * (PI / 180)) with (PI / 3) by field. rewrite sin_PI2, cos_PI2, cos_0, sin_0. ring.
Qed.
