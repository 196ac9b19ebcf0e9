(** Finite trigonometric sums. *)
From Coq Require Import Reals List Arith Permutation Lia Lra ZArith.
From Verif Require Import Spec_Field P_Synth P_Spline.
Import ListNotations.
Open Scope R_scope.

Lemma Rsum_perm l l' : Permutation l l' -> Rsum l = Rsum l'.
Proof.
  induction 1; cbn [Rsum fold_right]; [reflexivity | | | congruence].
  - change (x + Rsum l = x + Rsum l'). rewrite IHPermutation. reflexivity.
  - ring.
Qed.

(** 1 + 2 cos x + ... + 2 cos (M x) *)
Definition dirichlet (M : nat) (x : R) : R := 1 + 2 * Rsum (map (fun k => cos (INR k * x)) (seq 1 M)).

Lemma dirichlet_S M x : dirichlet (S M) x = dirichlet M x + 2 * cos (INR (S M) * x).
Proof.
  unfold dirichlet. rewrite seq_S, map_app, P_Synth.Rsum_app. cbn [map Rsum fold_right].
  replace (1 + M)%nat with (S M) by lia. ring.
Qed.

Lemma dirichlet_closed M x : sin (x / 2) * dirichlet M x = sin ((INR M + 1 / 2) * x).
Proof.
  induction M as [|M IH].
  - unfold dirichlet. cbn. replace ((0 + 1 / 2) * x) with (x / 2) by lra. ring.
  - rewrite dirichlet_S, Rmult_plus_distr_l, IH, S_INR.
    replace ((INR M + 1 / 2) * x) with ((INR M + 1) * x - x / 2) by lra.
    replace ((INR M + 1 + 1 / 2) * x) with ((INR M + 1) * x + x / 2) by lra.
    rewrite sin_plus, sin_minus. ring.
Qed.

Lemma sin_frac_ne0 (d : Z) (N : nat) : (0 < N)%nat -> (d <> 0)%Z -> (Z.abs d < Z.of_nat N)%Z -> sin (PI * IZR d / INR N) <> 0.
Proof.
  intros HN Hd Hl E. pose proof PI_RGT_0 as P. pose proof (lt_0_INR N HN) as HN'.
  assert (G : forall d, (0 < d)%Z -> (d < Z.of_nat N)%Z -> 0 < sin (PI * IZR d / INR N)).
  { clear. intros d H1 H2. pose proof PI_RGT_0 as P.
    assert (HN : (0 < N)%nat) by lia. pose proof (lt_0_INR N HN) as HN'.
    apply IZR_lt in H1. apply IZR_lt in H2. rewrite <- INR_IZR_INZ in H2.
    apply sin_gt_0.
    - apply Rmult_lt_0_compat; [nra | apply Rinv_0_lt_compat; assumption].
    - apply (Rmult_lt_reg_r (INR N)); [assumption|]. unfold Rdiv. rewrite Rmult_assoc, Rinv_l by lra. nra. }
  destruct (Z_lt_le_dec 0 d).
  - specialize (G d). assert (0 < sin (PI * IZR d / INR N)) by (apply G; lia). lra.
  - specialize (G (- d)%Z). rewrite opp_IZR in G.
    replace (PI * - IZR d / INR N) with (- (PI * IZR d / INR N)) in G by (unfold Rdiv; ring).
    rewrite sin_neg in G. assert (0 < - sin (PI * IZR d / INR N)) by (apply G; lia). lra.
Qed.

Lemma sin_PI_Z (d : Z) : sin (PI * IZR d) = 0.
Proof. apply sin_eq_0_1. exists d. ring. Qed.

Lemma cos_PI_nat n : cos (PI * INR n) = (-1) ^ n.
Proof.
  induction n; [cbn; rewrite Rmult_0_r; apply cos_0|].
  rewrite S_INR, Rmult_plus_distr_l, Rmult_1_r, neg_cos, IHn. cbn. ring.
Qed.

Lemma dirichlet_0 M : dirichlet M 0 = 2 * INR M + 1.
Proof.
  induction M; [unfold dirichlet; cbn; ring|]. rewrite dirichlet_S, IHM, Rmult_0_r, cos_0, S_INR. ring.
Qed.

(** Odd number of samples *)
Lemma kernel_odd M (d : Z) : (Z.abs d < Z.of_nat (2 * M + 1))%Z ->
  dirichlet M (2 * PI * IZR d / INR (2 * M + 1)) = if Z.eq_dec d 0 then INR (2 * M + 1) else 0.
Proof.
  intros H. assert (HN : 0 < INR (2 * M + 1)) by (apply lt_0_INR; lia).
  destruct (Z.eq_dec d 0) as [->|Hd].
  - replace (2 * PI * 0 / INR (2 * M + 1)) with 0 by (unfold Rdiv; ring).
    rewrite dirichlet_0, plus_INR, mult_INR. cbn. ring.
  - pose proof (dirichlet_closed M (2 * PI * IZR d / INR (2 * M + 1))) as E.
    replace (2 * PI * IZR d / INR (2 * M + 1) / 2) with (PI * IZR d / INR (2 * M + 1)) in E by (field; lra).
    replace ((INR M + 1 / 2) * (2 * PI * IZR d / INR (2 * M + 1))) with (PI * IZR d) in E.
    2:{ rewrite plus_INR, mult_INR in *. cbn in *. field. lra. }
    rewrite sin_PI_Z in E. apply Rmult_integral in E. destruct E as [E|E]; [|exact E].
    exfalso. revert E. apply sin_frac_ne0; [lia | exact Hd | exact H].
Qed.

(** Even number of samples: the last term doubled *)
Lemma kernel_even M (d : Z) : (0 < M)%nat -> (Z.abs d < Z.of_nat (2 * M))%Z ->
  dirichlet M (2 * PI * IZR d / INR (2 * M)) =
  (if Z.eq_dec d 0 then INR (2 * M) else 0) + cos (PI * IZR d).
Proof.
  intros HM H. assert (HN : 0 < INR (2 * M)) by (apply lt_0_INR; lia).
  assert (HM' : 0 < INR M) by (apply lt_0_INR; lia).
  destruct (Z.eq_dec d 0) as [->|Hd].
  - replace (2 * PI * 0 / INR (2 * M)) with 0 by (unfold Rdiv; ring).
    rewrite dirichlet_0, mult_INR, Rmult_0_r, cos_0. cbn. ring.
  - pose proof (dirichlet_closed M (2 * PI * IZR d / INR (2 * M))) as E.
    replace (2 * PI * IZR d / INR (2 * M) / 2) with (PI * IZR d / INR (2 * M)) in E by (field; lra).
    replace ((INR M + 1 / 2) * (2 * PI * IZR d / INR (2 * M))) with (PI * IZR d + PI * IZR d / INR (2 * M)) in E.
    2:{ rewrite mult_INR in *. cbn in *. field. lra. }
    rewrite sin_plus, sin_PI_Z in E.
    assert (S : sin (PI * IZR d / INR (2 * M)) <> 0) by (apply sin_frac_ne0; [lia | exact Hd | exact H]).
    apply (Rmult_eq_reg_l (sin (PI * IZR d / INR (2 * M)))); [|exact S]. rewrite E. ring.
Qed.

(** One full period of equidistant samples: sum of cos and sin *)
Lemma two_sin_sum x : forall N,
  2 * sin (x / 2) * Rsum (map (fun j => cos (INR j * x)) (seq 0 N)) = sin (INR N * x - x / 2) + sin (x / 2) /\
  2 * sin (x / 2) * Rsum (map (fun j => sin (INR j * x)) (seq 0 N)) = cos (x / 2) - cos (INR N * x - x / 2).
Proof.
  induction N as [|N [I1 I2]].
  - cbn. rewrite !Rmult_0_r. replace (0 * x - x / 2) with (- (x / 2)) by lra. rewrite sin_neg, cos_neg. lra.
  - rewrite seq_S, !map_app, !P_Synth.Rsum_app, !Rmult_plus_distr_l, I1, I2. cbn [map Rsum fold_right Nat.add].
    rewrite S_INR. replace ((INR N + 1) * x - x / 2) with (INR N * x + x / 2) by lra.
    rewrite !sin_plus, !cos_plus, !sin_minus, !cos_minus. split; ring.
Qed.

Lemma full_period (m : Z) (N : nat) : (0 < N)%nat -> (m <> 0)%Z -> (Z.abs m < Z.of_nat N)%Z ->
  Rsum (map (fun j => cos (INR j * (2 * PI * IZR m / INR N))) (seq 0 N)) = 0 /\
  Rsum (map (fun j => sin (INR j * (2 * PI * IZR m / INR N))) (seq 0 N)) = 0.
Proof.
  intros HN Hm Hl. pose proof (lt_0_INR N HN) as HN'.
  destruct (two_sin_sum (2 * PI * IZR m / INR N) N) as [I1 I2].
  assert (S : sin (2 * PI * IZR m / INR N / 2) <> 0).
  { replace (2 * PI * IZR m / INR N / 2) with (PI * IZR m / INR N) by (field; lra).
    apply sin_frac_ne0; assumption. }
  replace (INR N * (2 * PI * IZR m / INR N)) with (2 * (PI * IZR m)) in I1, I2 by (field; lra).
  rewrite sin_minus, sin_2a, cos_2a, sin_PI_Z in I1. rewrite cos_minus, cos_2a, sin_2a, sin_PI_Z in I2.
  assert (C2 : cos (PI * IZR m) * cos (PI * IZR m) = 1).
  { pose proof (sin2_cos2 (PI * IZR m)) as Q. unfold Rsqr in Q. rewrite sin_PI_Z in Q. lra. }
  rewrite C2 in I1, I2.
  split; apply (Rmult_eq_reg_l (2 * sin (2 * PI * IZR m / INR N / 2))); try lra.
Qed.
