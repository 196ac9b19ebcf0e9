(** A root of the divisor, as one equation between the two series *)
From Coq Require Import Reals List Bool Lia Lra Psatz.
From Coquelicot Require Import Coquelicot.
From Verif Require Import M_Prelude M_Rotate M_QConst Spec_Induction Spec_InductionC P_Response P_Response2 P_Induction P_QConst1 P_QConst2 P_QConst3 P_QConst4 P_QConst5 P_QConst6 P_QConst7 P_QConst8 P_QConst9 P_QConst10 P_QConst12.
Import ListNotations.
Open Scope R_scope.

Section root.
Variables (n : nat) (k : C) (kap x : R).
Hypothesis Hn : (1 <= n)%nat.
Hypothesis Hkap : 0 < kap.
Hypothesis Hkp : 0 < fst k.
Hypothesis Hk : Cmult k k = (0, kap).
Hypothesis Hx : 0 < x.
Definition a_ : R := fst k * x.
Lemma a_pos : 0 < a_.
Proof. apply Rmult_lt_0_compat; assumption. Qed.
Lemma a_sq : kap / 2 * x ^ 2 = a_ ^ 2.
Proof.
  assert (D := diag k kap Hkap Hkp Hk). apply (f_equal snd) in Hk. unfold Cmult in Hk. cbn [fst snd] in Hk. rewrite D in Hk. unfold a_. rewrite <- Hk. field.
Qed.
Lemma z_diag : Cmult k (RtoC x) = (a_, a_).
Proof. assert (D := diag k kap Hkap Hkp Hk). rewrite (surjective_pairing k), D. unfold Cmult, RtoC, a_. cbn [fst snd]. f_equal; ring. Qed.
Definition A_ : R := INR (2 * n + 1) * (2 * a_ ^ 2) ^ n * a_ / INR (fact n) ^ 2.
Lemma A_pos : 0 < A_.
Proof.
  pose proof a_pos. unfold A_, Rdiv. apply Rmult_lt_0_compat; [apply Rmult_lt_0_compat; [apply Rmult_lt_0_compat|]|].
  - apply lt_0_INR. lia.
  - apply pow_lt. assert (0 < a_ ^ 2) by (apply pow_lt; assumption). lra.
  - assumption.
  - apply Rinv_0_lt_compat, pow_lt, INR_fact_lt_0.
Qed.
Lemma root_eq : Kx n k kap x = RtoC 0 ->
  Cmult (RtoC A_) (Cmult (cpow (0, -1) n) (Cmult (1, 1) (ff kap (alp n) (x ^ 2)))) = ff kap (alq n) (x ^ 2).
Proof.
  intros E. unfold Kx in E.
  assert (E1 : Cmult (Cc n) (Cminus (Cmult (Ac n k) (up n kap x)) (Cmult (Bc n k) (uq n kap x))) = RtoC 0) by (rewrite <- E; ring).
  assert (E2 : Cminus (Cmult (Ac n k) (up n kap x)) (Cmult (Bc n k) (uq n kap x)) = RtoC 0).
  { destruct (Ceq_dec (Cminus (Cmult (Ac n k) (up n kap x)) (Cmult (Bc n k) (uq n kap x))) (RtoC 0)) as [G|G]; [exact G|].
    exfalso. apply (Cmult_neq_0 _ _ (Cc_ne n) G). exact E1. }
  clear E E1. rewrite <- (exact_qraw n k kap Hkap Hk x Hx) in E2.
  assert (U : Cmult (Ac n k) (up n kap x) = Cdiv (Cmult (ff kap (alp n) (x ^ 2)) (cpow (Cmult k (RtoC x)) n)) (RtoC (fac1 n))).
  { symmetry. pose proof (exact_p n k kap x Hx) as P. unfold exact, final in P. cbv zeta in P. cbn [b_p] in P. exact P. }
  rewrite U in E2. rewrite z_diag in E2. set (p := ff kap (alp n) (x ^ 2)) in *. set (q := ff kap (alq n) (x ^ 2)) in *.
  set (z := (a_, a_) : C) in *. assert (Nz : z <> RtoC 0). { intros Z. apply (f_equal fst) in Z. unfold z, RtoC in Z. cbn [fst] in Z. pose proof a_pos. lra. }
  assert (F1 := fac1_ne n). assert (N1 : RtoC (fac1 n) <> RtoC 0) by (apply RtoC_neq; exact F1).
  assert (Zn := cpow_neq z n Nz). assert (Zn1 := cpow_neq z (n + 1) Nz).
  assert (I2 : INR (2 * n + 1) <> 0) by (apply not_0_INR; lia).
  assert (SG : sgn n * sgn n = 1). { unfold sgn. rewrite <- Rpow_mult_distr. replace (-1 * -1) with 1 by ring. apply pow1. }
  assert (E3 : Cmult (Cmult (cpow z n) (cpow z (n + 1))) (Cmult (RtoC (sgn n * INR (2 * n + 1) / fac1 n ^ 2)) p) = q).
  { assert (E4 : Cdiv (Cmult p (cpow z n)) (RtoC (fac1 n)) = Cmult (Cmult q (Cinv (cpow z (n + 1)))) (RtoC (fac2 n))).
    { transitivity (Cplus (Cminus (Cdiv (Cmult p (cpow z n)) (RtoC (fac1 n))) (Cmult (Cmult q (Cinv (cpow z (n + 1)))) (RtoC (fac2 n)))) (Cmult (Cmult q (Cinv (cpow z (n + 1)))) (RtoC (fac2 n)))); [ring | rewrite E2; ring]. }
    transitivity (Cmult (Cmult (cpow z (n + 1)) (RtoC (sgn n * INR (2 * n + 1) / fac1 n))) (Cdiv (Cmult p (cpow z n)) (RtoC (fac1 n)))).
    - replace (sgn n * INR (2 * n + 1) / fac1 n ^ 2) with (sgn n * INR (2 * n + 1) / fac1 n * / fac1 n) by (field; exact F1).
      rewrite (RC_mult _ (/ fac1 n)), RC_inv by exact F1. field. exact N1.
    - rewrite E4. transitivity (Cmult q (RtoC (sgn n * INR (2 * n + 1) / fac1 n * fac2 n))).
      + rewrite (RC_mult _ (fac2 n)). field. exact Zn1.
      + replace (sgn n * INR (2 * n + 1) / fac1 n * fac2 n) with 1; [ring|]. unfold fac2.
        replace (sgn n * INR (2 * n + 1) / fac1 n * (sgn n * fac1 n / INR (2 * n + 1))) with (sgn n * sgn n) by (field; split; assumption). symmetry; exact SG. }
  rewrite <- E3. clear E3 E2 U.
  replace (Cmult (cpow z n) (cpow z (n + 1))) with (Cmult (Cmult (RtoC ((2 * a_ ^ 2) ^ n * a_)) (cpow Ci n)) (1, 1)).
  2:{ rewrite cpow_add. cbn [cpow]. transitivity (Cmult (cpow (Cmult z z) n) z); [|rewrite cpow_mul; ring].
      replace (Cmult z z) with (Cmult (RtoC (2 * a_ ^ 2)) Ci) by (unfold z, Cmult, RtoC, Ci; cbn [fst snd]; f_equal; ring).
      rewrite cpow_mul, cpow_R. replace z with (Cmult (RtoC a_) (1, 1)) by (unfold z, Cmult, RtoC; cbn [fst snd]; f_equal; ring). rewrite RC_mult. ring. }
  replace (cpow (0, -1) n) with (Cmult (RtoC (sgn n)) (cpow Ci n)).
  2:{ unfold sgn. rewrite <- cpow_R, <- cpow_mul. f_equal. unfold Cmult, RtoC, Ci. cbn [fst snd]. f_equal; ring. }
  replace (RtoC A_) with (Cmult (RtoC ((2 * a_ ^ 2) ^ n * a_)) (RtoC (INR (2 * n + 1) / fac1 n ^ 2))).
  2:{ rewrite <- RC_mult. f_equal. unfold A_, fac1. field. exact F1. }
  replace (sgn n * INR (2 * n + 1) / fac1 n ^ 2) with (sgn n * (INR (2 * n + 1) / fac1 n ^ 2)) by (field; exact F1).
  rewrite (RC_mult (sgn n)). ring.
Qed.
End root.

(** ** High degrees *)
Section high.
Variables (n : nat) (kap y x : R).
Hypothesis Hn : (9 <= n)%nat.
Hypothesis Hkap : 0 < kap.
Hypothesis Hy : 0 < y.
Hypothesis Hy9 : y <= 4.5.
Hypothesis Hyx : kap / 2 * x ^ 2 = y.
Lemma n9 : 9 <= INR n.
Proof. apply (le_INR 9) in Hn. cbn [INR] in Hn. lra. Qed.
Lemma p_high : Cmod (ff kap (alp n) (x ^ 2)) <= 1.25.
Proof.
  pose proof n9 as N9. 
  assert (T : Cmod (Cminus (ff kap (alp n) (x ^ 2)) (csum (tm (alp n) y) 1)) <= 0.25).
  { eapply Rle_trans; [apply (ff_near kap (alp n) y x Hkap Hy Hyx (alp_ok n) 1 (/ 10))|].
    - lra.
    - intros j Hj. rewrite abs_p. apply (le_INR 1) in Hj. rewrite S_INR. cbn [INR] in Hj. nra.
    - rewrite cp1. rewrite Rabs_pos_eq by (left; apply Rinv_0_lt_compat; lra).
      assert (/ (2 * INR n + 3) <= / 21) by (apply Rinv_le_contravar; lra). assert (0 < / (2 * INR n + 3)) by (apply Rinv_0_lt_compat; lra). cbn [pow]. nra. }
  replace (ff kap (alp n) (x ^ 2)) with (Cplus (Cminus (ff kap (alp n) (x ^ 2)) (csum (tm (alp n) y) 1)) (csum (tm (alp n) y) 1)) by ring.
  eapply Rle_trans; [apply Cmod_triangle|]. replace (csum (tm (alp n) y) 1) with (RtoC 1) at 2 by (unfold tm, term; cbn [csum cpow cc]; ring).
  rewrite Cmod_R, Rabs_R1. lra.
Qed.
Lemma q_high : 0.39 <= Cmod (ff kap (alq n) (x ^ 2)).
Proof.
  pose proof n9 as N9. 
  assert (T : Cmod (Cminus (ff kap (alq n) (x ^ 2)) (csum (tm (alq n) y) 1)) <= 0.61).
  { eapply Rle_trans; [apply (ff_near kap (alq n) y x Hkap Hy Hyx (alq_ok n) 1 (9 / 16))|].
    - lra.
    - intros j Hj. unfold alq. assert (B : 8 <= INR (S j) * Rabs (2 * INR j + 2 * - (INR n + 1) + 3)); [|nra].
      destruct (le_lt_dec n j) as [L|L].
      + apply le_INR in L. rewrite Rabs_pos_eq by lra. rewrite S_INR. nra.
      + rewrite Rabs_left. 2:{ assert (INR (S j) <= INR n) by (apply le_INR; lia). rewrite S_INR in *. lra. }
        destruct (le_lt_dec 7 j) as [G|G].
        * assert (INR (S j) <= INR n) by (apply le_INR; lia). apply (le_INR 7) in G. rewrite S_INR in *. cbn [INR] in G.
          apply Rle_trans with (8 * 1); [lra|]. apply Rmult_le_compat; lra.
        * apply (le_INR 1) in Hj. assert (G' : (j <= 6)%nat) by lia. apply (le_INR _ 6) in G'. rewrite S_INR in *. cbn [INR] in Hj, G'. nra.
    - assert (E : cc (alq n) 1 = - / (2 * INR n - 1)) by (cbn [cc]; unfold alq; cbn [INR]; field; lra). rewrite E.
      rewrite Rabs_Ropp, Rabs_pos_eq by (left; apply Rinv_0_lt_compat; lra).
      assert (/ (2 * INR n - 1) <= / 17) by (apply Rinv_le_contravar; lra). assert (0 < / (2 * INR n - 1)) by (apply Rinv_0_lt_compat; lra). cbn [pow]. nra. }
  assert (E1 : csum (tm (alq n) y) 1 = RtoC 1) by (unfold tm, term; cbn [csum cpow cc]; ring). rewrite E1 in T.
  pose proof (Cmod_triangle (ff kap (alq n) (x ^ 2)) (Copp (Cminus (ff kap (alq n) (x ^ 2)) (RtoC 1)))) as Q.
  replace (Cplus _ (Copp _)) with (RtoC 1) in Q by ring. rewrite Cmod_opp, Cmod_R, Rabs_R1 in Q. lra.
Qed.
End high.

Definition AA (n : nat) (a : R) : R := INR (2 * n + 1) * (2 * a ^ 2) ^ n * a / INR (fact n) ^ 2.
Lemma AA_step n a : 0 < a -> (9 <= n)%nat -> a ^ 2 <= 4.5 -> AA (S n) a <= AA n a.
Proof.
  intros Ha Hn Hy. assert (N9 : 9 <= INR n) by (apply (le_INR 9) in Hn; cbn [INR] in Hn; lra). unfold AA.
  assert (F := INR_fact_lt_0 n). replace (INR (fact (S n))) with ((INR n + 1) * INR (fact n)) by (rewrite fact_simpl, mult_INR, S_INR; ring).
  replace (INR (2 * S n + 1)) with (2 * INR n + 3) by (replace (2 * S n + 1)%nat with (2 * n + 3)%nat by lia; rewrite plus_INR, mult_INR; cbn [INR]; ring).
  replace (INR (2 * n + 1)) with (2 * INR n + 1) by (rewrite plus_INR, mult_INR; cbn [INR]; ring).
  change ((2 * a ^ 2) ^ S n) with (2 * a ^ 2 * (2 * a ^ 2) ^ n). set (w := (2 * a ^ 2) ^ n).
  assert (W : 0 <= w) by (apply pow_le; assert (0 < a ^ 2) by (apply pow_lt; exact Ha); lra).
  replace ((2 * INR n + 3) * (2 * a ^ 2 * w) * a / ((INR n + 1) * INR (fact n)) ^ 2) with (w * a / INR (fact n) ^ 2 * ((2 * INR n + 3) * (2 * a ^ 2) / (INR n + 1) ^ 2)) by (field; split; lra).
  replace ((2 * INR n + 1) * w * a / INR (fact n) ^ 2) with (w * a / INR (fact n) ^ 2 * (2 * INR n + 1)) by (field; lra).
  apply Rmult_le_compat_l.
  - apply Rmult_le_pos; [apply Rmult_le_pos; lra | left; apply Rinv_0_lt_compat, pow_lt; exact F].
  - apply (Rmult_le_reg_r ((INR n + 1) ^ 2)); [apply pow_lt; lra|]. unfold Rdiv. rewrite Rmult_assoc, Rinv_l by (apply pow_nonzero; lra).
    assert (0 < a ^ 2) by (apply pow_lt; exact Ha). set (u := a ^ 2) in *. nra.
Qed.
Lemma AA_9 a : 0 < a -> a ^ 2 <= 4.5 -> AA 9 a <= 0.13.
Proof.
  intros Ha Hy. unfold AA. assert (a <= 2.13) by nra.
  assert (W : (2 * a ^ 2) ^ 9 <= 9 ^ 9) by (apply pow_incr; assert (0 < a ^ 2) by (apply pow_lt; exact Ha); lra).
  assert (W0 : 0 <= (2 * a ^ 2) ^ 9) by (apply pow_le; assert (0 < a ^ 2) by (apply pow_lt; exact Ha); lra).
  replace (INR (2 * 9 + 1)) with 19 by (cbn [Nat.mul Nat.add INR]; ring).
  assert (F : INR (fact 9) = 362880). { rewrite !fact_simpl, !mult_INR. cbn [fact INR]. ring. }
  rewrite F. set (w := (2 * a ^ 2) ^ 9) in *. replace (9 ^ 9) with 387420489 in W by ring.
  apply (Rmult_le_reg_r (362880 ^ 2)); [lra|]. unfold Rdiv. rewrite Rmult_assoc, Rinv_l by lra. nra.
Qed.
Lemma AA_high n a : (9 <= n)%nat -> 0 < a -> a ^ 2 <= 4.5 -> AA n a <= 0.13.
Proof. intros Hn Ha Hy. induction Hn; [apply AA_9; assumption|]. eapply Rle_trans; [apply AA_step; assumption | exact IHHn]. Qed.

Lemma no_root_high n k kap x : (9 <= n)%nat -> 0 < kap -> 0 < fst k -> Cmult k k = (0, kap) -> 0 < x -> kap / 2 * x ^ 2 <= 4.5 -> Kx n k kap x <> RtoC 0.
Proof.
  intros Hn Hkap Hkp Hk Hx Hy E. pose proof (root_eq n k kap x ltac:(lia) Hkap Hkp Hk Hx E) as R0. apply (f_equal Cmod) in R0.
  assert (Hyx := a_sq k kap x Hkap Hkp Hk). assert (Ha := a_pos k x Hkp Hx). set (a := a_ k x) in *.
  assert (Hy0 : 0 < a ^ 2) by (apply pow_lt; exact Ha).
  assert (P := p_high n kap (a ^ 2) x Hn Hkap Hy0 ltac:(lra) Hyx). assert (Q := q_high n kap (a ^ 2) x Hn Hkap Hy0 ltac:(lra) Hyx).
  rewrite !Cmod_mult, Cmod_R, Cmod_cpow in R0.
  assert (M1 : Cmod (0, -1) = 1). { unfold Cmod. cbn [fst snd]. replace (0 ^ 2 + (-1) ^ 2) with 1 by ring. apply sqrt_1. }
  assert (M2 : Cmod (1, 1) <= 1.5). { unfold Cmod. cbn [fst snd]. rewrite <- (sqrt_square 1.5) by lra. apply sqrt_le_1_alt. lra. }
  rewrite M1, pow1, Rmult_1_l in R0.
  assert (A := AA_high n a Hn Ha ltac:(lra)). change (A_ n k x) with (AA n a) in R0.
  rewrite Rabs_pos_eq in R0 by (left; apply (A_pos n k x ltac:(lia) Hkp Hx)).
  assert (0 < AA n a) by (apply (A_pos n k x ltac:(lia) Hkp Hx)).
  set (p := Cmod (ff kap (alp n) (x ^ 2))) in *. set (q := Cmod (ff kap (alq n) (x ^ 2))) in *. set (m := Cmod (1, 1)) in *.
  assert (0 <= p) by apply Cmod_ge_0. assert (0 <= m) by apply Cmod_ge_0. 
  assert (m * p <= 1.5 * 1.25) by nra. nra.
Qed.
