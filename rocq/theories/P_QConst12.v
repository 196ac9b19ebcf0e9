(** The divisor q[1] of a thin shell never vanishes: degrees above one *)
From Coq Require Import Reals List Bool Lia Lra Psatz.
From Coquelicot Require Import Coquelicot.
From Verif Require Import M_Prelude M_Rotate M_QConst Spec_Induction Spec_InductionC P_Response P_Response2 P_Induction P_QConst1 P_QConst2 P_QConst3 P_QConst4 P_QConst5 P_QConst6 P_QConst7 P_QConst8 P_QConst9 P_QConst10.
Import ListNotations.
Open Scope R_scope.

Lemma fst_le_mod z : Rabs (fst z) <= Cmod z.
Proof. eapply Rle_trans; [apply Rmax_l | apply Rmax_Cmod]. Qed.
Lemma snd_le_mod z : Rabs (snd z) <= Cmod z.
Proof. eapply Rle_trans; [apply Rmax_r | apply Rmax_Cmod]. Qed.

(** ** Tails of series with decreasing terms *)
Section tail.
Variables (f : nat -> C) (l : C) (r : R) (M : nat).
Hypothesis Hl : Ctends (csum f) l.
Hypothesis Hr : 0 <= r < 1.
Hypothesis Hf : forall j, (M <= j)%nat -> Cmod (f (S j)) <= r * Cmod (f j).
Lemma term_le i : Cmod (f (M + i)%nat) <= r ^ i * Cmod (f M).
Proof.
  induction i; [rewrite Nat.add_0_r; cbn [pow]; lra|]. replace (M + S i)%nat with (S (M + i)) by lia.
  eapply Rle_trans; [apply Hf; lia|]. cbn [pow]. rewrite Rmult_assoc. apply Rmult_le_compat_l; [lra | exact IHi].
Qed.
Lemma part_le m : (1 - r) * Cmod (Cminus (csum f (M + m)) (csum f M)) <= (1 - r ^ m) * Cmod (f M).
Proof.
  induction m.
  - rewrite Nat.add_0_r. replace (Cminus (csum f M) (csum f M)) with (RtoC 0) by ring. rewrite Cmod_0. cbn [pow]. lra.
  - replace (M + S m)%nat with (S (M + m)) by lia. cbn [csum].
    replace (Cminus (Cplus (csum f (M + m)) (f (M + m)%nat)) (csum f M)) with (Cplus (Cminus (csum f (M + m)) (csum f M)) (f (M + m)%nat)) by ring.
    eapply Rle_trans; [apply Rmult_le_compat_l; [lra | apply Cmod_triangle]|]. pose proof (term_le m) as T. cbn [pow].
    assert ((1 - r) * Cmod (f (M + m)%nat) <= (1 - r) * (r ^ m * Cmod (f M))) by (apply Rmult_le_compat_l; [lra | exact T]). lra.
Qed.
Lemma tail_le : Cmod (Cminus l (csum f M)) <= Cmod (f M) / (1 - r).
Proof.
  apply le_epsilon. intros e He. destruct (Hl e He) as (N & HN). specialize (HN (M + N)%nat ltac:(lia)).
  replace (Cminus l (csum f M)) with (Cplus (Copp (Cminus (csum f (M + N)) l)) (Cminus (csum f (M + N)) (csum f M))) by ring.
  eapply Rle_trans; [apply Cmod_triangle|]. rewrite Cmod_opp.
  assert (Cmod (Cminus (csum f (M + N)) (csum f M)) <= Cmod (f M) / (1 - r)); [|lra].
  apply (Rmult_le_reg_l (1 - r)); [lra|]. eapply Rle_trans; [apply part_le|].
  replace ((1 - r) * (Cmod (f M) / (1 - r))) with (Cmod (f M)) by (field; lra).
  assert (0 <= r ^ N) by (apply pow_le; lra). pose proof (Cmod_ge_0 (f M)). nra.
Qed.
End tail.

(** ** The two series *)
Section series.
Variables (kap al y x : R).
Hypothesis Hkap : 0 < kap.
Hypothesis Hy : 0 < y.
Hypothesis Hyx : kap / 2 * x ^ 2 = y.
Hypothesis Hal : forall j, 2 * INR j + 2 * al + 3 <> 0.
Definition tm (j : nat) : C := term al (0, y) j.
Lemma tm_mod j : Cmod (tm j) = Rabs (cc al j) * y ^ j.
Proof.
  unfold tm, term. rewrite Cmod_mult, Cmod_R, Cmod_cpow. f_equal. f_equal. unfold Cmod. cbn [fst snd].
  replace (0 ^ 2 + y ^ 2) with (y * y) by ring. apply sqrt_square. lra.
Qed.
Lemma tm_step j b : 0 < b -> b <= Rabs (2 * INR j + 2 * al + 3) -> Cmod (tm (S j)) <= y / (INR (S j) * b) * Cmod (tm j).
Proof.
  intros Hb H. rewrite !tm_mod. cbn [cc pow]. unfold Rdiv. rewrite !Rabs_mult, Rabs_inv, Rabs_mult.
  assert (P : 0 < INR (S j)) by (apply lt_0_INR; lia). rewrite (Rabs_pos_eq (INR (S j))) by lra.
  assert (I1 : / (INR (S j) * Rabs (2 * INR j + 2 * al + 3)) <= / (INR (S j) * b)).
  { apply Rinv_le_contravar; [apply Rmult_lt_0_compat; assumption | apply Rmult_le_compat_l; lra]. }
  assert (0 <= Rabs (cc al j) * y ^ j * y). { apply Rmult_le_pos; [apply Rmult_le_pos; [apply Rabs_pos | apply pow_le; lra] | lra]. }
  set (A := / (INR (S j) * Rabs _)) in *. set (B := / (INR (S j) * b)) in *. nra.
Qed.
Lemma ff_tends : Ctends (csum tm) (ff kap al (x ^ 2)).
Proof. pose proof (sum_tends kap al Hkap Hal (x ^ 2)) as T. rewrite Hyx in T. exact T. Qed.
Lemma ff_near M r : 0 <= r < 1 -> (forall j, (M <= j)%nat -> y <= r * INR (S j) * Rabs (2 * INR j + 2 * al + 3)) ->
  Cmod (Cminus (ff kap al (x ^ 2)) (csum tm M)) <= Rabs (cc al M) * y ^ M / (1 - r).
Proof.
  intros Hr H. rewrite <- tm_mod. apply tail_le; [apply ff_tends | exact Hr |]. intros j Hj. specialize (H j Hj).
  assert (B : 0 < Rabs (2 * INR j + 2 * al + 3)) by (apply Rabs_pos_lt, Hal). assert (P : 0 < INR (S j)) by (apply lt_0_INR; lia).
  eapply Rle_trans; [apply (tm_step j _ B); lra|]. apply Rmult_le_compat_r; [apply Cmod_ge_0|].
  apply (Rmult_le_reg_r (INR (S j) * Rabs (2 * INR j + 2 * al + 3))); [apply Rmult_lt_0_compat; assumption|].
  unfold Rdiv. rewrite Rmult_assoc, Rinv_l by (apply Rmult_integral_contrapositive_currified; lra). lra.
Qed.
Lemma sum2 : csum tm 2 = (1, cc al 1 * y).
Proof. unfold tm, term. cbn [csum cpow cc]. unfold Cplus, Cmult, RtoC. cbn [fst snd]. f_equal; ring. Qed.
Lemma sum6 : csum tm 6 = (1 - cc al 2 * y ^ 2 + cc al 4 * y ^ 4, cc al 1 * y - cc al 3 * y ^ 3 + cc al 5 * y ^ 5).
Proof.
  unfold tm, term. change (cc al 0) with 1 || idtac. set (c1 := cc al 1). set (c2 := cc al 2). set (c3 := cc al 3). set (c4 := cc al 4). set (c5 := cc al 5).
  cbn [csum cpow]. fold c1 c2 c3 c4 c5. change (cc al 0) with 1. unfold Cplus, Cmult, RtoC. cbn [fst snd]. f_equal; ring.
Qed.
End series.

(** ** The growing series *)
Section grow.
Variables (n : nat) (kap y x : R).
Hypothesis Hn : (2 <= n)%nat.
Hypothesis Hkap : 0 < kap.
Hypothesis Hy : 0 < y.
Hypothesis Hy9 : y <= 4.5.
Hypothesis Hyx : kap / 2 * x ^ 2 = y.
Let p := ff kap (alp n) (x ^ 2).
Lemma cp1 : cc (alp n) 1 = / (2 * INR n + 3).
Proof. cbn [cc]. unfold alp. pose proof (pos_INR n). cbn [INR]. field. lra. Qed.
Lemma cp2 : cc (alp n) 2 = / (2 * (2 * INR n + 3) * (2 * INR n + 5)).
Proof. cbn [cc]. unfold alp. pose proof (pos_INR n). cbn [INR]. field. lra. Qed.
Lemma abs_p j : Rabs (2 * INR j + 2 * alp n + 3) = 2 * INR j + 2 * INR n + 3.
Proof. unfold alp. apply Rabs_pos_eq. pose proof (pos_INR n). pose proof (pos_INR j). lra. Qed.
Definition pt : R := 1.2 * y ^ 2 / (2 * (2 * INR n + 3) * (2 * INR n + 5)).
Lemma p_near : Rabs (fst p - 1) <= pt /\ Rabs (snd p - y / (2 * INR n + 3)) <= pt.
Proof.
  assert (N2 : 2 <= INR n) by (apply (le_INR 2) in Hn; cbn [INR] in Hn; lra).
  assert (T : Cmod (Cminus p (csum (tm (alp n) y) 2)) <= pt).
  { eapply Rle_trans; [apply (ff_near kap (alp n) y x Hkap Hy Hyx (alp_ok n) 2 (/ 7))|].
    - lra.
    - intros j Hj. rewrite abs_p. apply (le_INR 2) in Hj. rewrite S_INR. cbn [INR] in Hj. nra.
    - rewrite cp2. unfold pt. assert (D : 0 < 2 * (2 * INR n + 3) * (2 * INR n + 5)) by nra. rewrite Rabs_pos_eq by (left; apply Rinv_0_lt_compat; exact D).
      set (d := 2 * (2 * INR n + 3) * (2 * INR n + 5)) in *. replace (/ d * y ^ 2 / (1 - / 7)) with (y ^ 2 / d * (7 / 6)) by (field; lra).
      replace (1.2 * y ^ 2 / d) with (y ^ 2 / d * 1.2) by (field; lra). apply Rmult_le_compat_l; [|lra].
      apply Rmult_le_pos; [apply pow_le; lra | left; apply Rinv_0_lt_compat; exact D]. }
  rewrite sum2, cp1 in T. split; eapply Rle_trans; try exact T.
  - eapply Rle_trans; [|apply fst_le_mod]. unfold Cminus, Cplus, Copp. cbn [fst snd]. right. f_equal.
  - eapply Rle_trans; [|apply snd_le_mod]. unfold Cminus, Cplus, Copp. cbn [fst snd]. right. f_equal. unfold Rdiv. ring.
Qed.
End grow.
