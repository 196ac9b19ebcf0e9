(** The divisor q[1] of a thin shell never vanishes: degrees two to eight, and all degrees *)
From Coq Require Import Reals List Bool Lia Lra Psatz.
From Coquelicot Require Import Coquelicot.
From Verif Require Import M_Prelude M_Rotate M_QConst Spec_Induction Spec_InductionC P_Response P_Response2 P_Induction P_QConst1 P_QConst2 P_QConst3 P_QConst4 P_QConst5 P_QConst6 P_QConst7 P_QConst8 P_QConst9 P_QConst10 P_QConst11 P_QConst12 P_QConst13.
Import ListNotations.
Open Scope R_scope.

Lemma q_near n kap y x : 0 < kap -> 0 < y -> y <= 4.5 -> kap / 2 * x ^ 2 = y ->
  let q := ff kap (alq n) (x ^ 2) in let c := cc (alq n) in
  Rabs (fst q - (1 - c 2%nat * y ^ 2 + c 4%nat * y ^ 4)) <= 2.8 * Rabs (c 6%nat) * y ^ 6 /\
  Rabs (snd q - (c 1%nat * y - c 3%nat * y ^ 3 + c 5%nat * y ^ 5)) <= 2.8 * Rabs (c 6%nat) * y ^ 6.
Proof.
  intros Hkap Hy Hy9 Hyx q c.
  assert (T : Cmod (Cminus q (csum (tm (alq n) y) 6)) <= 2.8 * Rabs (c 6%nat) * y ^ 6).
  { eapply Rle_trans; [apply (ff_near kap (alq n) y x Hkap Hy Hyx (alq_ok n) 6 (9 / 14))|].
    - lra.
    - intros j Hj. assert (B : 1 <= Rabs (2 * INR j + 2 * alq n + 3)).
      { unfold alq. destruct (le_lt_dec n j) as [L|L].
        - apply le_INR in L. rewrite Rabs_pos_eq; lra.
        - assert (L' : (S j <= n)%nat) by lia. apply le_INR in L'. rewrite S_INR in L'. rewrite Rabs_left; lra. }
      apply (le_INR 6) in Hj. rewrite S_INR. cbn [INR] in Hj. set (b := Rabs _) in *. assert (4.5 <= 9 / 14 * (INR j + 1)) by lra.
      assert (9 / 14 * (INR j + 1) * 1 <= 9 / 14 * (INR j + 1) * b) by (apply Rmult_le_compat_l; lra). lra.
    - unfold c. set (v := Rabs _). replace (v * y ^ 6 / (1 - 9 / 14)) with (14 / 5 * (v * y ^ 6)) by field. lra. }
  rewrite sum6 in T. fold c in T. split; eapply Rle_trans; try exact T.
  - eapply Rle_trans; [|apply fst_le_mod]. unfold Cminus, Cplus, Copp. cbn [fst snd]. right. f_equal.
  - eapply Rle_trans; [|apply snd_le_mod]. unfold Cminus, Cplus, Copp. cbn [fst snd]. right. f_equal.
Qed.
Lemma Rabs_cases a b : Rabs a <= b -> - b <= a <= b.
Proof. intros H. split; [pose proof (Rabs_maj2 a); lra | pose proof (Rle_abs a); lra]. Qed.

Lemma c_2 : cc (alq 2) 1 = - / 3 /\ cc (alq 2) 2 = / 6 /\ cc (alq 2) 3 = / 18 /\ cc (alq 2) 4 = / 216 /\ cc (alq 2) 5 = / 5400 /\ cc (alq 2) 6 = / 226800.
Proof. unfold alq. cbn [cc INR]. repeat split; field. Qed.
Lemma c_3 : cc (alq 3) 1 = - / 5 /\ cc (alq 3) 2 = / 30 /\ cc (alq 3) 3 = - / 90 /\ cc (alq 3) 4 = - / 360 /\ cc (alq 3) 5 = - / 5400 /\ cc (alq 3) 6 = - / 162000.
Proof. unfold alq. cbn [cc INR]. repeat split; field. Qed.
Lemma c_4 : cc (alq 4) 1 = - / 7 /\ cc (alq 4) 2 = / 70 /\ cc (alq 4) 3 = - / 630 /\ cc (alq 4) 4 = / 2520 /\ cc (alq 4) 5 = / 12600 /\ cc (alq 4) 6 = / 226800.
Proof. unfold alq. cbn [cc INR]. repeat split; field. Qed.
Lemma c_5 : cc (alq 5) 1 = - / 9 /\ cc (alq 5) 2 = / 126 /\ cc (alq 5) 3 = - / 1890 /\ cc (alq 5) 4 = / 22680 /\ cc (alq 5) 5 = - / 113400 /\ cc (alq 5) 6 = - / 680400.
Proof. unfold alq. cbn [cc INR]. repeat split; field. Qed.
Lemma c_6 : cc (alq 6) 1 = - / 11 /\ cc (alq 6) 2 = / 198 /\ cc (alq 6) 3 = - / 4158 /\ cc (alq 6) 4 = / 83160 /\ cc (alq 6) 5 = - / 1247400 /\ cc (alq 6) 6 = / 7484400.
Proof. unfold alq. cbn [cc INR]. repeat split; field. Qed.
Lemma c_7 : cc (alq 7) 1 = - / 13 /\ cc (alq 7) 2 = / 286 /\ cc (alq 7) 3 = - / 7722 /\ cc (alq 7) 4 = / 216216 /\ cc (alq 7) 5 = - / 5405400 /\ cc (alq 7) 6 = / 97297200.
Proof. unfold alq. cbn [cc INR]. repeat split; field. Qed.
Lemma c_8 : cc (alq 8) 1 = - / 15 /\ cc (alq 8) 2 = / 390 /\ cc (alq 8) 3 = - / 12870 /\ cc (alq 8) 4 = / 463320 /\ cc (alq 8) 5 = - / 16216200 /\ cc (alq 8) 6 = / 486486000.
Proof. unfold alq. cbn [cc INR]. repeat split; field. Qed.

(** what is known about p and q *)
Definition pq (n : nat) (y pr pi qr qi : R) : Prop :=
  let t := 1.2 * y ^ 2 / (2 * (2 * INR n + 3) * (2 * INR n + 5)) in
  let c := cc (alq n) in let e := 2.8 * Rabs (c 6%nat) * y ^ 6 in
  (1 - t <= pr <= 1 + t) /\ (y / (2 * INR n + 3) - t <= pi <= y / (2 * INR n + 3) + t) /\
  (1 - c 2%nat * y ^ 2 + c 4%nat * y ^ 4 - e <= qr <= 1 - c 2%nat * y ^ 2 + c 4%nat * y ^ 4 + e) /\
  (c 1%nat * y - c 3%nat * y ^ 3 + c 5%nat * y ^ 5 - e <= qi <= c 1%nat * y - c 3%nat * y ^ 3 + c 5%nat * y ^ 5 + e).

Definition clash (n : nat) : Prop := forall a pr pi qr qi, 0 < a -> a ^ 2 <= 4.5 -> pq n (a ^ 2) pr pi qr qi ->
  Cmult (RtoC (AA n a)) (Cmult (cpow (0, -1) n) (Cmult (1, 1) (pr, pi))) = (qr, qi) -> False.

Lemma no_root_of n k kap x : (2 <= n)%nat -> clash n -> 0 < kap -> 0 < fst k -> Cmult k k = (0, kap) -> 0 < x -> kap / 2 * x ^ 2 <= 4.5 -> Kx n k kap x <> RtoC 0.
Proof.
  intros Hn Hcl Hkap Hkp Hk Hx Hy E. pose proof (root_eq n k kap x ltac:(lia) Hkap Hkp Hk Hx E) as R0.
  assert (Hyx := a_sq k kap x Hkap Hkp Hk). assert (Ha := a_pos k x Hkp Hx). set (a := a_ k x) in *.
  assert (Hy0 : 0 < a ^ 2) by (apply pow_lt; exact Ha).
  destruct (p_near n kap (a ^ 2) x Hn Hkap Hy0 ltac:(lra) Hyx) as [P1 P2]. destruct (q_near n kap (a ^ 2) x Hkap Hy0 ltac:(lra) Hyx) as [Q1 Q2].
  set (p := ff kap (alp n) (x ^ 2)) in *. set (q := ff kap (alq n) (x ^ 2)) in *.
  apply Rabs_cases in P1, P2, Q1, Q2. unfold pt in P1, P2.
  apply (Hcl a (fst p) (snd p) (fst q) (snd q) Ha ltac:(lra)).
  - unfold pq. cbv zeta. cbv zeta in Q1, Q2. repeat split; lra.
  - rewrite <- !surjective_pairing. exact R0.
Qed.

Ltac powers y := 
  assert (H2 : y ^ 2 = y * y) by ring; assert (H3 : y ^ 3 = y ^ 2 * y) by ring; assert (H4 : y ^ 4 = y ^ 3 * y) by ring;
  assert (H5 : y ^ 5 = y ^ 4 * y) by ring; assert (H6 : y ^ 6 = y ^ 5 * y) by ring.

(** the powers of - i *)
Lemma mi_step n z : cpow (0, -1) n = z -> cpow (0, -1) (S n) = (snd z, - fst z).
Proof. intros <-. cbn [cpow]. unfold Cmult. cbn [fst snd]. f_equal; ring. Qed.
Lemma mi_2 : cpow (0, -1) 2 = (-1, 0).
Proof. rewrite (mi_step _ _ (mi_step _ _ (eq_refl (cpow (0, -1) 0)))). cbn. f_equal; ring. Qed.
Lemma mi_3 : cpow (0, -1) 3 = (0, 1). Proof. rewrite (mi_step _ _ mi_2). cbn. f_equal; ring. Qed.
Lemma mi_4 : cpow (0, -1) 4 = (1, 0). Proof. rewrite (mi_step _ _ mi_3). cbn. f_equal; ring. Qed.
Lemma mi_5 : cpow (0, -1) 5 = (0, -1). Proof. rewrite (mi_step _ _ mi_4). cbn. f_equal; ring. Qed.
Lemma mi_6 : cpow (0, -1) 6 = (-1, 0). Proof. rewrite (mi_step _ _ mi_5). cbn. f_equal; ring. Qed.
Lemma mi_7 : cpow (0, -1) 7 = (0, 1). Proof. rewrite (mi_step _ _ mi_6). cbn. f_equal; ring. Qed.
Lemma mi_8 : cpow (0, -1) 8 = (1, 0). Proof. rewrite (mi_step _ _ mi_7). cbn. f_equal; ring. Qed.

Ltac start n Hc Hm a y :=
  intros a pr pi qr qi Ha Hy; unfold pq; cbv zeta; destruct Hc as (E1 & E2 & E3 & E4 & E5 & E6); rewrite E1, E2, E3, E4, E5, E6;
  rewrite ?Rabs_Ropp, Rabs_pos_eq by lra; cbn [INR]; intros (P1 & P2 & Q1 & Q2) E;
  assert (Hy0 : 0 < a ^ 2) by (apply pow_lt; exact Ha);
  assert (A0 : 0 < AA n a) by (unfold AA, Rdiv; apply Rmult_lt_0_compat; [apply Rmult_lt_0_compat; [apply Rmult_lt_0_compat; [apply lt_0_INR; lia | apply pow_lt; lra] | exact Ha] | apply Rinv_0_lt_compat, pow_lt, INR_fact_lt_0]);
  assert (Er := f_equal fst E); assert (Ei := f_equal snd E); clear E; rewrite Hm in Er, Ei; unfold Cmult, RtoC in Er, Ei; cbn [fst snd] in Er, Ei;
  unfold AA in A0, Er, Ei; set (y := a ^ 2) in *; set (A := INR _ * _ ^ _ * a / _) in *.

Lemma clash_8 : clash 8.
Proof.
  start 8%nat c_8 mi_8 a y. assert (I : A * (pr + pi) = qi) by lra. clear Er Ei.
  assert (0 < pr + pi). { assert (y * y <= 20.25) by nra. lra. }
  assert (qi < 0).
  { assert (G : qi <= y * (- / 15 + y ^ 2 * / 12870 + 2.8 * / 486486000 * y ^ 5)).
    { assert (0 < y ^ 5) by (apply pow_lt; exact Hy0). lra. }
    assert (y ^ 2 <= 4.5 ^ 2) by (apply pow_incr; lra). assert (y ^ 5 <= 4.5 ^ 5) by (apply pow_incr; lra). nra. }
  nra.
Qed.
Lemma clash_7 : clash 7.
Proof.
  start 7%nat c_7 mi_7 a y. assert (I : A * (pr - pi) = qi) by lra. clear Er Ei.
  assert (0 < pr - pi). { assert (y * y <= 20.25) by nra. lra. }
  assert (qi < 0).
  { assert (G : qi <= y * (- / 13 + y ^ 2 * / 7722 + 2.8 * / 97297200 * y ^ 5)).
    { assert (0 < y ^ 5) by (apply pow_lt; exact Hy0). lra. }
    assert (y ^ 2 <= 4.5 ^ 2) by (apply pow_incr; lra). assert (y ^ 5 <= 4.5 ^ 5) by (apply pow_incr; lra). nra. }
  nra.
Qed.
Lemma clash_6 : clash 6.
Proof.
  start 6%nat c_6 mi_6 a y. assert (I : A * (pr - pi) = - qr) by lra. clear Er Ei.
  assert (0 < pr - pi). { assert (y * y <= 20.25) by nra. lra. }
  assert (0 < qr).
  { assert (0 < y ^ 4) by (apply pow_lt; exact Hy0).
    assert (y ^ 2 <= 4.5 ^ 2) by (apply pow_incr; lra). assert (y ^ 6 <= 4.5 ^ 6) by (apply pow_incr; lra). lra. }
  nra.
Qed.
Lemma clash_4 : clash 4.
Proof.
  start 4%nat c_4 mi_4 a y. assert (I : A * (pr + pi) = qi) by lra. clear Er Ei.
  assert (0 < pr + pi). { assert (y * y <= 20.25) by nra. lra. }
  assert (qi < 0).
  { assert (G : qi <= y * (- / 7 + y ^ 2 * / 630 + y ^ 4 * / 12600 + 2.8 * / 226800 * y ^ 5)) by lra.
    assert (y ^ 2 <= 4.5 ^ 2) by (apply pow_incr; lra). assert (y ^ 4 <= 4.5 ^ 4) by (apply pow_incr; lra). assert (y ^ 5 <= 4.5 ^ 5) by (apply pow_incr; lra). nra. }
  nra.
Qed.
Lemma clash_3 : clash 3.
Proof.
  start 3%nat c_3 mi_3 a y. assert (I : A * (pr - pi) = qi) by lra. assert (J : A * (pr + pi) = - qr) by lra. clear Er Ei.
  destruct (Rle_lt_dec y 3) as [L|L].
  - assert (0 < pr - pi). { assert (y * y <= 9) by nra. lra. }
    assert (qi < 0).
    { assert (G : qi <= y * (- / 5 + y ^ 2 * / 90 + 2.8 * / 162000 * y ^ 5)). { assert (0 < y ^ 5) by (apply pow_lt; exact Hy0). lra. }
      assert (y ^ 2 <= 3 ^ 2) by (apply pow_incr; lra). assert (y ^ 5 <= 3 ^ 5) by (apply pow_incr; lra). nra. }
    nra.
  - assert (Hp : 0.8 <= pr + pi). { assert (y * y <= 20.25) by nra. lra. }
    assert (Hq : - qr <= 5).
    { assert (y ^ 2 <= 4.5 ^ 2) by (apply pow_incr; lra). assert (y ^ 4 <= 4.5 ^ 4) by (apply pow_incr; lra). assert (y ^ 6 <= 4.5 ^ 6) by (apply pow_incr; lra). lra. }
    assert (HA : 30 <= A).
    { unfold A. replace (INR (2 * 3 + 1)) with 7 by (cbn [Nat.mul Nat.add INR]; ring). replace (INR (fact 3)) with 6 by (cbn [fact Nat.mul Nat.add INR]; ring).
      assert (1 <= a) by (apply Rnot_lt_le; intro; unfold y in L; nra). assert (6 ^ 3 <= (2 * y) ^ 3) by (apply pow_incr; lra). set (w := (2 * y) ^ 3) in *. nra. }
    nra.
Qed.
Lemma clash_2 : clash 2.
Proof.
  start 2%nat c_2 mi_2 a y. assert (I : A * (pr - pi) = - qr) by lra. assert (J : A * (pr + pi) = - qi) by lra. clear Er Ei.
  destruct (Rle_lt_dec y 2) as [L|L].
  - assert (0 < pr - pi). { assert (y * y <= 4) by nra. lra. }
    assert (0 < qr).
    { assert (0 < y ^ 4) by (apply pow_lt; exact Hy0). assert (y ^ 2 <= 2 ^ 2) by (apply pow_incr; lra). assert (y ^ 6 <= 2 ^ 6) by (apply pow_incr; lra). lra. }
    nra.
  - assert (Hp : 0.8 <= pr + pi). { assert (y * y <= 20.25) by nra. lra. }
    assert (Hq : - qi <= 8).
    { assert (0 < y ^ 5) by (apply pow_lt; exact Hy0). assert (y ^ 3 <= 4.5 ^ 3) by (apply pow_incr; lra). assert (y ^ 6 <= 4.5 ^ 6) by (apply pow_incr; lra). lra. }
    assert (HA : 20 <= A).
    { unfold A. replace (INR (2 * 2 + 1)) with 5 by (cbn [Nat.mul Nat.add INR]; ring). replace (INR (fact 2)) with 2 by (cbn [fact Nat.mul Nat.add INR]; ring).
      assert (1 <= a) by (apply Rnot_lt_le; intro; unfold y in L; nra). assert (4 ^ 2 <= (2 * y) ^ 2) by (apply pow_incr; lra). set (w := (2 * y) ^ 2) in *. nra. }
    nra.
Qed.
Lemma clash_5 : clash 5.
Proof.
  start 5%nat c_5 mi_5 a y. assert (I : A * (pr + pi) = qr) by lra. assert (J : A * (pi - pr) = qi) by lra. clear Er Ei.
  destruct (Rle_lt_dec y 2.6) as [L|L].
  - assert (K1 : 1.5 * pi - 0.5 * pr < 0). { assert (y * y <= 2.6 * 2.6) by nra. lra. }
    assert (K2 : 0 < qi + 0.5 * qr).
    { assert (0 < y ^ 3) by (apply pow_lt; exact Hy0). assert (0 < y ^ 4) by (apply pow_lt; exact Hy0). assert (y ^ 2 <= 2.6 ^ 2) by (apply pow_incr; lra). assert (y ^ 5 <= 2.6 ^ 5) by (apply pow_incr; lra). assert (y ^ 6 <= 2.6 ^ 6) by (apply pow_incr; lra). lra. }
    nra.
  - assert (Hp : 0.8 <= pr + pi). { assert (y * y <= 20.25) by nra. lra. }
    assert (Hq : qr <= 1.1).
    { assert (0 < y ^ 2) by (apply pow_lt; exact Hy0). assert (y ^ 4 <= 4.5 ^ 4) by (apply pow_incr; lra). assert (y ^ 6 <= 4.5 ^ 6) by (apply pow_incr; lra). lra. }
    assert (HA : 2 <= A).
    { unfold A. replace (INR (2 * 5 + 1)) with 11 by (cbn [Nat.mul Nat.add INR]; ring). replace (INR (fact 5)) with 120 by (rewrite !fact_simpl, !mult_INR; cbn [fact INR]; ring).
      assert (1 <= a) by (apply Rnot_lt_le; intro; unfold y in L; nra). assert (5.2 ^ 5 <= (2 * y) ^ 5) by (apply pow_incr; lra). set (w := (2 * y) ^ 5) in *. 
      apply (Rmult_le_reg_r (120 ^ 2)); [lra|]. unfold Rdiv. rewrite Rmult_assoc, Rinv_l by lra. nra. }
    nra.
Qed.

Lemma no_root_all n k kap x : (2 <= n)%nat -> 0 < kap -> 0 < fst k -> Cmult k k = (0, kap) -> 0 < x -> kap / 2 * x ^ 2 <= 4.5 -> Kx n k kap x <> RtoC 0.
Proof.
  intros Hn. destruct (le_lt_dec 9 n) as [L|L]; [apply no_root_high; exact L|].
  apply no_root_of; [exact Hn|].
  destruct n as [|[|[|[|[|[|[|[|[|n]]]]]]]]]; try lia.
  - exact clash_2. - exact clash_3. - exact clash_4. - exact clash_5. - exact clash_6. - exact clash_7. - exact clash_8.
Qed.
Lemma second_all n period s r r1 : (2 <= n)%nat -> 0 < period -> 0 < s -> 0 < r1 -> r1 < r -> second_ok n period s r r1.
Proof.
  intros Hn Hp Hs H1 Hr Hsm. unfold is_small in Hsm. destruct (Rlt_dec _ zlimit) as [Hl|]; [|discriminate]. unfold zlimit in Hl.
  assert (Hkap : 0 < 2 * PI / period * mu * s). { pose proof (omega_pos period Hp). pose proof mu_pos. apply Rmult_lt_0_compat; [apply Rmult_lt_0_compat|]; assumption. }
  assert (Hk2 := k_square period s Hp). assert (Hkp := k_pos period s Hp Hs).
  apply no_root_all; try assumption; [lra|].
  set (k := k_of period s) in *. set (kap := 2 * PI / period * mu * s) in *.
  rewrite (a_sq k kap (r1 * 1000) Hkap Hkp Hk2). unfold a_.
  assert (D := diag k kap Hkap Hkp Hk2). rewrite Cmod_mult, Cmod_R, Rabs_pos_eq in Hl by lra.
  assert (M : Cmod k * Cmod k = 2 * (fst k * fst k)) by (rewrite Cmod_sqr, D; ring).
  pose proof (Cmod_ge_0 k). set (m := Cmod k) in *. assert (Q : (m * (r * 1000)) * (m * (r * 1000)) < 9). { assert (0 <= m * (r * 1000)) by (apply Rmult_le_pos; lra). nra. }
  assert (W : (r1 * 1000) * (r1 * 1000) <= (r * 1000) * (r * 1000)) by nra.
  assert (m * m * ((r1 * 1000) * (r1 * 1000)) <= m * m * ((r * 1000) * (r * 1000))) by (apply Rmult_le_compat_l; [apply Rle_0_sqr | exact W]).
  set (u := r1 * 1000) in *. set (v := r * 1000) in *. replace ((fst k * u) ^ 2) with (fst k * fst k * (u * u)) by ring.
  replace (fst k * fst k) with (m * m / 2) by lra. lra.
Qed.
Lemma seconds_all n period L : (1 <= n)%nat -> 0 < period -> conducting L -> seconds_ok n period L.
Proof.
  intros Hn Hp Hc. destruct (le_lt_dec 2 n) as [G|G]; [|replace n with 1%nat by lia; apply seconds_ok_1; assumption].
  clear Hn. induction L as [|[s r] L IH]; [exact I|]. destruct L as [|[s1 r1] L]; [exact I|].
  assert (Hc' := Hc). destruct Hc' as (Hs & H1 & Hr & Hb). split; [apply second_all; assumption|].
  destruct L; [exact I|]. apply IH. exact Hb.
Qed.
