(** Proofs about M_Rotate: the response of a layered conductor. *)
From Coq Require Import Reals List Bool Arith Lia Lra Psatz.
From Coquelicot Require Import Coquelicot.
From Verif Require Import M_Prelude M_ND Spec_Field M_Rotate.
Import ListNotations.
Open Scope R_scope.

Lemma Cmod_re_le z : Rabs (fst z) <= Cmod z.
Proof. eapply Rle_trans; [apply Rmax_l | apply Rmax_Cmod]. Qed.

Lemma Csqrt_re z : 0 < fst z -> 0 < fst (Csqrt z).
Proof.
  intros H. unfold Csqrt. cbn [fst]. apply sqrt_lt_R0. pose proof (Cmod_re_le z). pose proof (Rle_abs (fst z)). lra.
Qed.

Lemma Csqrt_im z : 0 <= snd z -> 0 <= snd (Csqrt z).
Proof.
  intros H. unfold Csqrt. cbn [snd]. destruct (Rlt_dec (snd z) 0); [lra|]. rewrite Rmult_1_l. apply sqrt_pos.
Qed.

Lemma Cmod2 z : Cmod z * Cmod z = fst z * fst z + snd z * snd z.
Proof.
  unfold Cmod. rewrite sqrt_sqrt; [ring|]. pose proof (Rle_0_sqr (fst z)). pose proof (Rle_0_sqr (snd z)). unfold Rsqr in *. nra.
Qed.

Lemma Csqrt_sqr z : Cmult (Csqrt z) (Csqrt z) = z.
Proof.
  pose proof (Cmod_re_le z) as M. pose proof (Cmod2 z) as M2. pose proof (Rle_abs (fst z)) as A.
  assert (A' : - fst z <= Rabs (fst z)) by (rewrite <- Rabs_Ropp; apply Rle_abs).
  unfold Csqrt. set (a := sqrt ((Cmod z + fst z) / 2)). set (b := sqrt ((Cmod z - fst z) / 2)).
  assert (Ha : a * a = (Cmod z + fst z) / 2) by (apply sqrt_sqrt; lra).
  assert (Hb : b * b = (Cmod z - fst z) / 2) by (apply sqrt_sqrt; lra).
  assert (Hab : a * b = Rabs (snd z) / 2).
  { unfold a, b. rewrite <- sqrt_mult by lra.
    replace ((Cmod z + fst z) / 2 * ((Cmod z - fst z) / 2)) with ((snd z / 2) * (snd z / 2)) by nra.
    fold (Rsqr (snd z / 2)). rewrite sqrt_Rsqr_abs. unfold Rdiv. rewrite Rabs_mult, (Rabs_pos_eq (/ 2)) by lra. reflexivity. }
  destruct z as [x y]. unfold Cmult. cbn [fst snd] in *.
  destruct (Rlt_dec y 0).
  - rewrite Rabs_left in Hab by assumption. f_equal; nra.
  - rewrite Rabs_pos_eq in Hab by lra. f_equal; nra.
Qed.

Lemma Rcpow_mult x y z : 0 < x -> 0 < y -> Rcpow (x * y) z = Cmult (Rcpow x z) (Rcpow y z).
Proof.
  intros Hx Hy. unfold Rcpow, Cmult. cbn [fst snd]. rewrite ln_mult by assumption.
  rewrite !Rmult_plus_distr_l, exp_plus, cos_plus, sin_plus. f_equal; ring.
Qed.

(** b = beta + i gamma with 0 <= gamma < beta *)
Definition sector (b : C) : Prop := 0 < fst b /\ 0 <= snd b /\ snd b < fst b.

Lemma b_square om n s r : Cmult (b_of om n s r) (b_of om n s r) =
  Cplus (RtoC ((INR n + 1 / 2) ^ 2)) (Cmult om (RtoC (mu * (s * r ^ 2)))).
Proof.
  unfold b_of. rewrite Csqrt_sqr. unfold q_of. destruct om as [a c].
  unfold Cminus, Cplus, Cmult, Copp, RtoC. cbn [fst snd]. f_equal; ring.
Qed.

Lemma mu_pos : 0 < mu.
Proof. unfold mu. pose proof PI_RGT_0. apply Rmult_lt_0_compat; [lra|]. apply Rinv_0_lt_compat, pow_lt. lra. Qed.

Lemma b_sector w n s r : 0 <= w -> 0 <= s -> sector (b_of (0, w) n s r).
Proof.
  intros Hw Hs. pose proof (b_square (0, w) n s r) as E. pose proof mu_pos as Hm.
  set (b := b_of (0, w) n s r) in *. pose proof (pos_INR n) as Hn.
  assert (Z1 : fst (Cmult b b) = (INR n + 1 / 2) ^ 2) by (rewrite E; unfold Cplus, Cmult, RtoC; cbn [fst snd]; ring).
  assert (P : 0 < fst b).
  { apply Csqrt_re. unfold q_of, Cminus, Cplus, Cmult, Copp, RtoC. cbn [fst snd].
    match goal with |- 0 < ?e => replace e with ((INR n + 1 / 2) ^ 2) by ring end. nra. }
  assert (G : 0 <= snd b).
  { apply Csqrt_im. unfold q_of, Cminus, Cplus, Cmult, Copp, RtoC. cbn [fst snd].
    match goal with |- 0 <= ?e => replace e with (w * (mu * (s * (r * r)))) by ring end.
    apply Rmult_le_pos; [lra|]. apply Rmult_le_pos; [lra|]. apply Rmult_le_pos; [lra | apply Rle_0_sqr]. }
  split; [exact P|]. split; [exact G|].
  unfold Cmult in Z1. cbn [fst] in Z1. nra.
Qed.

(** b depends on sigma and r only through sigma * r^2 *)
Lemma b_same om n s r s' r' : s * r ^ 2 = s' * r' ^ 2 -> b_of om n s r = b_of om n s' r'.
Proof.
  intros E. unfold b_of. f_equal. unfold q_of. f_equal.
  assert (G : forall s r, Cmult (Copp (Cmult om (RtoC (mu * r)))) (RtoC (s * r)) = Copp (Cmult om (RtoC (mu * (s * r ^ 2))))).
  { intros. destruct om as [a c]. unfold Cmult, Copp, RtoC. cbn [fst snd]. f_equal; ring. }
  rewrite !G, E. reflexivity.
Qed.

(** ** Propagation through one layer *)

(** A e^(b s) + B e^(-b s) and its derivative: the product of the derivative
    with the conjugate, up to the factor b *)
Section layer.
Variables (be ga P Q c d : R).
Hypotheses (Hbe : 0 < be) (Hga : 0 <= ga) (Hbg : ga < be) (HP : 0 <= P) (HQ : 0 <= Q) (HPQ : c * c + d * d = P * Q).

Definition ff s := P * exp (2 * be * s) - Q * exp (- (2 * be * s)).
Definition gg s := c * sin (2 * ga * s) + d * cos (2 * ga * s).
Definition reW s := be * ff s - 2 * ga * gg s.
Definition imW s := ga * ff s + 2 * be * gg s.

Lemma amgm s : 2 * Rabs (c * cos (2 * ga * s) - d * sin (2 * ga * s)) <= P * exp (2 * be * s) + Q * exp (- (2 * be * s)).
Proof.
  set (u := 2 * ga * s). set (v := 2 * be * s). pose proof (exp_pos v) as E1. pose proof (exp_pos (- v)) as E2.
  assert (E : exp v * exp (- v) = 1) by (rewrite <- exp_plus; replace (v + - v) with 0 by ring; apply exp_0).
  apply Rsqr_incr_0_var.
  - unfold Rsqr. set (k := c * cos u - d * sin u).
    replace (2 * Rabs k * (2 * Rabs k)) with (4 * (Rabs k * Rabs k)) by ring.
    rewrite <- Rabs_mult, Rabs_pos_eq by apply Rle_0_sqr.
    pose proof (sin2_cos2 u) as T. unfold Rsqr in T.
    assert (k * k <= c * c + d * d).
    { unfold k. assert (0 <= (c * sin u + d * cos u) * (c * sin u + d * cos u)) by apply Rle_0_sqr.
      replace (c * c + d * d) with ((c * c + d * d) * (sin u * sin u + cos u * cos u)) by (rewrite T; ring). nra. }
    assert (0 <= (P * exp v - Q * exp (- v)) * (P * exp v - Q * exp (- v))) by apply Rle_0_sqr.
    assert (P * exp v * (Q * exp (- v)) = P * Q) by (transitivity (P * Q * (exp v * exp (- v))); [ring | rewrite E; ring]).
    nra.
  - apply Rplus_le_le_0_compat; apply Rmult_le_pos; lra.
Qed.

Lemma reW_incr s : 0 <= s -> reW 0 <= reW s.
Proof.
  intros Hs. destruct (Req_dec s 0) as [->|Hs0]; [lra|].
  set (df := fun x => 2 * be * be * (P * exp (2 * be * x) + Q * exp (- (2 * be * x)))
                      - 4 * ga * ga * (c * cos (2 * ga * x) - d * sin (2 * ga * x))).
  destruct (MVT_gen reW 0 s df) as (x & _ & E).
  - intros x _. unfold reW, ff, gg, df. auto_derive; [exact I|]. ring.
  - intros x _. assert (D : ex_derive reW x) by (unfold reW, ff, gg; auto_derive; exact I).
    apply continuity_pt_filterlim. exact (ex_derive_continuous reW x D).
  - assert (0 <= df x).
    { unfold df. pose proof (amgm x) as A. pose proof (Rle_abs (c * cos (2 * ga * x) - d * sin (2 * ga * x))) as B.
      set (K := P * exp (2 * be * x) + Q * exp (- (2 * be * x))) in *.
      set (k := c * cos (2 * ga * x) - d * sin (2 * ga * x)) in *.
      assert (0 <= K) by (pose proof (Rabs_pos k); lra).
      assert (ga * ga <= be * be) by nra. assert (2 * k <= K) by lra.
      assert (0 <= ga * ga) by nra. nra. }
    nra.
Qed.

Lemma imW_incr s : 0 <= s -> imW 0 <= imW s.
Proof.
  intros Hs. destruct (Req_dec s 0) as [->|Hs0]; [lra|].
  set (df := fun x => 2 * be * ga * (P * exp (2 * be * x) + Q * exp (- (2 * be * x)))
                      + 4 * be * ga * (c * cos (2 * ga * x) - d * sin (2 * ga * x))).
  destruct (MVT_gen imW 0 s df) as (x & _ & E).
  - intros x _. unfold imW, ff, gg, df. auto_derive; [exact I|]. ring.
  - intros x _. assert (D : ex_derive imW x) by (unfold imW, ff, gg; auto_derive; exact I).
    apply continuity_pt_filterlim. exact (ex_derive_continuous imW x D).
  - assert (0 <= df x).
    { unfold df. pose proof (amgm x) as A.
      pose proof (Rle_abs (- (c * cos (2 * ga * x) - d * sin (2 * ga * x)))) as B. rewrite Rabs_Ropp in B.
      set (K := P * exp (2 * be * x) + Q * exp (- (2 * be * x))) in *.
      set (k := c * cos (2 * ga * x) - d * sin (2 * ga * x)) in *.
      assert (0 <= be * ga) by nra. assert (0 <= K + 2 * k) by lra. nra. }
    nra.
Qed.
End layer.

(** The admissible values of -(qY + 1/2) *)
Definition quadrant (p : C) : Prop := 0 < fst p /\ 0 <= snd p.

Definition tau_of (z : C) : C := Cdiv (Cminus (RtoC 1) z) (Cplus (RtoC 1) z).
Definition step_p (b tau p : C) : C := Cdiv (Cmult b (Cminus p (Cmult b tau))) (Cminus b (Cmult tau p)).

Lemma Rcpow_mod x z : Cmod (Rcpow x z) = exp (fst z * ln x).
Proof.
  unfold Rcpow, Cmod. cbn [fst snd]. set (m := exp _). set (u := snd z * ln x).
  pose proof (sin2_cos2 u) as T. unfold Rsqr in T.
  replace ((m * cos u) ^ 2 + (m * sin u) ^ 2) with (m * m * (sin u * sin u + cos u * cos u)) by ring.
  rewrite T, Rmult_1_r. apply sqrt_square. unfold m. left. apply exp_pos.
Qed.

Lemma C_neq0_mod z : 0 < Cmod z -> z <> RtoC 0.
Proof. intros H E. rewrite E, Cmod_0 in H. lra. Qed.

Lemma zeta_ne x b : 1 < x -> 0 < fst b -> Rcpow x (Cmult (RtoC 2) b) <> RtoC 0 /\
  Cplus (RtoC 1) (Rcpow x (Cmult (RtoC 2) b)) <> RtoC 0.
Proof.
  intros Hx Hb. set (z := Rcpow x _).
  assert (M : 1 < Cmod z).
  { unfold z. rewrite Rcpow_mod. unfold Cmult, RtoC. cbn [fst snd]. rewrite <- exp_0. apply exp_increasing.
    assert (0 < ln x) by (rewrite <- ln_1; apply ln_increasing; lra).
    replace (2 * fst b - 0 * snd b) with (2 * fst b) by ring. apply Rmult_lt_0_compat; lra. }
  split.
  - apply C_neq0_mod. lra.
  - intros E. assert (E' : z = RtoC (-1)).
    { transitivity (Cminus (Cplus (RtoC 1) z) (RtoC 1)); [ring|]. rewrite E. unfold Cminus, Cplus, Copp, RtoC. cbn [fst snd]. f_equal; ring. }
    rewrite E', Cmod_R, Rabs_left in M by lra. lra.
Qed.

Lemma layer_step x b p : 1 < x -> sector b -> quadrant p ->
  let tau := tau_of (Rcpow x (Cmult (RtoC 2) b)) in
  Cminus b (Cmult tau p) <> RtoC 0 /\ quadrant (step_p b tau p).
Proof.
  intros Hx (Hb1 & Hb2 & Hb3) (Hp1 & Hp2). cbv zeta.
  destruct (zeta_ne x b Hx Hb1) as [Z0 Z1]. set (z := Rcpow x (Cmult (RtoC 2) b)) in *.
  assert (Bn : b <> RtoC 0) by (intros E; rewrite E in Hb1; cbn in Hb1; lra).
  set (A := Cdiv (Cplus (RtoC 1) (Cdiv p b)) (RtoC 2)). set (B := Cdiv (Cminus (RtoC 1) (Cdiv p b)) (RtoC 2)).
  assert (T2 : RtoC 2 <> RtoC 0) by (intros E; injection E; lra).
  assert (TT : RtoC 2 = Cplus (RtoC 1) (RtoC 1)) by (unfold RtoC, Cplus; cbn [fst snd]; f_equal; ring).
  set (U := Cplus (Cmult A z) B). set (V := Cminus (Cmult A z) B).
  assert (EU : Cminus b (Cmult (tau_of z) p) = Cdiv (Cmult (Cmult (RtoC 2) b) U) (Cplus (RtoC 1) z)).
  { unfold tau_of, U, A, B. field. repeat split; assumption. }
  assert (EV : Cminus p (Cmult b (tau_of z)) = Cdiv (Cmult (Cmult (RtoC 2) b) V) (Cplus (RtoC 1) z)).
  { unfold tau_of, V, A, B. field. repeat split; assumption. }
  assert (SA : Cplus A B = RtoC 1) by (unfold A, B; rewrite TT; field; repeat split; first [assumption | intros EE; apply (f_equal fst) in EE; cbn in EE; lra]).
  assert (DA : Cmult b (Cminus A B) = p) by (unfold A, B; rewrite TT; field; repeat split; first [assumption | intros EE; apply (f_equal fst) in EE; cbn in EE; lra]).
  set (L := ln x). assert (HL : 0 < L) by (unfold L; rewrite <- ln_1; apply ln_increasing; lra).
  set (P := fst A * fst A + snd A * snd A). set (Q := fst B * fst B + snd B * snd B).
  set (c := fst A * fst B + snd A * snd B). set (d := snd A * fst B - fst A * snd B).
  assert (HP : 0 <= P) by (unfold P; pose proof (Rle_0_sqr (fst A)); pose proof (Rle_0_sqr (snd A)); unfold Rsqr in *; lra).
  assert (HQ : 0 <= Q) by (unfold Q; pose proof (Rle_0_sqr (fst B)); pose proof (Rle_0_sqr (snd B)); unfold Rsqr in *; lra).
  assert (HPQ : c * c + d * d = P * Q) by (unfold c, d, P, Q; ring).
  assert (IR : reW (fst b) (snd b) P Q c d 0 <= reW (fst b) (snd b) P Q c d L) by (apply reW_incr; auto; lra).
  assert (II : imW (fst b) (snd b) P Q c d 0 <= imW (fst b) (snd b) P Q c d L) by (apply imW_incr; auto; lra).
  assert (S1 : fst A + fst B = 1) by exact (f_equal fst SA).
  assert (S2 : snd A + snd B = 0) by exact (f_equal snd SA).
  assert (R0 : reW (fst b) (snd b) P Q c d 0 = fst p).
  { unfold reW, ff, gg. rewrite !Rmult_0_r, Ropp_0, exp_0, sin_0, cos_0.
    transitivity (fst (Cmult b (Cminus A B))); [|rewrite DA; reflexivity].
    unfold Cmult, Cminus, Cplus, Copp. cbn [fst snd]. unfold P, Q, d.
    replace (fst B) with (1 - fst A) by lra. replace (snd B) with (- snd A) by lra. ring. }
  assert (I0 : imW (fst b) (snd b) P Q c d 0 = snd p).
  { unfold imW, ff, gg. rewrite !Rmult_0_r, Ropp_0, exp_0, sin_0, cos_0.
    transitivity (snd (Cmult b (Cminus A B))); [|rewrite DA; reflexivity].
    unfold Cmult, Cminus, Cplus, Copp. cbn [fst snd]. unfold P, Q, d.
    replace (fst B) with (1 - fst A) by lra. replace (snd B) with (- snd A) by lra. ring. }
  rewrite R0 in IR. rewrite I0 in II.
  set (e := exp (2 * fst b * L)). set (th := 2 * snd b * L).
  assert (Ez : z = (e * cos th, e * sin th)).
  { unfold z, Rcpow, Cmult, RtoC. cbn [fst snd]. fold L.
    replace ((2 * fst b - 0 * snd b) * L) with (2 * fst b * L) by ring.
    replace ((2 * snd b + 0 * fst b) * L) with (2 * snd b * L) by ring. reflexivity. }
  assert (He : 0 < e) by apply exp_pos.
  set (e' := exp (- (2 * fst b * L))).
  assert (Hee : e * e' = 1) by (unfold e, e'; rewrite <- exp_plus; replace (2 * fst b * L + - (2 * fst b * L)) with 0 by ring; apply exp_0).
  pose proof (sin2_cos2 th) as T. unfold Rsqr in T.
  set (W := Cmult (Cmult b V) (Cconj U)).
  assert (WR : fst W = e * reW (fst b) (snd b) P Q c d L).
  { unfold reW, ff, gg. fold e e' th.
    transitivity (fst b * (P * (e * e) * (sin th * sin th + cos th * cos th) - Q * 1) - 2 * snd b * (e * (c * sin th + d * cos th))).
    - unfold W, V, U. rewrite Ez. unfold Cmult, Cminus, Cplus, Copp, Cconj. cbn [fst snd]. unfold P, Q, c, d. ring.
    - rewrite T. transitivity (fst b * (P * (e * e) - Q * (e * e')) - 2 * snd b * (e * (c * sin th + d * cos th))); [rewrite Hee; ring | ring]. }
  assert (WI : snd W = e * imW (fst b) (snd b) P Q c d L).
  { unfold imW, ff, gg. fold e e' th.
    transitivity (snd b * (P * (e * e) * (sin th * sin th + cos th * cos th) - Q * 1) + 2 * fst b * (e * (c * sin th + d * cos th))).
    - unfold W, V, U. rewrite Ez. unfold Cmult, Cminus, Cplus, Copp, Cconj. cbn [fst snd]. unfold P, Q, c, d. ring.
    - rewrite T. transitivity (snd b * (P * (e * e) - Q * (e * e')) + 2 * fst b * (e * (c * sin th + d * cos th))); [rewrite Hee; ring | ring]. }
  assert (Hre : 0 < fst W) by (rewrite WR; apply Rmult_lt_0_compat; lra).
  assert (Him : 0 <= snd W) by (rewrite WI; apply Rmult_le_pos; lra).
  assert (Un : U <> RtoC 0).
  { intros E. unfold W in Hre. rewrite E in Hre. unfold Cconj, Cmult, RtoC in Hre. cbn [fst snd] in Hre. lra. }
  split.
  - rewrite EU. intros E. 
    assert (E2 : Cmult (Cmult (RtoC 2) b) U = RtoC 0).
    { transitivity (Cmult (Cdiv (Cmult (Cmult (RtoC 2) b) U) (Cplus (RtoC 1) z)) (Cplus (RtoC 1) z)); [field; assumption|]. rewrite E. ring. }
    revert E2. repeat apply Cmult_neq_0; assumption.
  - assert (Es : step_p b (tau_of z) p = Cdiv (Cmult b V) U).
    { unfold step_p. rewrite EU, EV. field. repeat split; assumption. }
    set (N2 := fst U * fst U + snd U * snd U).
    assert (HN : 0 < N2).
    { unfold N2. rewrite <- Cmod2. pose proof (Cmod_gt_0 U) as G. apply G in Un. apply Rmult_lt_0_compat; assumption. }
    assert (Eq : step_p b (tau_of z) p = (fst W / N2, snd W / N2)).
    { rewrite Es. unfold W, Cdiv, Cinv, Cmult, Cconj, N2. cbn [fst snd].
      unfold N2 in HN. clearbody U V. f_equal; field; lra. }
    rewrite Eq. split; cbn [fst snd].
    + apply Rdiv_lt_0_compat; assumption.
    + apply Rmult_le_pos; [exact Him|]. left. apply Rinv_0_lt_compat. exact HN.
Qed.

(** ** Whole models *)

(** Radii positive and decreasing downwards, conductivities not negative *)
Fixpoint earthlike (layers : list (R * R)) : Prop :=
  match layers with
  | [] => False
  | [(s, r)] => 0 <= s /\ 0 < r
  | (s, r) :: ((_, r1) :: _) as below => 0 <= s /\ r1 < r /\ earthlike below
  end.

Definition top (layers : list (R * R)) : R := snd (nth 0 layers (0, 0)).

Lemma earthlike_top layers : earthlike layers -> 0 < top layers.
Proof.
  induction layers as [|[s r] l IH]; [contradiction|]. destruct l as [|[s1 r1] l]; cbn.
  - tauto.
  - intros (_ & H & E). specialize (IH E). cbn in IH. lra.
Qed.

Definition p_of (om : C) (n : nat) (layers : list (R * R)) : C :=
  Cminus (Copp (Cmult (q_of om (top layers)) (admittance om n layers))) (RtoC (1 / 2)).

Lemma q_ne w r : 0 < w -> 0 < r -> q_of (0, w) r <> RtoC 0.
Proof.
  intros Hw Hr E. pose proof mu_pos. apply (f_equal snd) in E.
  unfold q_of, Copp, Cmult, RtoC in E. cbn [fst snd] in E.
  assert (0 < w * (mu * r)) by (apply Rmult_lt_0_compat; [assumption | apply Rmult_lt_0_compat; assumption]). lra.
Qed.

Lemma p_core om n s r : q_of om r <> RtoC 0 -> p_of om n [(s, r)] = b_of om n s r.
Proof.
  intros H. unfold p_of, top. cbn [nth snd admittance]. set (b := b_of om n s r). clearbody b. set (q := q_of om r) in *. clearbody q.
  transitivity (Cminus (Cplus b (RtoC (1 / 2))) (RtoC (1 / 2))); [field; assumption | ring].
Qed.

Lemma p_layer om n s r s1 r1 l : q_of om r <> RtoC 0 ->
  let b := b_of om n s r in let tau := tau_of (Rcpow (r / r1) (Cmult (RtoC 2) b)) in
  Cminus b (Cmult tau (p_of om n ((s1, r1) :: l))) <> RtoC 0 ->
  p_of om n ((s, r) :: (s1, r1) :: l) = step_p b tau (p_of om n ((s1, r1) :: l)).
Proof.
  intros Hq b tau. unfold p_of, top. cbn [nth snd].
  change (admittance om n ((s, r) :: (s1, r1) :: l)) with
   (let qY := Cmult (q_of om r1) (admittance om n ((s1, r1) :: l)) in
      Cdiv (Cmult (Cdiv (RtoC 1) (q_of om r))
             (Cplus (Cmult qY (Cminus b (Cmult (RtoC (1 / 2)) tau))) (Cmult (Cmult (Cplus b (RtoC (1 / 2))) (Cminus b (RtoC (1 / 2)))) tau)))
           (Cplus b (Cmult tau (Cplus (RtoC (1 / 2)) qY)))). cbv zeta.
  unfold step_p.
  set (W := Cmult (q_of om r1) (admittance om n ((s1, r1) :: l))). clearbody W tau b. set (q := q_of om r) in *. clearbody q.
  set (h := RtoC (1 / 2)). intros D.
  replace (Cminus b (Cmult tau (Cminus (Copp W) h))) with (Cplus b (Cmult tau (Cplus h W))) in * by ring.
  field. split; assumption.
Qed.

Lemma p_quadrant w n layers : 0 < w -> earthlike layers -> quadrant (p_of (0, w) n layers).
Proof.
  intros Hw. induction layers as [|[s r] l IH]; [contradiction|]. destruct l as [|[s1 r1] l].
  - cbn. intros [Hs Hr]. rewrite p_core by (apply q_ne; assumption).
    destruct (b_sector w n s r (Rlt_le _ _ Hw) Hs) as (B1 & B2 & _). split; assumption.
  - intros (Hs & Hr & E). specialize (IH E). pose proof (earthlike_top _ E) as H1. cbn in H1.
    assert (Hx : 1 < r / r1) by (apply (Rmult_lt_reg_r r1); [assumption|]; unfold Rdiv; rewrite Rmult_assoc, Rinv_l by lra; lra).
    destruct (layer_step (r / r1) (b_of (0, w) n s r) _ Hx (b_sector w n s r (Rlt_le _ _ Hw) Hs) IH) as [D Q].
    rewrite p_layer; [exact Q | apply q_ne; lra | exact D].
Qed.

(** C and Q in terms of p *)
Lemma C_of_p w n layers : 0 < w -> earthlike layers ->
  Cplus (p_of (0, w) n layers) (RtoC (1 / 2)) <> RtoC 0 /\
  C_response (0, w) n layers = Cdiv (RtoC (top layers / 1000)) (Cplus (p_of (0, w) n layers) (RtoC (1 / 2))).
Proof.
  intros Hw E. pose proof (p_quadrant w n layers Hw E) as [Q1 _]. pose proof (earthlike_top _ E) as Ht.
  assert (D : Cplus (p_of (0, w) n layers) (RtoC (1 / 2)) <> RtoC 0).
  { intros X. apply (f_equal fst) in X. unfold Cplus, RtoC in X. cbn [fst] in X. lra. }
  split; [exact D|].
  unfold C_response. unfold p_of in *. set (Y := admittance _ _ _) in *. clearbody Y. set (r := top layers) in *. clearbody r.
  assert (Ex : Cplus (Cminus (Copp (Cmult (q_of (0, w) r) Y)) (RtoC (1 / 2))) (RtoC (1 / 2)) = Cmult (Cmult (Cmult (0, w) (RtoC mu)) Y) (RtoC r)).
  { unfold q_of. rewrite RtoC_mult. ring. }
  rewrite Ex in *. set (o := Cmult (Cmult (0, w) (RtoC mu)) Y) in *. clearbody o.
  unfold Rdiv at 1. rewrite RtoC_mult, RtoC_inv by lra.
  assert (Rn : RtoC r <> RtoC 0) by (intros X; injection X; lra).
  assert (On : o <> RtoC 0) by (intros X; apply D; rewrite X; ring).
  field. repeat split; try assumption. intros X. injection X. lra.
Qed.

Lemma Q_of_p w n layers : 0 < w -> earthlike layers -> (1 <= n)%nat ->
  let p := p_of (0, w) n layers in let N := RtoC (INR n + 1 / 2) in
  Cplus p N <> RtoC 0 /\
  Q_of_C n (top layers) (C_response (0, w) n layers) =
  Cmult (RtoC (INR n / (INR n + 1))) (Cdiv (Cminus p N) (Cplus p N)).
Proof.
  intros Hw E Hn p N. pose proof (p_quadrant w n layers Hw E) as [Q1 _]. fold p in Q1. pose proof (earthlike_top _ E) as Ht.
  assert (In : 0 < INR n) by (apply lt_0_INR; lia).
  assert (D : Cplus p N <> RtoC 0).
  { intros X. apply (f_equal fst) in X. unfold N, Cplus, RtoC in X. cbn [fst] in X. lra. }
  split; [exact D|].
  destruct (C_of_p w n layers Hw E) as [Dh ->]. fold p in Dh. fold p. clearbody p.
  unfold Q_of_C. rewrite plus_INR. cbn [INR].
  assert (Rn : RtoC (top layers / 1000) <> RtoC 0) by (intros X; injection X; lra).
  set (a := RtoC (top layers / 1000)) in *. clearbody a.
  set (k := RtoC (INR n / (INR n + 1))). clearbody k.
  assert (EN : N = Cplus (RtoC (INR n)) (RtoC (1 / 2))) by (unfold N; rewrite RtoC_plus; reflexivity).
  assert (E1 : RtoC (INR n + 1) = Cplus (RtoC (INR n)) (Cplus (RtoC (1 / 2)) (RtoC (1 / 2)))).
  { rewrite <- !RtoC_plus. f_equal. lra. }
  rewrite E1. rewrite EN in *. set (m := RtoC (INR n)) in *. clearbody m. set (h := RtoC (1 / 2)) in *. clearbody h.
  clear N EN E1.
  field. repeat split; try assumption.
Qed.
