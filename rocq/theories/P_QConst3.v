(** Modified spherical Bessel functions in closed form: independence and
    absence of zeros *)
From Coq Require Import Reals List Lia Lra Psatz.
From Coquelicot Require Import Coquelicot.
From Verif Require Import M_Rotate M_QConst Spec_Induction P_Response P_Induction P_QConst1 P_QConst2.
Import ListNotations.
Open Scope R_scope.

(** Continuity *)
Lemma Cmod_sum z : Cmod z <= Rabs (fst z) + Rabs (snd z).
Proof.
  destruct z as [a b]. cbn [fst snd].
  replace ((a, b) : C) with (Cplus (a, 0) (0, b)) by (unfold Cplus; cbn [fst snd]; f_equal; ring).
  eapply Rle_trans; [apply Cmod_triangle|]. unfold Cmod. cbn [fst snd].
  replace (a ^ 2 + 0 ^ 2) with (Rsqr a) by (unfold Rsqr; ring). replace (0 ^ 2 + b ^ 2) with (Rsqr b) by (unfold Rsqr; ring).
  rewrite !sqrt_Rsqr_abs. lra.
Qed.
Lemma Cmod_im_le z : Rabs (snd z) <= Cmod z.
Proof. eapply Rle_trans; [apply Rmax_r | apply Rmax_Cmod]. Qed.

Lemma Rder_close (f : R -> R) x l e : is_derive f x l -> 0 < e -> exists d, 0 < d /\ forall y, Rabs (y - x) < d -> Rabs (f y - f x) < e.
Proof.
  intros D He. apply is_derive_ex in D. apply ex_derive_continuous in D. apply continuity_pt_filterlim in D.
  destruct (D e He) as (d & Hd & H). exists d. split; [exact Hd|]. intros y Hy.
  destruct (Req_dec y x) as [->|N]. { replace (f x - f x) with 0 by ring. rewrite Rabs_R0. exact He. }
  apply H. split; [|exact Hy]. split; [exact I|]. auto.
Qed.
Lemma Cder_close f x l e : Cder f x l -> 0 < e -> exists d, 0 < d /\ forall y, Rabs (y - x) < d -> Cmod (Cminus (f y) (f x)) < e.
Proof.
  intros [D1 D2] He. destruct (Rder_close _ _ _ (e / 2) D1) as (d1 & P1 & H1); [lra|].
  destruct (Rder_close _ _ _ (e / 2) D2) as (d2 & P2 & H2); [lra|].
  exists (Rmin d1 d2). split; [apply Rmin_case; assumption|]. intros y Hy.
  eapply Rle_lt_trans; [apply Cmod_sum|].
  assert (Rabs (y - x) < d1) by (eapply Rlt_le_trans; [exact Hy | apply Rmin_l]).
  assert (Rabs (y - x) < d2) by (eapply Rlt_le_trans; [exact Hy | apply Rmin_r]).
  specialize (H1 y H). specialize (H2 y H0). unfold Cminus, Cplus, Copp. cbn [fst snd]. unfold Rminus in *. lra.
Qed.

Definition smooth (f : R -> C) (x : R) : Prop := exists l, Cder f x l.
Lemma smooth_const c x : smooth (fun _ => c) x.
Proof. eexists. apply Cder_const. Qed.
Lemma smooth_id x : smooth (fun r => RtoC r) x.
Proof. eexists. apply Cder_id. Qed.
Lemma smooth_mult f g x : smooth f x -> smooth g x -> smooth (fun r => Cmult (f r) (g r)) x.
Proof. intros [l A] [m B]. eexists. apply Cder_mult; eassumption. Qed.
Lemma smooth_plus f g x : smooth f x -> smooth g x -> smooth (fun r => Cplus (f r) (g r)) x.
Proof. intros [l A] [m B]. eexists. apply Cder_plus; eassumption. Qed.
Lemma smooth_minus f g x : smooth f x -> smooth g x -> smooth (fun r => Cminus (f r) (g r)) x.
Proof. intros [l A] [m B]. eexists. apply Cder_minus; eassumption. Qed.
Lemma smooth_cpow f x m : smooth f x -> smooth (fun r => cpow (f r) m) x.
Proof. intros H. induction m; cbn [cpow]; [apply smooth_const|]. apply smooth_mult; assumption. Qed.
Lemma smooth_csum (f : nat -> R -> C) x m : (forall j, smooth (f j) x) -> smooth (fun r => csum (fun j => f j r) m) x.
Proof. intros H. induction m; cbn [csum]; [apply smooth_const|]. apply smooth_plus; [exact IHm | apply H]. Qed.
Lemma smooth_exp a x : smooth (fun r => cexp (Cmult a (RtoC r))) x.
Proof. eexists. apply Cder_cexp. Qed.
Lemma smooth_close f x e : smooth f x -> 0 < e -> exists d, 0 < d /\ forall y, Rabs (y - x) < d -> Cmod (Cminus (f y) (f x)) < e.
Proof. intros [l H]. eapply Cder_close; eassumption. Qed.

Lemma Cmod_0_eq z : Cmod z = 0 -> z = RtoC 0.
Proof. apply Cmod_eq_0. Qed.

Section bessel.
Variables (n : nat) (k : C).
Hypothesis Hk : 0 < fst k.
Lemma k_ne : k <> RtoC 0.
Proof. intros E. rewrite E in Hk. cbn in Hk. lra. Qed.

Definition sg : R := (-1) ^ n.
Definition Fp := F n 1 k.  Definition dFp := dF n 1 k.  Definition ddFp := ddF n 1 k.
Definition Fm := F n (-1) k.  Definition dFm := dF n (-1) k.  Definition ddFm := ddF n (-1) k.

Definition yt (t : R) : C := Cmult (Cinv k) (RtoC t).
Definition T (f : nat -> R) (t : R) : C := csum (fun j => Cmult (RtoC (f j)) (cpow (yt t) j)) (S n).
Lemma T_smooth f t : smooth (T f) t.
Proof.
  apply (smooth_csum (fun j t => Cmult (RtoC (f j)) (cpow (yt t) j))). intros j. apply smooth_mult; [apply smooth_const|].
  apply smooth_cpow. apply smooth_mult; [apply smooth_const | apply smooth_id].
Qed.
Lemma T_0 f : T f 0 = RtoC (f O).
Proof.
  unfold T. rewrite csum_split. cbn [cpow].
  rewrite (csum_ext _ (fun _ => Cmult (RtoC 0) (RtoC 0))).
  - rewrite csum_scal. ring.
  - intros j _. cbn [cpow]. unfold yt. ring.
Qed.

Lemma Zk_yt x : Zk k x = yt (/ x).
Proof. reflexivity. Qed.
Lemma S0_T tau x : S0 n tau k x = Cmult (Zk k x) (T (af n tau) (/ x)).
Proof. unfold S0, T. rewrite <- csum_scal. apply csum_ext. intros. rewrite Zk_yt. cbn [cpow]. ring. Qed.
Lemma S1_T tau x : S1 n tau k x = Cmult (Cmult (Zk k x) (Zk k x)) (T (fun j => INR (S j) * af n tau j) (/ x)).
Proof. unfold S1, T. rewrite <- csum_scal. apply csum_ext. intros. rewrite Zk_yt. cbn [cpow]. ring. Qed.

(** Wronskian as a polynomial in 1/x *)
Definition G (t : R) : C :=
  let A0 := T (af n (-1)) t in let B0 := T (af n 1) t in
  let A1 := T (fun j => INR (S j) * af n (-1) j) t in let B1 := T (fun j => INR (S j) * af n 1 j) t in
  Cplus (Cmult (RtoC (-2)) (Cmult A0 B0)) (Cmult (yt t) (Cminus (Cmult A1 B0) (Cmult A0 B1))).
Lemma G_smooth t : smooth G t.
Proof.
  unfold G. cbv zeta. apply smooth_plus.
  - apply smooth_mult; [apply smooth_const|]. apply smooth_mult; apply T_smooth.
  - apply smooth_mult; [apply smooth_mult; [apply smooth_const | apply smooth_id]|]. apply smooth_minus; apply smooth_mult; apply T_smooth.
Qed.
Lemma G_0 : G 0 = RtoC (-2).
Proof.
  unfold G. cbv zeta. rewrite !T_0. unfold af, yt. cbn [cf pow]. rewrite !Rmult_1_l. ring.
Qed.
Lemma Exps x : Cmult (Ek (-1) k x) (Ek 1 k x) = RtoC 1.
Proof.
  unfold Ek. rewrite <- cexp_plus. rewrite <- cexp_0. f_equal.
  rewrite !RC_opp, RC_m1. ring.
Qed.
Lemma wron_G x : 0 < x -> Cmult k (wron Fm dFm Fp dFp x) = G (/ x).
Proof.
  intros Hx. unfold wron, Fm, dFm, Fp, dFp, F, dF, G. cbv zeta. rewrite !S0_T, !S1_T.
  rewrite <- Zk_yt. set (A0 := T (af n (-1)) (/ x)). set (B0 := T (af n 1) (/ x)).
  set (A1 := T (fun j => INR (S j) * af n (-1) j) (/ x)). set (B1 := T (fun j => INR (S j) * af n 1 j) (/ x)).
  pose proof (Exps x) as EE. set (e1 := Ek (-1) k x) in *. set (e2 := Ek 1 k x) in *.
  assert (KX : Cmult (Cmult k (RtoC x)) (Zk k x) = RtoC 1).
  { unfold Zk. rewrite RC_inv by lra. field. split; [apply RtoC_neq; lra | apply k_ne]. }
  set (Y := Zk k x) in *. replace (RtoC (x ^ 2)) with (Cmult (RtoC x) (RtoC x)) by (rewrite <- RC_mult; f_equal; ring).
  transitivity (Cmult (Cmult (Cmult (Cmult (Cmult k (RtoC x)) Y) (Cmult (Cmult k (RtoC x)) Y)) (Cmult e1 e2))
    (Cplus (Cmult (RtoC (-2)) (Cmult A0 B0)) (Cmult Y (Cminus (Cmult A1 B0) (Cmult A0 B1))))).
  - rewrite RC_m1, RC_m2, two_c. ring.
  - rewrite KX, EE. ring.
Qed.

Variables (w mu0 s : R).
Hypothesis Hk2 : Cmult k k = (0, w * mu0 * s).
Lemma Fp_solves x : 0 < x -> solves w mu0 n s Fp dFp ddFp x.
Proof. intros Hx. apply F_solves; [ring | apply k_ne | exact Hx | exact Hk2]. Qed.
Lemma Fm_solves x : 0 < x -> solves w mu0 n s Fm dFm ddFm x.
Proof. intros Hx. apply F_solves; [ring | apply k_ne | exact Hx | exact Hk2]. Qed.

Lemma wron_same a b : 0 < a -> 0 < b -> wron Fm dFm Fp dFp a = wron Fm dFm Fp dFp b.
Proof.
  intros Ha Hb. destruct (Rle_dec a b) as [H|H].
  - symmetry. apply (wron_const w mu0 n s _ _ ddFm _ _ ddFp); [exact H | intros; apply Fm_solves; lra | intros; apply Fp_solves; lra].
  - apply (wron_const w mu0 n s _ _ ddFm _ _ ddFp); [lra | intros; apply Fm_solves; lra | intros; apply Fp_solves; lra].
Qed.
Lemma wron_ne x : 0 < x -> wron Fm dFm Fp dFp x <> RtoC 0.
Proof.
  intros Hx E. destruct (smooth_close G 0 1 (G_smooth 0)) as (d & Hd & H); [lra|].
  specialize (H (d / 2)). rewrite Rabs_pos_eq in H by lra. specialize (H ltac:(lra)).
  assert (E2 : G (d / 2) = RtoC 0).
  { rewrite <- (Rinv_involutive (d / 2)) by lra. assert (0 < / (d / 2)) by (apply Rinv_0_lt_compat; lra).
    rewrite <- wron_G by assumption. rewrite (wron_same _ x) by assumption. rewrite E. ring. }
  rewrite E2, G_0 in H. replace (Cminus (RtoC 0) (RtoC (-2))) with (RtoC 2) in H by (rewrite RC_m2; ring).
  rewrite Cmod_R, Rabs_pos_eq in H by lra. lra.
Qed.

(** The decaying solution *)
Lemma Ep_mod x : 0 < x -> Cmod (Ek 1 k x) <= 1.
Proof.
  intros Hx. unfold Ek. rewrite cexp_mod. apply Rle_trans with (exp 0); [|rewrite exp_0; lra]. apply exp_mono. unfold Cmult, RtoC. cbn [fst snd].
  assert (0 < fst k * x) by (apply Rmult_lt_0_compat; assumption). lra.
Qed.
Lemma Fp_decay e : 0 < e -> exists X, forall x, X < x -> 0 < x -> Cmod (Fp x) < e.
Proof.
  intros He. destruct (smooth_close (fun t => Cmult (yt t) (T (af n 1) t)) 0 e) as (d & Hd & H); [|exact He|].
  { apply smooth_mult; [apply smooth_mult; [apply smooth_const | apply smooth_id] | apply T_smooth]. }
  exists (/ d). intros x Hx H0. specialize (H (/ x)).
  assert (Rabs (/ x - 0) < d).
  { rewrite Rminus_0_r, Rabs_pos_eq by (left; apply Rinv_0_lt_compat; exact H0).
    rewrite <- (Rinv_involutive d) by lra. apply Rinv_lt_contravar; [|exact Hx].
    apply Rmult_lt_0_compat; [apply Rinv_0_lt_compat|]; assumption. }
  specialize (H H1). cbv beta in H. unfold Fp, F. rewrite S0_T, Zk_yt, Cmod_mult.
  replace (Cminus (Cmult (yt (/ x)) (T (af n 1) (/ x))) (Cmult (yt 0) (T (af n 1) 0))) with (Cmult (yt (/ x)) (T (af n 1) (/ x))) in H
    by (unfold yt; ring).
  pose proof (Ep_mod x H0). set (z := Cmod (Cmult _ _)) in *. assert (0 <= z) by apply Cmod_ge_0. pose proof (Cmod_ge_0 (Ek 1 k x)). nra.
Qed.

Lemma dot_mod z : dotC z z = Cmod z * Cmod z.
Proof. rewrite Cmod2. reflexivity. Qed.

Lemma not_both u du v dv x : wron u du v dv x <> RtoC 0 -> v x <> RtoC 0 \/ dv x <> RtoC 0.
Proof.
  intros H. destruct (Ceq_dec (v x) (RtoC 0)) as [E|N]; [|left; exact N]. right. intros E2. apply H. unfold wron. rewrite E, E2. ring.
Qed.

Lemma Fp_ne x : 0 < x -> Fp x <> RtoC 0.
Proof.
  intros Hx E. assert (NB := not_both _ _ _ _ x (wron_ne x Hx)).
  assert (Hs : forall b, x < b -> Fp b <> RtoC 0 /\ 0 <= dotC (dFp b) (Fp b)).
  { intros b Hb. apply (no_zero w mu0 n s Fp dFp ddFp x b Hx Hb); [intros; apply Fp_solves; lra | rewrite E, dot_zero_r; lra | exact NB]. }
  destruct (Hs (x + 1) ltac:(lra)) as [N1 E1].
  assert (0 < Cmod (Fp (x + 1))) as M by (apply Cmod_gt_0; exact N1).
  destruct (Fp_decay (Cmod (Fp (x + 1))) M) as (X & HX).
  set (y := Rmax (X + 1) (x + 2)). assert (X + 1 <= y) by apply Rmax_l. assert (x + 2 <= y) by apply Rmax_r.
  specialize (HX y ltac:(lra) ltac:(lra)).
  assert (size Fp (x + 1) <= size Fp y).
  { apply (size_mono w mu0 n s Fp dFp ddFp); [lra | lra | intros; apply Fp_solves; lra |].
    unfold energy. apply Rmult_le_pos; [apply pow2_ge_0 | exact E1]. }
  unfold size in H1. rewrite !dot_mod in H1. pose proof (Cmod_ge_0 (Fp y)). nra.
Qed.

(** The regular solution *)
Definition half : C := RtoC (/ 2).
Definition Pk (x : R) : C := Cplus (Cmult half (Fm x)) (Cmult (RtoC (- sg / 2)) (Fp x)).
Definition dPk (x : R) : C := Cplus (Cmult half (dFm x)) (Cmult (RtoC (- sg / 2)) (dFp x)).
Definition ddPk (x : R) : C := Cplus (Cmult half (ddFm x)) (Cmult (RtoC (- sg / 2)) (ddFp x)).
Lemma Pk_solves x : 0 < x -> solves w mu0 n s Pk dPk ddPk x.
Proof. intros Hx. apply (solves_comb w mu0 n s Fm dFm ddFm Fp dFp ddFp); [apply Fm_solves | apply Fp_solves]; exact Hx. Qed.
Lemma wron_P x : wron Pk dPk Fp dFp x = Cmult half (wron Fm dFm Fp dFp x).
Proof. unfold wron, Pk, dPk. ring. Qed.
Lemma wron_P_ne x : 0 < x -> wron Pk dPk Fp dFp x <> RtoC 0.
Proof. intros Hx. rewrite wron_P. apply Cmult_neq_0; [apply RtoC_neq; lra | apply wron_ne; exact Hx]. Qed.

(** x^(n+1) F is smooth at 0 *)
Definition hh (tau : R) (x : R) : C :=
  Cmult (Ek tau k x) (csum (fun j => Cmult (Cmult (RtoC (af n tau j)) (cpow (Cinv k) (S j))) (cpow (RtoC x) (n - j))) (S n)).
Lemma hh_F tau x : 0 < x -> hh tau x = Cmult (cpow (RtoC x) (S n)) (F n tau k x).
Proof.
  intros Hx. unfold hh, F, S0. 
  transitivity (Cmult (Ek tau k x) (Cmult (cpow (RtoC x) (S n)) (csum (fun j => Cmult (RtoC (af n tau j)) (cpow (Zk k x) (S j))) (S n)))); [|ring].
  f_equal. rewrite <- csum_scal. apply csum_ext. intros j Hj. unfold Zk. rewrite cpow_mul.
  assert (E : cpow (RtoC x) (S n) = Cmult (cpow (RtoC x) (n - j)) (cpow (RtoC x) (S j))).
  { rewrite <- cpow_add. f_equal. lia. }
  rewrite E. assert (E2 : Cmult (cpow (RtoC x) (S j)) (cpow (RtoC (/ x)) (S j)) = RtoC 1).
  { rewrite <- cpow_mul, <- RC_mult, Rinv_r by lra. apply cpow_one. }
  transitivity (Cmult (Cmult (Cmult (RtoC (af n tau j)) (cpow (Cinv k) (S j))) (cpow (RtoC x) (n - j)))
     (Cmult (cpow (RtoC x) (S j)) (cpow (RtoC (/ x)) (S j)))); [rewrite E2; ring | ring].
Qed.
Lemma hh_smooth tau x : smooth (hh tau) x.
Proof.
  apply smooth_mult; [apply smooth_exp|].
  apply (smooth_csum (fun j r => Cmult (Cmult (RtoC (af n tau j)) (cpow (Cinv k) (S j))) (cpow (RtoC r) (n - j)))).
  intros j. apply smooth_mult; [apply smooth_const | apply smooth_cpow, smooth_id].
Qed.
Lemma hh_0 tau : hh tau 0 = Cmult (RtoC (af n tau n)) (cpow (Cinv k) (S n)).
Proof.
  unfold hh. cbn [csum]. replace (n - n)%nat with O by lia. cbn [cpow].
  rewrite (csum_ext _ (fun _ => Cmult (RtoC 0) (RtoC 0))).
  - rewrite csum_scal. unfold Ek. replace (Cmult (Cmult (RtoC (- tau)) k) (RtoC 0)) with (RtoC 0) by ring. rewrite cexp_0. ring.
  - intros j Hj. destruct (n - j)%nat eqn:E; [lia|]. cbn [cpow]. ring.
Qed.

Definition h0 : C := Cmult (RtoC (cf n n)) (cpow (Cinv k) (S n)).
Lemma h0_p : hh 1 0 = h0.
Proof. rewrite hh_0. unfold h0, af. rewrite pow1, Rmult_1_l. reflexivity. Qed.
Lemma h0_m : hh (-1) 0 = Cmult (RtoC sg) h0.
Proof. rewrite hh_0. unfold h0, af, sg. rewrite RC_mult. ring. Qed.
Lemma Cinv_ne z : z <> RtoC 0 -> Cinv z <> RtoC 0.
Proof. intros H E. apply (RtoC_neq 1); [lra|]. rewrite <- (Cinv_r z H), E. ring. Qed.
Lemma h0_ne : h0 <> RtoC 0.
Proof.
  unfold h0. apply Cmult_neq_0; [apply RtoC_neq; pose proof (cf_pos n n (Nat.le_refl n)); lra|]. apply cpow_neq, Cinv_ne, k_ne.
Qed.
Lemma sg_sq : sg * sg = 1.
Proof. unfold sg. rewrite <- Rpow_mult_distr. replace (-1 * -1) with 1 by ring. apply pow1. Qed.

(** Quotient of the two solutions *)
Definition gq (x : R) : C := Cmult (Pk x) (Cinv (Fp x)).

Lemma Cder_Cinv f x l : Cder f x l -> f x <> RtoC 0 -> Cder (fun r => Cinv (f r)) x (Copp (Cmult l (Cmult (Cinv (f x)) (Cinv (f x))))).
Proof.
  intros [D1 D2] N. unfold Cder, Cinv. cbn [fst snd].
  set (a := fun r => fst (f r)) in *. set (b := fun r => snd (f r)) in *.
  assert (Np : 0 < a x * a x + b x * b x).
  { pose proof (Cmod2 (f x)) as M. pose proof (proj1 (Cmod_gt_0 (f x)) N) as G0. unfold a, b. rewrite <- M. apply Rmult_lt_0_compat; exact G0. }
  assert (Dn : is_derive (fun r => a r ^ 2 + b r ^ 2) x (2 * (fst l * a x) + 2 * (snd l * b x))).
  { apply (is_derive_plus (fun r => a r ^ 2) (fun r => b r ^ 2)).
    - eapply is_derive_eq; [apply (is_derive_pow a 2 x (fst l) D1)|]. cbn. ring.
    - eapply is_derive_eq; [apply (is_derive_pow b 2 x (snd l) D2)|]. cbn. ring. }
  assert (Nz : a x ^ 2 + b x ^ 2 <> 0) by (intros X; apply Rlt_not_eq in Np; apply Np; rewrite <- X; ring).
  split.
  - eapply is_derive_eq; [apply (is_derive_div a (fun r => a r ^ 2 + b r ^ 2) x _ _ D1 Dn Nz)|].
    unfold Copp, Cmult, Cinv. cbn [fst snd]. change (fst (f x)) with (a x). change (snd (f x)) with (b x). field. exact Nz.
  - assert (Db : is_derive (fun r => - b r) x (- snd l)) by (apply (is_derive_opp b); exact D2).
    eapply is_derive_eq; [apply (is_derive_div (fun r => - b r) (fun r => a r ^ 2 + b r ^ 2) x _ _ Db Dn Nz)|].
    unfold Copp, Cmult, Cinv. cbn [fst snd]. change (fst (f x)) with (a x). change (snd (f x)) with (b x). field. exact Nz.
Qed.

Definition Vc : C := wron Pk dPk Fp dFp 1.
Lemma gq_der x : 0 < x -> Cder gq x (Copp (Cmult (Cmult Vc (RtoC (/ x ^ 2))) (Cmult (Cinv (Fp x)) (Cinv (Fp x))))).
Proof.
  intros Hx. destruct (Pk_solves x Hx) as (D1 & _). destruct (Fp_solves x Hx) as (D2 & _). pose proof (Fp_ne x Hx) as N.
  unfold gq. eapply Cder_eq; [apply Cder_mult; [exact D1 | apply Cder_Cinv; [exact D2 | exact N]]|].
  assert (EV : Vc = wron Pk dPk Fp dFp x) by (unfold Vc; rewrite !wron_P; f_equal; apply wron_same; lra).
  rewrite EV. unfold wron. rewrite RC_inv by (apply pow_nonzero; lra). field. split; [exact N|]. apply RtoC_neq, pow_nonzero. lra.
Qed.

Lemma gq_hh x : 0 < x -> gq x = Cmult half (Cmult (Cminus (hh (-1) x) (Cmult (RtoC sg) (hh 1 x))) (Cinv (hh 1 x))).
Proof.
  intros Hx. pose proof (Fp_ne x Hx) as N. rewrite !hh_F by exact Hx. unfold gq, Pk. change (F n 1 k x) with (Fp x). change (F n (-1) k x) with (Fm x).
  assert (cpow (RtoC x) (S n) <> RtoC 0) by (apply cpow_neq, RtoC_neq; lra).
  replace (RtoC (- sg / 2)) with (Copp (Cmult half (RtoC sg))) by (unfold half; rewrite <- RC_mult, <- RC_opp; f_equal; field).
  field. split; assumption.
Qed.

(** Bounds near the centre *)
Lemma near_centre : exists d m M, 0 < d /\ 0 < m /\ 0 < M /\ forall x, 0 < x < d -> m <= Cmod (hh 1 x) <= M.
Proof.
  pose proof h0_ne as N. assert (0 < Cmod h0) as Hm by (apply Cmod_gt_0; exact N).
  destruct (smooth_close (hh 1) 0 (Cmod h0 / 2) (hh_smooth 1 0)) as (d & Hd & H); [lra|].
  exists d, (Cmod h0 / 2), (2 * Cmod h0). split; [exact Hd|]. split; [lra|]. split; [lra|]. intros x Hx.
  specialize (H x). rewrite Rminus_0_r, Rabs_pos_eq in H by lra. specialize (H ltac:(lra)). rewrite h0_p in H.
  pose proof (Cmod_triangle (Cminus (hh 1 x) h0) h0) as T1. replace (Cplus (Cminus (hh 1 x) h0) h0) with (hh 1 x) in T1 by ring.
  pose proof (Cmod_triangle (Cminus h0 (hh 1 x)) (hh 1 x)) as T2. replace (Cplus (Cminus h0 (hh 1 x)) (hh 1 x)) with h0 in T2 by ring.
  assert (Cmod (Cminus h0 (hh 1 x)) = Cmod (Cminus (hh 1 x) h0)).
  { rewrite <- Cmod_opp. f_equal. ring. }
  lra.
Qed.
Lemma Cmod_inv' z : z <> RtoC 0 -> Cmod (Cinv z) = / Cmod z.
Proof. apply Cmod_inv. Qed.

Lemma gq_zero e : 0 < e -> exists d, 0 < d /\ forall x, 0 < x < d -> Cmod (gq x) < e.
Proof.
  intros He. destruct near_centre as (d & m & M & Hd & Hm & HM & H).
  destruct (smooth_close (fun x => Cminus (hh (-1) x) (Cmult (RtoC sg) (hh 1 x))) 0 (e * m)) as (d2 & Hd2 & H2).
  { apply smooth_minus; [apply hh_smooth|]. apply smooth_mult; [apply smooth_const | apply hh_smooth]. }
  { apply Rmult_lt_0_compat; assumption. }
  exists (Rmin d d2). split; [apply Rmin_case; assumption|]. intros x Hx.
  assert (x < d) by (pose proof (Rmin_l d d2); lra). assert (x < d2) by (pose proof (Rmin_r d d2); lra).
  specialize (H x ltac:(lra)). specialize (H2 x). rewrite Rminus_0_r, Rabs_pos_eq in H2 by lra. specialize (H2 ltac:(lra)).
  cbv beta in H2. rewrite h0_p, h0_m in H2. set (D := Cminus (hh (-1) x) (Cmult (RtoC sg) (hh 1 x))) in *.
  replace (Cminus D (Cminus (Cmult (RtoC sg) h0) (Cmult (RtoC sg) h0))) with D in H2 by ring.
  rewrite gq_hh by lra. fold D. rewrite !Cmod_mult. assert (N : hh 1 x <> RtoC 0) by (apply Cmod_gt_0; lra).
  rewrite Cmod_inv by exact N. unfold half. rewrite Cmod_R, Rabs_pos_eq by lra. pose proof (Cmod_ge_0 D).
  assert (Cmod D * / Cmod (hh 1 x) < e).
  { apply (Rmult_lt_reg_r (Cmod (hh 1 x))); [lra|]. rewrite Rmult_assoc, Rinv_l, Rmult_1_r by lra.
    eapply Rlt_le_trans; [exact H2|]. apply Rmult_le_compat_l; lra. }
  assert (0 <= Cmod D * / Cmod (hh 1 x)) by (apply Rmult_le_pos; [assumption | left; apply Rinv_0_lt_compat; lra]). lra.
Qed.

Lemma Rgrowth (f df : R -> R) a b B : a <= b -> (forall x, a <= x <= b -> is_derive f x (df x)) ->
  (forall x, a <= x <= b -> Rabs (df x) <= B) -> Rabs (f b - f a) <= B * (b - a).
Proof.
  intros Hab H HB. destruct (Req_dec a b) as [->|N]. { replace (f b - f b) with 0 by ring. rewrite Rabs_R0. lra. }
  destruct (MVT_gen f a b df) as (x & Hx & E).
  - intros x Hx. rewrite Rmin_left, Rmax_right in Hx by lra. apply H. lra.
  - intros x Hx. rewrite Rmin_left, Rmax_right in Hx by lra. apply continuity_pt_filterlim.
    apply (ex_derive_continuous (K := R_AbsRing) (V := R_NormedModule)). eapply is_derive_ex. apply H. lra.
  - rewrite Rmin_left, Rmax_right in Hx by lra. rewrite E, Rabs_mult, (Rabs_pos_eq (b - a)) by lra.
    apply Rmult_le_compat_r; [lra|]. apply HB. exact Hx.
Qed.

Lemma gq_small : exists d B, 0 < d /\ 0 <= B /\ forall x, 0 < x < d -> Cmod (gq x) <= B * x ^ (2 * n + 1).
Proof.
  destruct near_centre as (d & m & M & Hd & Hm & HM & H).
  set (C0 := Cmod Vc / (m * m)). assert (0 <= C0).
  { unfold C0. apply Rmult_le_pos; [apply Cmod_ge_0|]. left. apply Rinv_0_lt_compat. apply Rmult_lt_0_compat; exact Hm. }
  set (dg := fun x => Copp (Cmult (Cmult Vc (RtoC (/ x ^ 2))) (Cmult (Cinv (Fp x)) (Cinv (Fp x))))).
  assert (Bd : forall x, 0 < x < d -> Cmod (dg x) <= C0 * x ^ (2 * n)).
  { intros x Hx. specialize (H x Hx). rewrite hh_F in H by lra. change (F n 1 k x) with (Fp x) in H. rewrite Cmod_mult, cpow_R, Cmod_R in H.
    rewrite Rabs_pos_eq in H by (apply pow_le; lra). pose proof (Fp_ne x ltac:(lra)) as N.
    unfold dg. rewrite Cmod_opp, !Cmod_mult, Cmod_inv, Cmod_R by exact N.
    assert (0 < x ^ 2) by (apply pow_lt; lra). rewrite Rabs_pos_eq by (left; apply Rinv_0_lt_compat; assumption).
    assert (0 < x ^ S n) by (apply pow_lt; lra). assert (Hf : 0 < Cmod (Fp x)) by (apply Cmod_gt_0; exact N).
    unfold C0, Rdiv. rewrite (Rmult_assoc (Cmod Vc)), (Rmult_assoc (Cmod Vc)). apply Rmult_le_compat_l; [apply Cmod_ge_0|].
    replace (x ^ (2 * n)) with (x ^ S n * x ^ S n * / x ^ 2).
    2:{ replace (x ^ S n * x ^ S n) with (x ^ (2 * n) * x ^ 2); [field; lra|]. rewrite <- !pow_add. f_equal. lia. }
    set (p := x ^ S n) in *. set (q := Cmod (Fp x)) in *. set (z := / x ^ 2). assert (0 < z) by (apply Rinv_0_lt_compat; assumption).
    replace (/ (m * m) * (p * p * z)) with (z * (p * p * / (m * m))) by ring. apply Rmult_le_compat_l; [lra|].
    rewrite <- Rinv_mult. apply (Rmult_le_reg_r ((q * q) * (m * m))).
    - repeat apply Rmult_lt_0_compat; assumption.
    - replace (/ (q * q) * (q * q * (m * m))) with (m * m) by (field; lra).
      replace (p * p * / (m * m) * (q * q * (m * m))) with ((p * q) * (p * q)) by (field; lra).
      apply Rmult_le_compat; lra. }
  exists d, (2 * C0). split; [exact Hd|]. split; [lra|]. intros x Hx.
  assert (Comp : forall (c : C -> R), (forall z, Rabs (c z) <= Cmod z) -> (forall y, 0 < y -> is_derive (fun r => c (gq r)) y (c (dg y))) ->
     Rabs (c (gq x)) <= C0 * x ^ (2 * n + 1)).
  { intros c Hc Hd'. apply le_epsilon. intros e He. destruct (gq_zero e He) as (d2 & Hd2 & H2).
    set (y := Rmin (x / 2) (d2 / 2)). assert (0 < y) by (apply Rmin_case; lra). assert (y <= x / 2) by apply Rmin_l. assert (y <= d2 / 2) by apply Rmin_r.
    assert (Rabs (c (gq x) - c (gq y)) <= C0 * x ^ (2 * n) * (x - y)).
    { apply (Rgrowth (fun r => c (gq r)) (fun r => c (dg r))); [lra | intros; apply Hd'; lra |].
      intros z Hz. eapply Rle_trans; [apply Hc|]. eapply Rle_trans; [apply Bd; lra|]. apply Rmult_le_compat_l; [assumption|]. apply pow_incr. lra. }
    specialize (H2 y ltac:(lra)). pose proof (Hc (gq y)).
    replace (c (gq x)) with (c (gq x) - c (gq y) + c (gq y)) by ring. eapply Rle_trans; [apply Rabs_triang|].
    rewrite pow_add, pow_1. assert (0 <= C0 * x ^ (2 * n)) by (apply Rmult_le_pos; [assumption | apply pow_le; lra]). nra. }
  eapply Rle_trans; [apply Cmod_sum|].
  assert (A1 := Comp fst Cmod_re_le ltac:(intros y Hy; apply (gq_der y Hy))).
  assert (A2 := Comp snd Cmod_im_le ltac:(intros y Hy; apply (gq_der y Hy))). lra.
Qed.

Lemma Pk_bounded : exists d B, 0 < d /\ 0 <= B /\ forall x, 0 < x < d -> Cmod (Pk x) <= B.
Proof.
  destruct near_centre as (d1 & m & M & Hd1 & Hm & HM & H1). destruct gq_small as (d2 & B & Hd2 & HB & H2).
  set (d := Rmin 1 (Rmin d1 d2)). exists d, (B * M).
  assert (L1 : d <= 1) by apply Rmin_l. assert (L2 : d <= Rmin d1 d2) by apply Rmin_r.
  assert (L3 : Rmin d1 d2 <= d1) by apply Rmin_l. assert (L4 : Rmin d1 d2 <= d2) by apply Rmin_r.
  split; [unfold d; repeat apply Rmin_case; lra|]. split; [apply Rmult_le_pos; lra|].
  intros x Hx. specialize (H1 x ltac:(lra)). specialize (H2 x ltac:(lra)).
  replace (Pk x) with (Cmult (gq x) (Fp x)).
  2:{ unfold gq. field. apply Fp_ne. lra. }
  rewrite hh_F in H1 by lra. change (F n 1 k x) with (Fp x) in H1. rewrite Cmod_mult, cpow_R, Cmod_R in H1.
  assert (Px : 0 < x ^ S n) by (apply pow_lt; lra). rewrite Rabs_pos_eq in H1 by lra. rewrite Cmod_mult.
  assert (x ^ (2 * n + 1) <= x ^ S n).
  { replace (2 * n + 1)%nat with (S n + n)%nat by lia. rewrite pow_add. rewrite <- (Rmult_1_r (x ^ S n)) at 2.
    apply Rmult_le_compat_l; [lra|]. rewrite <- (pow1 n). apply pow_incr. lra. }
  pose proof (Cmod_ge_0 (Fp x)). pose proof (Cmod_ge_0 (gq x)).
  apply Rle_trans with (B * x ^ S n * Cmod (Fp x)).
  - apply Rmult_le_compat_r; [assumption|]. eapply Rle_trans; [exact H2|]. apply Rmult_le_compat_l; assumption.
  - rewrite Rmult_assoc. apply Rmult_le_compat_l; lra.
Qed.

Lemma Pk_energy x : 0 < x -> 0 <= energy Pk dPk x.
Proof.
  intros Hx. destruct (Rle_dec 0 (energy Pk dPk x)) as [H|H]; [exact H|exfalso]. apply Rnot_le_lt in H.
  set (c := - energy Pk dPk x). assert (0 < c) by (unfold c; lra).
  destruct Pk_bounded as (d & B & Hd & HB & HP).
  assert (Grow : forall y, 0 < y -> y <= x -> 2 * c / y - 2 * c / x <= size Pk y).
  { intros y Hy Hyx. assert ((2 * c / y - size Pk y) <= (2 * c / x - size Pk x)).
    { apply (der_nondecr (fun r => 2 * c / r - size Pk r) (fun r => - (2 * c) / r ^ 2 - size' Pk dPk r)); [exact Hyx | |].
      - intros z Hz. apply (is_derive_minus (fun r => 2 * c / r) (size Pk)).
        + auto_derive; [lra | field; lra].
        + apply (size_der w mu0 n s _ _ ddPk). apply Pk_solves. lra.
      - intros z Hz. assert (energy Pk dPk z <= energy Pk dPk x) by (apply (energy_mono w mu0 n s Pk dPk ddPk); [lra | intros; apply Pk_solves; lra]).
        unfold size'. unfold energy at 1 in H1. assert (0 < z ^ 2) by (apply pow_lt; lra).
        assert (dotC (dPk z) (Pk z) <= - c / z ^ 2).
        { apply (Rmult_le_reg_l (z ^ 2)); [lra|]. replace (z ^ 2 * (- c / z ^ 2)) with (- c) by (field; lra). unfold c. lra. }
        replace (- (2 * c) / z ^ 2) with (2 * (- c / z ^ 2)) by (field; lra). lra. }
    pose proof (dot_nonneg (Pk x)). unfold size in *. lra. }
  set (K := B * B + 2 * c / x + 1). assert (0 < 2 * c / x) by (apply Rdiv_lt_0_compat; lra).
  assert (0 < K) by (unfold K; pose proof (Rle_0_sqr B); unfold Rsqr in *; lra).
  set (y := Rmin (Rmin x (d / 2)) (2 * c / K)).
  assert (0 < 2 * c / K) by (apply Rdiv_lt_0_compat; lra).
  assert (0 < y) by (unfold y; repeat apply Rmin_case; lra).
  assert (y <= Rmin x (d / 2)) by apply Rmin_l. assert (Rmin x (d / 2) <= x) by apply Rmin_l. assert (Rmin x (d / 2) <= d / 2) by apply Rmin_r.
  assert (y <= 2 * c / K) by apply Rmin_r.
  specialize (Grow y H4 ltac:(lra)). specialize (HP y ltac:(lra)).
  assert (K <= 2 * c / y).
  { apply (Rmult_le_reg_r y); [assumption|]. replace (2 * c / y * y) with (2 * c) by (field; lra).
    apply Rle_trans with (K * (2 * c / K)); [apply Rmult_le_compat_l; lra | right; field; lra]. }
  unfold size in Grow. rewrite dot_mod in Grow. pose proof (Cmod_ge_0 (Pk y)).
  assert (Cmod (Pk y) * Cmod (Pk y) <= B * B) by (apply Rmult_le_compat; lra). unfold K in *. lra.
Qed.

Lemma Pk_ne x : 0 < x -> Pk x <> RtoC 0.
Proof.
  intros Hx E.
  assert (Z0 : forall y, x / 2 <= y <= x -> Pk y = RtoC 0).
  { intros y Hy. apply dot_zero. apply Rle_antisym; [|apply dot_nonneg].
    assert (size Pk y <= size Pk x).
    { apply (size_mono w mu0 n s Pk dPk ddPk); [lra | lra | intros; apply Pk_solves; lra | apply Pk_energy; lra]. }
    unfold size in H. rewrite E, dot_zero_l in H. exact H. }
  apply (wron_P_ne (x / 2)); [lra|]. unfold wron. rewrite (Z0 (x / 2)) by lra.
  destruct (Pk_solves (x / 2) ltac:(lra)) as ([U1 U2] & _).
  assert (A1 := zero_right _ (x / 2) x _ ltac:(lra) (fun y Hy => f_equal fst (Z0 y Hy)) U1).
  assert (A2 := zero_right _ (x / 2) x _ ltac:(lra) (fun y Hy => f_equal snd (Z0 y Hy)) U2).
  assert (Ed : dPk (x / 2) = RtoC 0) by (destruct (dPk (x / 2)); cbn [fst snd] in *; unfold RtoC; f_equal; assumption).
  rewrite Ed. ring.
Qed.

(** The second solution as used in the code *)
Definition Kk (x : R) : C := Cmult (RtoC (PI / 2)) (Fp x).
Definition dKk (x : R) : C := Cmult (RtoC (PI / 2)) (dFp x).
Definition ddKk (x : R) : C := Cmult (RtoC (PI / 2)) (ddFp x).
Lemma Kk_solves x : 0 < x -> solves w mu0 n s Kk dKk ddKk x.
Proof.
  intros Hx. destruct (Fp_solves x Hx) as (D1 & D2 & E). split; [apply Cder_scal; exact D1|]. split; [apply Cder_scal; exact D2|].
  unfold Kk, dKk, ddKk.
  transitivity (Cmult (RtoC (PI / 2)) (Cplus (Cmult (RtoC (x ^ 2)) (ddFp x)) (Cmult (RtoC (2 * x)) (dFp x)))); [ring|]. rewrite E. ring.
Qed.
Lemma pi2_ne : RtoC (PI / 2) <> RtoC 0.
Proof. apply RtoC_neq. pose proof PI_RGT_0. lra. Qed.
Lemma Kk_ne x : 0 < x -> Kk x <> RtoC 0.
Proof. intros Hx. apply Cmult_neq_0; [apply pi2_ne | apply Fp_ne; exact Hx]. Qed.
Lemma PK_wron x : 0 < x -> wron Pk dPk Kk dKk x <> RtoC 0.
Proof.
  intros Hx. replace (wron Pk dPk Kk dKk x) with (Cmult (RtoC (PI / 2)) (wron Pk dPk Fp dFp x)) by (unfold wron, Kk, dKk; ring).
  apply Cmult_neq_0; [apply pi2_ne | apply wron_P_ne; exact Hx].
Qed.
End bessel.
