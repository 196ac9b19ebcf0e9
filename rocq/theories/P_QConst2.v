(** Modified spherical Bessel functions in closed form: the equation *)
From Coq Require Import Reals List Lia Lra Psatz.
From Coquelicot Require Import Coquelicot.
From Verif Require Import M_Rotate M_QConst Spec_Induction P_Response P_Induction P_QConst1.
Import ListNotations.
Open Scope R_scope.

Fixpoint csum (f : nat -> C) (m : nat) : C := match m with O => RtoC 0 | S m => Cplus (csum f m) (f m) end.

Lemma csum_ext f g m : (forall j, (j < m)%nat -> f j = g j) -> csum f m = csum g m.
Proof. induction m; intros H; cbn; [reflexivity|]. rewrite IHm, (H m) by (intros; auto with arith). reflexivity. Qed.
Lemma csum_plus f g m : csum (fun j => Cplus (f j) (g j)) m = Cplus (csum f m) (csum g m).
Proof. induction m; cbn; [ring|]. rewrite IHm. ring. Qed.
Lemma csum_scal c f m : csum (fun j => Cmult c (f j)) m = Cmult c (csum f m).
Proof. induction m; cbn; [ring|]. rewrite IHm. ring. Qed.
Lemma csum_split f m : csum f (S m) = Cplus (f O) (csum (fun j => f (S j)) m).
Proof. induction m; [cbn; ring|]. change (csum f (S (S m))) with (Cplus (csum f (S m)) (f (S m))). rewrite IHm. cbn. ring. Qed.
Lemma csum_telescope f m : csum (fun j => Cminus (f j) (f (S j))) m = Cminus (f O) (f m).
Proof. induction m; cbn; [ring|]. rewrite IHm. ring. Qed.

Lemma Cder_csum (f df : nat -> R -> C) m x : (forall j, (j < m)%nat -> Cder (f j) x (df j x)) ->
  Cder (fun r => csum (fun j => f j r) m) x (csum (fun j => df j x) m).
Proof.
  induction m; intros H; cbn; [apply Cder_const|]. apply Cder_plus; [apply IHm; intros; apply H; lia | apply H; lia].
Qed.

Lemma Cder_ext u v x l : (forall r, u r = v r) -> Cder u x l -> Cder v x l.
Proof.
  intros E [U1 U2]. split; [eapply is_derive_ext; [|exact U1] | eapply is_derive_ext; [|exact U2]]; intros r; cbv beta; rewrite E; reflexivity.
Qed.

Lemma RtoC_neq x : x <> 0 -> RtoC x <> RtoC 0.
Proof. intros H E. apply H. exact (f_equal fst E). Qed.
Lemma RC_plus x y : RtoC (x + y) = Cplus (RtoC x) (RtoC y).
Proof. unfold RtoC, Cplus. cbn [fst snd]. f_equal; ring. Qed.
Lemma RC_mult x y : RtoC (x * y) = Cmult (RtoC x) (RtoC y).
Proof. unfold RtoC, Cmult. cbn [fst snd]. f_equal; ring. Qed.
Lemma RC_opp x : RtoC (- x) = Copp (RtoC x).
Proof. unfold RtoC, Copp. cbn [fst snd]. f_equal; ring. Qed.
Lemma RC_m1 : RtoC (-1) = Copp (RtoC 1).
Proof. unfold RtoC, Copp. cbn [fst snd]. f_equal; ring. Qed.
Lemma RC_m2 : RtoC (-2) = Copp (RtoC 2).
Proof. unfold RtoC, Copp. cbn [fst snd]. f_equal; ring. Qed.
Lemma RC_minus x y : RtoC (x - y) = Cminus (RtoC x) (RtoC y).
Proof. unfold RtoC, Cminus, Cplus, Copp. cbn [fst snd]. f_equal; ring. Qed.
Lemma RC_inv x : x <> 0 -> RtoC (/ x) = Cinv (RtoC x).
Proof. intros H. unfold RtoC, Cinv. cbn [fst snd]. f_equal; field; assumption. Qed.
Lemma RC_div x y : y <> 0 -> RtoC (x / y) = Cdiv (RtoC x) (RtoC y).
Proof. intros H. unfold Rdiv, Cdiv. rewrite RC_mult, RC_inv by exact H. reflexivity. Qed.

Lemma cpow_S z m : cpow z (S m) = Cmult z (cpow z m).
Proof. reflexivity. Qed.
Lemma cpow_add z a b : cpow z (a + b) = Cmult (cpow z a) (cpow z b).
Proof. induction a; cbn; [ring|]. rewrite IHa. ring. Qed.
Lemma cpow_mul z y m : cpow (Cmult z y) m = Cmult (cpow z m) (cpow y m).
Proof. induction m; cbn; [ring|]. rewrite IHm. ring. Qed.
Lemma cpow_one m : cpow (RtoC 1) m = RtoC 1.
Proof. induction m; cbn; [reflexivity|]. rewrite IHm. ring. Qed.
Lemma cpow_R x m : cpow (RtoC x) m = RtoC (x ^ m).
Proof. induction m; cbn; [reflexivity|]. rewrite IHm, RC_mult. reflexivity. Qed.
Lemma cpow_neq z m : z <> RtoC 0 -> cpow z m <> RtoC 0.
Proof. intros H. induction m; cbn; [apply RtoC_neq; lra|]. apply Cmult_neq_0; assumption. Qed.

Lemma cexp_plus a b : cexp (Cplus a b) = Cmult (cexp a) (cexp b).
Proof.
  unfold cexp, Cplus, Cmult. cbn [fst snd]. rewrite exp_plus, cos_plus, sin_plus. f_equal; ring.
Qed.
Lemma cexp_0 : cexp (RtoC 0) = RtoC 1.
Proof. unfold cexp, RtoC. cbn [fst snd]. rewrite exp_0, cos_0, sin_0. f_equal; ring. Qed.
Lemma cexp_opp z : Cmult (cexp z) (cexp (Copp z)) = RtoC 1.
Proof. rewrite <- cexp_plus. replace (Cplus z (Copp z)) with (RtoC 0) by ring. apply cexp_0. Qed.
Lemma cexp_neq z : cexp z <> RtoC 0.
Proof. intros H. pose proof (cexp_opp z) as E. rewrite H in E. apply (RtoC_neq 1); [lra|]. rewrite <- E. ring. Qed.
Lemma cexp_mod z : Cmod (cexp z) = exp (fst z).
Proof.
  unfold cexp, Cmod. cbn [fst snd].
  pose proof (sin2_cos2 (snd z)) as T. unfold Rsqr in T.
  replace ((exp (fst z) * cos (snd z)) ^ 2 + (exp (fst z) * sin (snd z)) ^ 2)
    with (Rsqr (exp (fst z)) * (sin (snd z) * sin (snd z) + cos (snd z) * cos (snd z))) by (unfold Rsqr; ring).
  rewrite T, Rmult_1_r. apply sqrt_Rsqr. left. apply exp_pos.
Qed.
Lemma Cder_cexp a x : Cder (fun r => cexp (Cmult a (RtoC r))) x (Cmult a (cexp (Cmult a (RtoC x)))).
Proof.
  destruct a as [p q].
  assert (E : forall r, (exp (p * r) * cos (q * r), exp (p * r) * sin (q * r)) = cexp (Cmult (p, q) (RtoC r))).
  { intros r. unfold cexp, Cmult, RtoC. cbn [fst snd].
    replace (p * r - q * 0) with (p * r) by ring. replace (p * 0 + q * r) with (q * r) by ring. reflexivity. }
  apply (Cder_ext _ _ x _ E). rewrite <- E. unfold Cder, Cmult. cbn [fst snd].
  split; (auto_derive; [exact I | ring]).
Qed.

(** Coefficients of the closed form *)
Section closed.
Variable n : nat.
Definition lam : R := INR n * (INR n + 1).
Fixpoint cf (j : nat) : R :=
  match j with O => 1 | S j => cf j * (lam - INR j * (INR j + 1)) / (2 * (INR j + 1)) end.
Lemma cf_end : cf (S n) = 0.
Proof. cbn [cf]. unfold lam. replace (INR n * (INR n + 1) - INR n * (INR n + 1)) with 0 by ring. unfold Rdiv. ring. Qed.
Lemma cf_pos j : (j <= n)%nat -> 0 < cf j.
Proof.
  induction j; intros H; cbn [cf]; [lra|]. specialize (IHj ltac:(lia)).
  pose proof (pos_INR j). assert (INR j + 1 <= INR n) by (rewrite <- S_INR; apply le_INR; lia).
  unfold Rdiv. apply Rmult_lt_0_compat; [apply Rmult_lt_0_compat; [exact IHj|] | apply Rinv_0_lt_compat; lra]. unfold lam. nra.
Qed.

Variable tau : R.
Hypothesis Htau : tau * tau = 1.
Definition af (j : nat) : R := tau ^ j * cf j.
Lemma af_step j : 2 * tau * (INR j + 1) * af (S j) = (lam - INR j * (INR j + 1)) * af j.
Proof.
  unfold af. cbn [cf pow]. pose proof (pos_INR j).
  transitivity (tau * tau * (tau ^ j * cf j * (lam - INR j * (INR j + 1)))); [field; lra|]. rewrite Htau. ring.
Qed.

Variable k : C.
Hypothesis Hk : k <> RtoC 0.
Definition Zk (x : R) : C := Cmult (Cinv k) (RtoC (/ x)).
Definition Ek (x : R) : C := cexp (Cmult (Cmult (RtoC (- tau)) k) (RtoC x)).
Definition S0 (x : R) : C := csum (fun j => Cmult (RtoC (af j)) (cpow (Zk x) (S j))) (S n).
Definition S1 (x : R) : C := csum (fun j => Cmult (RtoC (INR (S j) * af j)) (cpow (Zk x) (S (S j)))) (S n).
Definition S2 (x : R) : C := csum (fun j => Cmult (RtoC (INR (S (S j)) * (INR (S j) * af j))) (cpow (Zk x) (S (S (S j))))) (S n).
Definition F (x : R) : C := Cmult (Ek x) (S0 x).
Definition dF (x : R) : C := Cmult k (Cmult (Ek x) (Copp (Cplus (Cmult (RtoC tau) (S0 x)) (S1 x)))).
Definition ddF (x : R) : C := Cmult (Cmult k k) (Cmult (Ek x) (Cplus (Cplus (S0 x) (Cmult (RtoC (2 * tau)) (S1 x))) (S2 x))).

Lemma Zk_der x : 0 < x -> Cder Zk x (Copp (Cmult k (Cmult (Zk x) (Zk x)))).
Proof.
  intros Hx. unfold Zk. eapply Cder_eq; [apply Cder_scal, Cder_inv; exact Hx|].
  rewrite RC_opp, !RC_inv by (try apply pow_nonzero; lra). rewrite <- cpow_R. cbn [cpow]. field.
  split; [apply RtoC_neq; lra | exact Hk].
Qed.
Lemma Zk_pow_der x m : 0 < x -> Cder (fun r => cpow (Zk r) m) x (Copp (Cmult k (Cmult (RtoC (INR m)) (cpow (Zk x) (S m))))).
Proof.
  intros Hx. induction m.
  - cbn [cpow]. eapply Cder_eq; [apply Cder_const|]. cbn [INR]. ring.
  - cbn [cpow]. eapply Cder_eq; [apply Cder_mult; [apply Zk_der; exact Hx | exact IHm]|]. cbn [cpow].
    rewrite S_INR, RC_plus. ring.
Qed.
Lemma S_der (f : nat -> R) p x : 0 < x ->
  Cder (fun r => csum (fun j => Cmult (RtoC (f j)) (cpow (Zk r) (p + j))) (S n)) x
       (Copp (Cmult k (csum (fun j => Cmult (RtoC (INR (p + j) * f j)) (cpow (Zk x) (S p + j))) (S n)))).
Proof.
  intros Hx. eapply Cder_eq.
  - apply (Cder_csum (fun j r => Cmult (RtoC (f j)) (cpow (Zk r) (p + j)))
             (fun j x => Cmult (RtoC (f j)) (Copp (Cmult k (Cmult (RtoC (INR (p + j))) (cpow (Zk x) (S (p + j)))))))).
    intros j Hj. apply Cder_scal, Zk_pow_der; exact Hx.
  - rewrite <- csum_scal. replace (Copp (csum (fun j => Cmult k (Cmult (RtoC (INR (p + j) * f j)) (cpow (Zk x) (S p + j)))) (S n)))
      with (Cmult (RtoC (-1)) (csum (fun j => Cmult k (Cmult (RtoC (INR (p + j) * f j)) (cpow (Zk x) (S p + j)))) (S n))).
    + rewrite <- csum_scal. apply csum_ext. intros j Hj. rewrite RC_mult, RC_m1. change (S p + j)%nat with (S (p + j)). ring.
    + rewrite RC_m1. ring.
Qed.
Lemma S0_der x : 0 < x -> Cder S0 x (Copp (Cmult k (S1 x))).
Proof. intros Hx. exact (S_der af 1 x Hx). Qed.
Lemma S1_der x : 0 < x -> Cder S1 x (Copp (Cmult k (S2 x))).
Proof. intros Hx. exact (S_der (fun j => INR (S j) * af j) 2 x Hx). Qed.
Lemma Ek_der x : Cder Ek x (Cmult (Cmult (RtoC (- tau)) k) (Ek x)).
Proof. apply Cder_cexp. Qed.

Lemma F_der x : 0 < x -> Cder F x (dF x).
Proof.
  intros Hx. unfold F, dF. eapply Cder_eq; [apply Cder_mult; [apply Ek_der | apply S0_der; exact Hx]|].
  rewrite RC_opp. ring.
Qed.
Lemma dF_der x : 0 < x -> Cder dF x (ddF x).
Proof.
  intros Hx. unfold dF, ddF. eapply Cder_eq.
  - apply Cder_scal. apply Cder_mult; [apply Ek_der|]. apply Cder_opp. apply Cder_plus; [apply Cder_scal, S0_der; exact Hx | apply S1_der; exact Hx].
  - cbv beta. replace (RtoC (2 * tau)) with (Cplus (RtoC tau) (RtoC tau)) by (rewrite <- RC_plus; f_equal; ring).
    transitivity (Cmult (Cmult k k) (Cmult (Ek x) (Cplus (Cplus (Cmult (RtoC (tau * tau)) (S0 x)) (Cmult (Cplus (RtoC tau) (RtoC tau)) (S1 x))) (S2 x)))).
    + rewrite RC_mult, RC_opp. ring.
    + rewrite Htau. ring.
Qed.

(** Coefficient identity *)
Lemma coefficients x : 
  let Y := Zk x in
  Cplus (csum (fun j => Cmult (RtoC (2 * tau * INR j * af j)) (cpow Y j)) (S n))
        (Copp (csum (fun j => Cmult (RtoC ((lam - INR j * (INR j + 1)) * af j)) (cpow Y (S j))) (S n))) = RtoC 0.
Proof.
  intros Y. set (f := fun j => Cmult (RtoC (2 * tau * INR j * af j)) (cpow Y j)).
  rewrite (csum_ext (fun j => Cmult (RtoC ((lam - INR j * (INR j + 1)) * af j)) (cpow Y (S j))) (fun j => f (S j))).
  - assert (T := csum_telescope f (S n)). unfold Cminus in T. rewrite csum_plus in T.
    replace (csum (fun j => Copp (f (S j))) (S n)) with (Copp (csum (fun j => f (S j)) (S n))) in T.
    + rewrite T. unfold f at 1 2, af. rewrite cf_end. cbn [INR]. rewrite !Rmult_0_r, !Rmult_0_l. ring.
    + transitivity (Cmult (RtoC (-1)) (csum (fun j => f (S j)) (S n))); [rewrite RC_m1; ring|].
      rewrite <- csum_scal. apply csum_ext. intros. rewrite RC_m1. ring.
  - intros j Hj. unfold f. f_equal. f_equal. rewrite S_INR. rewrite <- af_step. ring.
Qed.

Lemma F_equation x : 0 < x ->
  Cplus (Cmult (RtoC (x ^ 2)) (ddF x)) (Cmult (RtoC (2 * x)) (dF x)) =
  Cmult (Cplus (RtoC lam) (Cmult (Cmult k k) (RtoC (x ^ 2)))) (F x).
Proof.
  intros Hx. pose proof (coefficients x) as CE. cbv zeta in CE.
  assert (NX : RtoC x <> RtoC 0) by (apply RtoC_neq; lra).
  assert (KX : Cmult (Cmult k (RtoC x)) (Zk x) = RtoC 1).
  { unfold Zk. rewrite RC_inv by lra. field. split; assumption. }
  assert (X2 : RtoC (x ^ 2) = Cmult (RtoC x) (RtoC x)) by (rewrite <- RC_mult; f_equal; ring).
  set (Y := Zk x) in *. set (y := Cmult k (RtoC x)) in *.
  (* sums without the extra factors of Y *)
  set (T0 := csum (fun j => Cmult (RtoC (af j)) (cpow Y j)) (S n)).
  set (T1 := csum (fun j => Cmult (RtoC (INR (S j) * af j)) (cpow Y j)) (S n)).
  set (T2 := csum (fun j => Cmult (RtoC (INR (S (S j)) * (INR (S j) * af j))) (cpow Y j)) (S n)).
  assert (E0 : S0 x = Cmult Y T0).
  { unfold S0, T0. rewrite <- csum_scal. apply csum_ext. intros. fold Y. cbn [cpow]. ring. }
  assert (E1 : S1 x = Cmult (Cmult Y Y) T1).
  { unfold S1, T1. rewrite <- csum_scal. apply csum_ext. intros. fold Y. cbn [cpow]. ring. }
  assert (E2 : S2 x = Cmult (Cmult Y (Cmult Y Y)) T2).
  { unfold S2, T2. rewrite <- csum_scal. apply csum_ext. intros. fold Y. cbn [cpow]. ring. }
  assert (CE2 : Cplus (Cplus (Cminus (Cmult (RtoC (2 * tau)) T1) (Cmult (RtoC (2 * tau)) T0)) (Cmult Y (Cminus T2 (Cmult (RtoC 2) T1))))
                      (Copp (Cmult (RtoC lam) (Cmult Y T0))) = RtoC 0).
  { rewrite <- CE.
    transitivity (Cplus (csum (fun j => Cmult (RtoC (2 * tau * INR j * af j)) (cpow Y j)) (S n))
        (Cmult (RtoC (-1)) (csum (fun j => Cmult (RtoC ((lam - INR j * (INR j + 1)) * af j)) (cpow Y (S j))) (S n)))); [|rewrite RC_m1; ring].
    rewrite <- csum_scal, <- csum_plus.
    transitivity (Cplus (Cplus (Cplus (Cmult (RtoC (2 * tau)) T1) (Cmult (RtoC (- (2 * tau))) T0)) (Cplus (Cmult Y T2) (Cmult (Cmult Y (RtoC (-2))) T1)))
                      (Cmult (Cmult (RtoC (- lam)) Y) T0)); [rewrite !RC_opp, RC_m2; ring|].
    unfold T0, T1, T2. rewrite <- !csum_scal, <- !csum_plus. apply csum_ext. intros j Hj. cbn [cpow].
    rewrite !S_INR. rewrite RC_m1, RC_m2, !RC_opp, !RC_mult, !RC_minus, !RC_plus, !RC_mult, !RC_plus, two_c. ring. }
  unfold F, dF, ddF. rewrite E0, E1, E2, X2. 
  transitivity (Cmult (Ek x) (Cplus (Cmult (Cmult y y) (Cplus (Cplus (Cmult Y T0) (Cmult (RtoC (2 * tau)) (Cmult (Cmult Y Y) T1))) (Cmult (Cmult Y (Cmult Y Y)) T2)))
     (Cmult (Cmult (RtoC 2) y) (Copp (Cplus (Cmult (RtoC tau) (Cmult Y T0)) (Cmult (Cmult Y Y) T1)))))).
  { unfold y. rewrite !RC_mult. ring. }
  transitivity (Cmult (Ek x) (Cmult (Cplus (RtoC lam) (Cmult y y)) (Cmult Y T0))); [|unfold y; ring].
  f_equal.
  assert (G : forall A B, Cmult (Cmult y y) A = Cmult (Cmult y y) B -> A = B).
  { intros A B H. transitivity (Cmult (Cmult (Cmult y Y) (Cmult y Y)) A); [rewrite KX; ring|].
    transitivity (Cmult (Cmult Y Y) (Cmult (Cmult y y) A)); [ring|]. rewrite H.
    transitivity (Cmult (Cmult (Cmult y Y) (Cmult y Y)) B); [ring|rewrite KX; ring]. }
  (* y Y = 1 *)
  replace (RtoC (2 * tau)) with (Cmult (RtoC 2) (RtoC tau)) in * by (rewrite RC_mult; reflexivity).
  transitivity (Cplus (Cmult (Cmult y y) (Cmult Y T0))
     (Cplus (Cmult (Cmult (Cmult y Y) (Cmult y Y)) (Cmult (Cmult (RtoC 2) (RtoC tau)) T1))
     (Cplus (Cmult (Cmult (Cmult y Y) (Cmult y Y)) (Cmult Y T2))
     (Cminus (Copp (Cmult (Cmult y Y) (Cmult (Cmult (RtoC 2) (RtoC tau)) T0))) (Cmult (Cmult y Y) (Cmult Y (Cmult (RtoC 2) T1))))))); [ring|].
  rewrite KX.
  transitivity (Cplus (Cplus (Cmult (Cmult y y) (Cmult Y T0)) (Cmult (RtoC lam) (Cmult Y T0))) (Cplus (Cplus (Cminus (Cmult (Cmult (RtoC 2) (RtoC tau)) T1) (Cmult (Cmult (RtoC 2) (RtoC tau)) T0)) (Cmult Y (Cminus T2 (Cmult (RtoC 2) T1))))
                      (Copp (Cmult (RtoC lam) (Cmult Y T0))))); [ring|].
  rewrite CE2. ring.
Qed.

Lemma F_solves w mu0 s x : 0 < x -> Cmult k k = (0, w * mu0 * s) -> solves w mu0 n s F dF ddF x.
Proof.
  intros Hx Hk2. split; [apply F_der; exact Hx|]. split; [apply dF_der; exact Hx|].
  rewrite F_equation by exact Hx. rewrite Hk2. f_equal. unfold Cplus, Cmult, RtoC, lam. cbn [fst snd]. f_equal; ring.
Qed.
End closed.
