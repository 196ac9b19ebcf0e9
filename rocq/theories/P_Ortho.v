(** Orthogonality of the Schmidt functions on [-1, 1]. *)
From Coq Require Import Reals List Arith Lia Lra Factorial.
From Coquelicot Require Import Coquelicot.
From Verif Require Import Spec_Legendre P_Legendre P_Legendre2 P_LegendreTab.
Open Scope R_scope.

(** the product of two Schmidt functions of order m, in x = cos theta *)
Definition prod (m n k : nat) (x : R) : R := (1 - x ^ 2) ^ m * Qf n m x * Qf k m x.
Definition J (m n k : nat) : R := RInt (prod m n k) (-1) 1.

Lemma is_derive_flux m n k x :
  is_derive (fun x => (1 - x ^ 2) ^ S m * Qf n (S m) x * Qf k m x) x
    (prod (S m) n k x - (INR n + INR m + 1) * (INR n - INR m) * prod m n k x).
Proof.
  pose proof (is_derive_Qf n (S m) x) as D1. pose proof (is_derive_Qf k m x) as D2.
  assert (D0 : is_derive (fun x => (1 - x ^ 2) ^ S m) x (- (2 * (INR m + 1)) * x * (1 - x ^ 2) ^ m)).
  { replace (- (2 * (INR m + 1)) * x * (1 - x ^ 2) ^ m) with (INR (S m) * (- 2 * x) * (1 - x ^ 2) ^ pred (S m))
      by (rewrite S_INR; cbn [pred]; ring).
    apply (is_derive_pow (fun x => 1 - x ^ 2)). auto_derive; [trivial|ring]. }
  pose proof (is_derive_mult _ _ x _ _ (is_derive_mult _ _ x _ _ D0 D1 Rmult_comm) D2 Rmult_comm) as D.
  eapply is_derive_ext; [intros t; reflexivity|].
  replace (prod (S m) n k x - (INR n + INR m + 1) * (INR n - INR m) * prod m n k x)
    with ((- (2 * (INR m + 1)) * x * (1 - x ^ 2) ^ m * Qf n (S m) x + (1 - x ^ 2) ^ S m * Qf n (S (S m)) x) * Qf k m x
          + (1 - x ^ 2) ^ S m * Qf n (S m) x * Qf k (S m) x).
  - exact D.
  - pose proof (Qf_ode n m x) as O. unfold prod.
    replace ((INR n + INR m + 1) * (INR n - INR m) * ((1 - x ^ 2) ^ m * Qf n m x * Qf k m x))
      with ((1 - x ^ 2) ^ m * Qf k m x * ((INR n + INR m + 1) * (INR n - INR m) * Qf n m x)) by ring.
    rewrite <- O. cbn [pow]. ring.
Qed.

Lemma cont_Qf n m x : continuous (Qf n m) x.
Proof. apply (@ex_derive_continuous R_AbsRing R_NormedModule). eexists. apply is_derive_Qf. Qed.

Lemma cont_prod m n k x : continuous (prod m n k) x.
Proof.
  unfold prod. apply (@continuous_mult R_UniformSpace R_AbsRing).
  - apply (@continuous_mult R_UniformSpace R_AbsRing); [|apply cont_Qf].
    apply (@ex_derive_continuous R_AbsRing R_NormedModule). auto_derive. trivial.
  - apply cont_Qf.
Qed.

Lemma ex_RInt_prod m n k a b : ex_RInt (prod m n k) a b.
Proof. apply (@ex_RInt_continuous R_CompleteNormedModule). intros. apply cont_prod. Qed.

Lemma J_up m n k : J (S m) n k = (INR n + INR m + 1) * (INR n - INR m) * J m n k.
Proof.
  set (c := (INR n + INR m + 1) * (INR n - INR m)).
  set (f := fun x => (1 - x ^ 2) ^ S m * Qf n (S m) x * Qf k m x).
  assert (H : is_RInt (fun x => prod (S m) n k x - c * prod m n k x) (-1) 1 (minus (f 1) (f (-1)))).
  { apply (@is_RInt_derive R_CompleteNormedModule f).
    - intros x _. apply is_derive_flux.
    - intros x _. apply (@continuous_minus R_UniformSpace R_AbsRing R_NormedModule).
      + apply cont_prod.
      + apply (@continuous_mult R_UniformSpace R_AbsRing); [apply continuous_const|apply cont_prod]. }
  apply (is_RInt_unique (V := R_CompleteNormedModule)) in H.
  assert (E : RInt (fun x => prod (S m) n k x - c * prod m n k x) (-1) 1 = J (S m) n k - c * J m n k).
  { unfold J. rewrite (RInt_minus (V := R_CompleteNormedModule) (prod (S m) n k) (fun x => c * prod m n k x)).
    - rewrite (RInt_scal (V := R_CompleteNormedModule) (prod m n k)) by apply ex_RInt_prod. reflexivity.
    - apply ex_RInt_prod.
    - apply (ex_RInt_scal (V := R_NormedModule) (prod m n k)), ex_RInt_prod. }
  rewrite E in H. clearbody c. change (J (S m) n k - c * J m n k = f 1 + - f (-1)) in H. unfold f in H.
  replace ((1 - 1 ^ 2) ^ S m) with 0 in H by (cbn; ring).
  replace ((1 - (-1) ^ 2) ^ S m) with 0 in H by (cbn; ring).
  lra.
Qed.

Lemma J_sym m n k : J m n k = J m k n.
Proof. unfold J. apply RInt_ext. intros x _. change (@eq R (prod m n k x) (prod m k n x)). unfold prod. ring. Qed.

Lemma J_ortho m n k : n <> k -> J m n k = 0.
Proof.
  intros H. pose proof (J_up m n k) as A. pose proof (J_up m k n) as B.
  rewrite (J_sym (S m) k n), (J_sym m k n), A in B.
  assert (C : (INR n * (INR n + 1) - INR k * (INR k + 1)) * J m n k = 0) by lra.
  apply Rmult_integral in C. destruct C as [C|C]; [exfalso|exact C].
  pose proof (pos_INR n). pose proof (pos_INR k).
  assert (D : (INR n - INR k) * (INR n + INR k + 1) = 0) by lra.
  apply Rmult_integral in D. destruct D as [D|D]; [|lra].
  apply H, INR_eq. lra.
Qed.

Lemma cn_sq n m : cn n m ^ 2 = norm n m.
Proof. unfold cn. rewrite pow2_sqrt; [reflexivity|left; apply norm_pos]. Qed.

Lemma norm_J m n : (m <= n)%nat -> norm n m * J m n n = (if Nat.eqb m 0 then 1 else 2) * J 0 n n.
Proof.
  induction m as [|m IH]; intros H.
  - unfold norm. cbn [Nat.eqb]. rewrite Nat.sub_0_r, Nat.add_0_r. field. apply INR_fact_neq_0.
  - specialize (IH ltac:(lia)). rewrite J_up.
    transitivity (2 * / (if Nat.eqb m 0 then 1 else 2) * (norm n m * J m n n)).
    2:{ rewrite IH. cbn [Nat.eqb]. destruct (Nat.eqb m 0); field. }
    enough (E : norm n (S m) * ((INR n + INR m + 1) * (INR n - INR m)) = 2 * / (if Nat.eqb m 0 then 1 else 2) * norm n m).
    { transitivity (norm n (S m) * ((INR n + INR m + 1) * (INR n - INR m)) * J m n n); [ring|]. rewrite E. ring. }
    unfold norm. replace (n - m)%nat with (S (n - S m)) by lia. replace (n + S m)%nat with (S (n + m)) by lia.
    rewrite !fact_simpl, !mult_INR, !S_INR, plus_INR, minus_INR, S_INR by lia. cbn [Nat.eqb].
    pose proof (INR_fact_lt_0 (n + m)). pose proof (pos_INR n). pose proof (pos_INR m).
    destruct (Nat.eqb m 0); field; lra.
Qed.

Lemma sum_J n k : (k <= n)%nat ->
  is_RInt (fun x => sum_f_R0 (fun m => norm n m * prod m n n x) k) (-1) 1 ((2 * INR k + 1) * J 0 n n).
Proof.
  induction k as [|k IH]; intros H.
  - cbn [sum_f_R0]. replace ((2 * INR 0 + 1) * J 0 n n) with (scal (norm n 0) (J 0 n n)).
    + apply (is_RInt_scal (V := R_NormedModule)). apply (RInt_correct (V := R_CompleteNormedModule)), ex_RInt_prod.
    + change (norm n 0 * J 0 n n = (2 * 0 + 1) * J 0 n n). rewrite norm_J by lia. cbn [Nat.eqb]. ring.
  - cbn [sum_f_R0]. rewrite S_INR.
    replace ((2 * (INR k + 1) + 1) * J 0 n n) with (plus ((2 * INR k + 1) * J 0 n n) (scal (norm n (S k)) (J (S k) n n))).
    + apply (is_RInt_plus (V := R_NormedModule)); [apply IH; lia|].
      apply (is_RInt_scal (V := R_NormedModule)). apply (RInt_correct (V := R_CompleteNormedModule)), ex_RInt_prod.
    + change ((2 * INR k + 1) * J 0 n n + norm n (S k) * J (S k) n n = (2 * (INR k + 1) + 1) * J 0 n n).
      rewrite norm_J by lia. cbn [Nat.eqb]. ring.
Qed.

Lemma J0 n : J 0 n n = 2 / (2 * INR n + 1).
Proof.
  pose proof (sum_J n n (le_n n)) as H. apply (is_RInt_unique (V := R_CompleteNormedModule)) in H.
  rewrite (RInt_ext _ (fun _ => 1)) in H.
  - rewrite RInt_const in H. change ((1 - -1) * 1 = (2 * INR n + 1) * J 0 n n) in H.
    pose proof (pos_INR n). apply (Rmult_eq_reg_l (2 * INR n + 1)); [|lra]. rewrite <- H. field. lra.
  - intros x Hx. rewrite Rmin_left, Rmax_right in Hx by lra.
    transitivity (sumsq n (acos x)); [|apply sumsq_one]. unfold sumsq. apply sum_eq. intros m Hm.
    rewrite schmidt_Q. unfold prod. rewrite cos_acos by lra.
    rewrite !Rpow_mult_distr, cn_sq, <- pow_mult, Nat.mul_comm, pow_mult.
    replace (sin (acos x) ^ 2) with (1 - x ^ 2); [ring|].
    pose proof (sin2_cos2 (acos x)) as S. rewrite cos_acos in S by lra. unfold Rsqr in S. lra.
Qed.

(** the inner product of two Schmidt functions *)
Theorem schmidt_inner n k m : (m <= n)%nat -> (m <= k)%nat ->
  cn n m * cn k m * J m n k = if Nat.eqb n k then (if Nat.eqb m 0 then 2 else 4) / (2 * INR n + 1) else 0.
Proof.
  intros Hn Hk. destruct (Nat.eqb_spec n k) as [<-|E].
  - replace (cn n m * cn n m) with (norm n m) by (rewrite <- cn_sq; ring).
    rewrite norm_J, J0 by exact Hn. pose proof (pos_INR n). destruct (Nat.eqb m 0); field; lra.
  - rewrite J_ortho by exact E. ring.
Qed.

(** in x, the product of two Schmidt functions of equal order *)
Lemma schmidt_prod n k m x : -1 <= x <= 1 ->
  schmidt n m (acos x) * schmidt k m (acos x) = cn n m * cn k m * prod m n k x.
Proof.
  intros Hx. rewrite !schmidt_Q, cos_acos by lra. unfold prod.
  transitivity (cn n m * cn k m * (sin (acos x) ^ m * sin (acos x) ^ m) * Qf n m x * Qf k m x); [ring|].
  rewrite <- Rpow_mult_distr. replace (sin (acos x) * sin (acos x)) with (1 - x ^ 2); [ring|].
  pose proof (sin2_cos2 (acos x)) as S. rewrite cos_acos in S by lra. unfold Rsqr in S. lra.
Qed.
