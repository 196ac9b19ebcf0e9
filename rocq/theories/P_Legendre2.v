(** Recursions of the Schmidt functions. *)
From Coq Require Import Reals List Arith Lia Lra Factorial.
From Coquelicot Require Import Coquelicot.
From Verif Require Import Spec_Legendre P_Legendre.
Open Scope R_scope.

Definition Qf (n m : nat) (x : R) : R := Derive_n (legendre n) m x.
Definition cw (n : nat) : R := 2 ^ n * INR (fact n).

Lemma cw_neq n : cw n <> 0.
Proof. unfold cw. apply Rmult_integral_contrapositive_currified; [apply pow_nonzero; lra|apply INR_fact_neq_0]. Qed.

Lemma cw_S n : cw (S n) = 2 * INR (S n) * cw n.
Proof. unfold cw. rewrite fact_simpl, mult_INR. cbn [pow]. ring. Qed.

Lemma Qf_dw n m x : Qf n m x = dw n (n + m) x / cw n.
Proof.
  unfold Qf, legendre.
  rewrite (Derive_n_ext _ (fun t => / cw n * Derive_n (w n) n t)).
  2:{ intros t. change (Derive_n (w n) n t / cw n = / cw n * Derive_n (w n) n t). field. apply cw_neq. }
  rewrite Derive_n_scal, Derive_n_comp. unfold dw.
  replace (m + n)%nat with (n + m)%nat by lia. field. apply cw_neq.
Qed.

Lemma Qf_0 n m x : (n < m)%nat -> Qf n m x = 0.
Proof. intros H. rewrite Qf_dw, dw_0 by lia. field. apply cw_neq. Qed.

Lemma Qf_rec n m x :
  (INR (S (S n)) - INR m) * Qf (S (S n)) m x
  = (2 * INR (S n) + 1) * x * Qf (S n) m x - (INR (S n) + INR m) * Qf n m x.
Proof.
  rewrite !Qf_dw, (cw_S (S n)), (cw_S n).
  pose proof (cw_neq n) as Hc.
  pose proof (dw_A (S n) (S (n + m)) x) as A. cbn [pred] in A.
  pose proof (dw_D n (n + m) x) as D.
  replace (S (S n) + m)%nat with (S (S (n + m))) by lia.
  replace (S n + m)%nat with (S (n + m)) by lia.
  rewrite A. rewrite !S_INR in *. rewrite plus_INR in *.
  pose proof (pos_INR n). pose proof (pos_INR m).
  set (N := INR n) in *. set (M := INR m) in *.
  assert (E : dw n (n + m) x = (x * dw (S n) (S (n + m)) x + (N + M) * dw (S n) (n + m) x
      - 2 * (N + 1) * dw (S n) (n + m) x) / (2 * (N + 1))) by (rewrite D; field; lra).
  rewrite E. field. repeat split; try assumption; lra.
Qed.

Lemma Qf_diag m x : Qf (S m) (S m) x = (2 * INR m + 1) * Qf m m x.
Proof.
  rewrite !Qf_dw, cw_S. replace (S m + S m)%nat with (S (S (m + m))) by lia.
  rewrite dw_A. cbn [pred]. rewrite (dw_0 m (S (m + m))) by lia.
  pose proof (cw_neq m). rewrite !S_INR, plus_INR. pose proof (pos_INR m). field. lra.
Qed.

Lemma Qf_sub m x : Qf (S m) m x = (2 * INR m + 1) * x * Qf m m x.
Proof.
  rewrite !Qf_dw, cw_S. pose proof (cw_neq m). pose proof (pos_INR m).
  replace (S m + m)%nat with (S (m + m)) by lia.
  destruct m as [|m].
  - rewrite dw_A. cbn [Nat.add]. change (INR 0) with 0. change (INR 1) with 1. field. assumption.
  - pose proof (dw_A (S m) (S m + S m) x) as A.
    pose proof (dw_D m (m + S m) x) as D.
    rewrite (dw_0 m (m + S m)) in D by lia.
    cbn [pred Nat.add] in A, D.
    cbn [Nat.add].
    rewrite A. rewrite !S_INR in *. rewrite plus_INR, S_INR in *. set (M := INR m) in *.
    assert (E : dw (S m) (m + S m) x = x * dw (S m) (S (m + S m)) x).
    { nra. }
    rewrite E. field. split; [assumption|lra].
Qed.

Lemma Qf_ode n m x :
  2 * (INR m + 1) * x * Qf n (S m) x - (1 - x ^ 2) * Qf n (S (S m)) x
  = (INR n + INR m + 1) * (INR n - INR m) * Qf n m x.
Proof.
  rewrite !Qf_dw. replace (n + S (S m))%nat with (S (S (n + m))) by lia.
  replace (n + S m)%nat with (S (n + m)) by lia.
  pose proof (dw_B n (n + m) x) as B. rewrite S_INR, plus_INR in B.
  pose proof (cw_neq n) as Hc.
  apply (Rmult_eq_reg_r (cw n)); [|exact Hc].
  transitivity (2 * (INR m + 1) * x * dw n (S (n + m)) x - (1 - x ^ 2) * dw n (S (S (n + m))) x).
  { field. exact Hc. }
  transitivity ((INR n + INR m + 1) * (INR n - INR m) * dw n (n + m) x); [lra|field; exact Hc].
Qed.

Lemma Qf_00 x : Qf 0 0 x = 1.
Proof. unfold Qf, legendre. cbn. field. Qed.

(** ** Normalisation *)
Definition norm (n m : nat) : R :=
  (if Nat.eqb m 0 then 1 else 2) * INR (fact (n - m)) / INR (fact (n + m)).

Lemma norm_pos n m : 0 < norm n m.
Proof.
  unfold norm. apply Rdiv_lt_0_compat; [|apply INR_fact_lt_0].
  apply Rmult_lt_0_compat; [destruct (Nat.eqb m 0); lra|apply INR_fact_lt_0].
Qed.

Lemma norm_up n m : (m <= n)%nat ->
  norm (S n) m * (INR (S n) + INR m) = norm n m * (INR (S n) - INR m).
Proof.
  intros H. unfold norm. replace (S n - m)%nat with (S (n - m)) by lia.
  cbn [Nat.add]. rewrite !fact_simpl, !mult_INR, !S_INR, minus_INR, plus_INR by assumption.
  pose proof (INR_fact_lt_0 (n + m)). pose proof (pos_INR n). pose proof (pos_INR m).
  field. lra.
Qed.

Lemma norm_diag m : norm (S m) (S m) * ((2 * INR m + 2) * (2 * INR m + 1)) = 2 * / INR (fact (m + m)).
Proof.
  unfold norm. replace (S m - S m)%nat with 0%nat by lia. cbn [Nat.eqb].
  replace (S m + S m)%nat with (S (S (m + m))) by lia.
  rewrite !fact_simpl, !mult_INR, !S_INR, plus_INR. cbn [fact INR].
  pose proof (INR_fact_lt_0 (m + m)). pose proof (pos_INR m). field. lra.
Qed.

Lemma norm_mm m : norm m m = (if Nat.eqb m 0 then 1 else 2) * / INR (fact (m + m)).
Proof. unfold norm. rewrite Nat.sub_diag. cbn [fact INR]. field. apply INR_fact_neq_0. Qed.

Lemma norm_m n m : (m < n)%nat ->
  norm n (S m) * ((INR n + INR m + 1) * (INR n - INR m)) = (if Nat.eqb m 0 then 2 else 1) * norm n m.
Proof.
  intros H. unfold norm. cbn [Nat.eqb].
  replace (n - m)%nat with (S (n - S m)) by lia. replace (n + S m)%nat with (S (n + m)) by lia.
  rewrite !fact_simpl, !mult_INR, !S_INR, minus_INR, plus_INR, S_INR by lia.
  pose proof (INR_fact_lt_0 (n + m)). pose proof (pos_INR n). pose proof (pos_INR m).
  destruct (Nat.eqb m 0); field; lra.
Qed.

Definition cn (n m : nat) : R := sqrt (norm n m).

Lemma schmidt_Q n m th : schmidt n m th = cn n m * sin th ^ m * Qf n m (cos th).
Proof. reflexivity. Qed.

(** a*sqrt u = b*sqrt v from squares *)
Lemma sqrt_scale_eq a u b v : 0 <= a -> 0 <= u -> 0 <= b -> 0 <= v ->
  a * a * u = b * b * v -> a * sqrt u = b * sqrt v.
Proof.
  intros Ha Hu Hb Hv E.
  rewrite <- (sqrt_square a Ha), <- (sqrt_square b Hb) at 1.
  rewrite <- !sqrt_mult; [f_equal; exact E| | | |]; try assumption; nra.
Qed.

Lemma sqrt2_eq u v s t : 0 <= u -> 0 <= v -> 0 <= s -> 0 <= t ->
  u * v = s * t -> sqrt u * sqrt v = sqrt s * sqrt t.
Proof. intros. rewrite <- !sqrt_mult by assumption. now f_equal. Qed.

Lemma sqrt3_eq u v a t : 0 <= u -> 0 <= v -> 0 <= a -> 0 <= t ->
  u * v = a * a * t -> sqrt u * sqrt v = a * sqrt t.
Proof.
  intros Hu Hv Ha Ht E. rewrite <- (sqrt_square a Ha) at 1.
  apply sqrt2_eq; try assumption. nra.
Qed.

Lemma sqrt1_eq u v s : 0 <= u -> 0 <= v -> 0 <= s -> u * v = s * s -> sqrt u * sqrt v = s.
Proof. intros. rewrite <- sqrt_mult by assumption. rewrite H2. now apply sqrt_square. Qed.

(** ** The recursions used by the code *)
Lemma schmidt_00 th : schmidt 0 0 th = 1.
Proof.
  rewrite schmidt_Q, Qf_00. unfold cn, norm. cbn. replace (1 * 1 / 1) with 1 by field. rewrite sqrt_1. ring.
Qed.

Lemma schmidt_11 th : schmidt 1 1 th = sin th.
Proof.
  rewrite schmidt_Q, Qf_diag, Qf_00. unfold cn.
  replace (norm 1 1) with 1 by (unfold norm; cbn; field). rewrite sqrt_1. cbn [INR pow]. ring.
Qed.

Lemma schmidt_sub m th :
  schmidt (S m) m th = cos th * (sqrt (INR (m + m + 1)) * schmidt m m th).
Proof.
  rewrite !schmidt_Q, Qf_sub.
  assert (E : (2 * INR m + 1) * cn (S m) m = sqrt (INR (m + m + 1)) * cn m m).
  { pose proof (pos_INR m). pose proof (norm_pos (S m) m). pose proof (norm_pos m m).
    pose proof (norm_up m m (le_n m)) as U. rewrite S_INR in U.
    unfold cn. rewrite <- (sqrt_square (2 * INR m + 1)) by lra.
    apply sqrt2_eq; try nra; rewrite !plus_INR; cbn [INR]; nra. }
  replace (cn (S m) m * sin th ^ m * ((2 * INR m + 1) * cos th * Qf m m (cos th)))
    with (((2 * INR m + 1) * cn (S m) m) * (sin th ^ m * cos th * Qf m m (cos th))) by ring.
  rewrite E. ring.
Qed.

Lemma schmidt_diag m th : (0 < m)%nat ->
  schmidt (S m) (S m) th = sin th * (sqrt (INR (m + m + 1)) * schmidt m m th) / sqrt (INR (m + m + 2)).
Proof.
  intros Hm. rewrite !schmidt_Q, Qf_diag.
  pose proof (pos_INR m). pose proof (norm_pos (S m) (S m)) as P1. pose proof (norm_pos m m) as P2.
  assert (E : sqrt (INR (m + m + 2)) * ((2 * INR m + 1) * cn (S m) (S m)) = sqrt (INR (m + m + 1)) * cn m m).
  { rewrite <- Rmult_assoc. unfold cn. pose proof (norm_diag m) as D.
    pose proof (norm_mm m) as N. destruct (Nat.eqb_spec m 0); [lia|]. rewrite <- N in D.
    rewrite <- (sqrt_square (2 * INR m + 1)) by lra.
    rewrite <- sqrt_mult; try nra; [|rewrite !plus_INR; cbn [INR]; lra].
    rewrite !plus_INR; cbn [INR].
    apply sqrt2_eq; try nra. }
  assert (S2 : 0 < sqrt (INR (m + m + 2))) by (apply sqrt_lt_R0; rewrite !plus_INR; cbn [INR]; lra).
  apply (Rmult_eq_reg_l (sqrt (INR (m + m + 2)))); [|lra].
  cbn [pow].
  transitivity ((sqrt (INR (m + m + 2)) * ((2 * INR m + 1) * cn (S m) (S m))) * (sin th * sin th ^ m * Qf m m (cos th))); [ring|].
  rewrite E. field. lra.
Qed.

Lemma schmidt_rec n m th : (m <= n)%nat ->
  let n2 := S (S n) in
  schmidt n2 m th =
  (INR (n2 + n2 - 1) * cos th * schmidt (S n) m th
   - sqrt (INR ((n2 * n2 - m * m) - (n2 + n2 - 1))) * schmidt n m th)
  / sqrt (INR (n2 * n2 - m * m)).
Proof.
  intros H n2. rewrite !schmidt_Q.
  pose proof (pos_INR m) as Pm. assert (Pn : INR m <= INR n) by (apply le_INR; exact H).
  assert (I1 : INR (n2 + n2 - 1) = 2 * INR (S n) + 1).
  { replace (n2 + n2 - 1)%nat with (2 * (S n) + 1)%nat by (unfold n2; lia).
    rewrite plus_INR, mult_INR. cbn [INR]. ring. }
  assert (I2 : INR (n2 * n2 - m * m) = (INR n2 - INR m) * (INR n2 + INR m)).
  { rewrite minus_INR by (unfold n2; nia). rewrite !mult_INR. ring. }
  assert (I3 : INR (n2 * n2 - m * m - (n2 + n2 - 1)) = (INR (S n) - INR m) * (INR (S n) + INR m)).
  { rewrite minus_INR by (unfold n2; nia). rewrite I2, I1. unfold n2. rewrite !S_INR. ring. }
  assert (E2 : INR n2 = INR n + 2) by (unfold n2; rewrite !S_INR; ring).
  assert (E1 : INR (S n) = INR n + 1) by apply S_INR.
  pose proof (norm_pos n2 m) as P2. pose proof (norm_pos (S n) m) as P1. pose proof (norm_pos n m) as P0.
  assert (U2 : sqrt (INR (n2 * n2 - m * m)) * cn n2 m = (INR n2 - INR m) * cn (S n) m).
  { rewrite I2. unfold cn.
    pose proof (norm_up (S n) m ltac:(lia)) as U. fold n2 in U.
    apply sqrt3_eq; [apply Rmult_le_pos; lra|lra|lra|lra|].
    transitivity ((INR n2 - INR m) * (norm n2 m * (INR n2 + INR m))); [ring|rewrite U; ring]. }
  assert (U1 : sqrt (INR (n2 * n2 - m * m - (n2 + n2 - 1))) * cn n m = (INR (S n) + INR m) * cn (S n) m).
  { rewrite I3. unfold cn.
    pose proof (norm_up n m ltac:(lia)) as U.
    apply sqrt3_eq; [apply Rmult_le_pos; lra|lra|lra|lra|].
    transitivity ((INR (S n) + INR m) * (norm n m * (INR (S n) - INR m))); [ring|rewrite <- U; ring]. }
  assert (Sp : 0 < sqrt (INR (n2 * n2 - m * m))) by (apply sqrt_lt_R0; rewrite I2; nra).
  apply (Rmult_eq_reg_l (sqrt (INR (n2 * n2 - m * m)))); [|lra].
  transitivity ((sqrt (INR (n2 * n2 - m * m)) * cn n2 m) * (sin th ^ m * Qf n2 m (cos th))); [ring|].
  rewrite U2. unfold n2 at 2.
  transitivity (cn (S n) m * sin th ^ m * ((INR n2 - INR m) * Qf (S (S n)) m (cos th))); [ring|].
  unfold n2 at 1. rewrite Qf_rec.
  transitivity (INR (n2 + n2 - 1) * cos th * (cn (S n) m * sin th ^ m * Qf (S n) m (cos th))
    - (sqrt (INR (n2 * n2 - m * m - (n2 + n2 - 1))) * cn n m) * (sin th ^ m * Qf n m (cos th))).
  - rewrite I1, U1. ring.
  - field. lra.
Qed.

(** ** Derivatives *)
Definition dschmidt (n m : nat) (th : R) : R :=
  match m with
  | O => - sqrt (INR (n * n + n) / 2) * schmidt n 1 th
  | 1%nat => (sqrt (INR (2 * (n * n + n))) * schmidt n 0 th
              - sqrt (INR (n * n + n - 2)) * schmidt n 2 th) / 2
  | _ => / 2 * (sqrt (INR ((n + m) * (n - m + 1))) * schmidt n (m - 1) th
                - sqrt (INR ((n + m + 1) * (n - m))) * schmidt n (m + 1) th)
  end.

Lemma smooth_legendre n : smooth (legendre n).
Proof.
  apply (smooth_ext (fun t => / cw n * Derive_n (w n) n t)).
  { intros t. change (/ cw n * Derive_n (w n) n t = Derive_n (w n) n t / cw n). field. apply cw_neq. }
  apply smooth_scal. intros k x. destruct k as [|k]; [exact I|]. cbn [ex_derive_n].
  apply (ex_derive_ext (Derive_n (w n) (k + n))).
  { intros t. symmetry. apply Derive_n_comp. }
  apply smooth_ex_derive, smooth_w.
Qed.

Lemma is_derive_Qf n m x : is_derive (Qf n m) x (Qf n (S m) x).
Proof. apply smooth_is_derive, smooth_legendre. Qed.

Lemma is_derive_schmidt_raw n m th :
  is_derive (schmidt n m) th
    (cn n m * (INR m * sin th ^ (pred m) * cos th * Qf n m (cos th)
               - sin th ^ (S m) * Qf n (S m) (cos th))).
Proof.
  apply (is_derive_ext (fun t => cn n m * (sin t ^ m * Qf n m (cos t)))).
  { intros t. change (@eq R (cn n m * (sin t ^ m * Qf n m (cos t))) (schmidt n m t)).
    rewrite schmidt_Q. ring. }
  apply is_derive_scalR.
  evar_last.
  - apply (is_derive_mult (fun t => sin t ^ m) (fun t => Qf n m (cos t)));
      [| |exact Rmult_comm].
    + apply is_derive_pow, is_derive_sin.
    + apply (is_derive_comp (Qf n m) cos); [apply is_derive_Qf|apply is_derive_cos].
  - unfold plus, mult, scal; cbn. unfold mult; cbn. ring.
Qed.

Lemma cn_gt n m : (n < m)%nat -> forall th, schmidt n m th = 0.
Proof. intros H th. rewrite schmidt_Q, Qf_0 by assumption. ring. Qed.

(** the factor relating order m and m+1 *)
Lemma cn_m n m : (m < n)%nat -> (0 < m)%nat ->
  sqrt ((INR n + INR m + 1) * (INR n - INR m)) * cn n (S m) = cn n m /\
  sqrt ((INR n + INR m + 1) * (INR n - INR m)) * cn n m = (INR n + INR m + 1) * (INR n - INR m) * cn n (S m).
Proof.
  intros H H0. pose proof (norm_m n m H) as N. destruct (Nat.eqb_spec m 0); [lia|].
  assert (A : 0 < (INR n + INR m + 1) * (INR n - INR m)).
  { pose proof (lt_INR m n H). pose proof (pos_INR m). nra. }
  pose proof (norm_pos n (S m)). pose proof (norm_pos n m).
  assert (E : sqrt ((INR n + INR m + 1) * (INR n - INR m)) * cn n (S m) = cn n m).
  { unfold cn. rewrite <- sqrt_mult by lra. f_equal. rewrite Rmult_comm, N. ring. }
  split; [exact E|]. rewrite <- E.
  rewrite <- Rmult_assoc, sqrt_sqrt by lra. ring.
Qed.

Lemma cn_0 n : (0 < n)%nat ->
  sqrt ((INR n + 1) * INR n / 2) * cn n 1 = cn n 0 /\
  sqrt (2 * ((INR n + 1) * INR n)) * cn n 0 = (INR n + 1) * INR n * cn n 1.
Proof.
  intros H. pose proof (norm_m n 0 H) as N. cbn [Nat.eqb INR] in N.
  pose proof (lt_0_INR n H) as Pn.
  pose proof (norm_pos n 1). pose proof (norm_pos n 0).
  assert (A : 0 < (INR n + 1) * INR n) by nra.
  assert (E : sqrt ((INR n + 1) * INR n / 2) * cn n 1 = cn n 0).
  { unfold cn. rewrite <- sqrt_mult by lra. f_equal. lra. }
  split; [exact E|]. rewrite <- E.
  rewrite <- Rmult_assoc, <- sqrt_mult by lra.
  replace (2 * ((INR n + 1) * INR n) * ((INR n + 1) * INR n / 2)) with
    (((INR n + 1) * INR n) * ((INR n + 1) * INR n)) by field.
  rewrite sqrt_square by lra. ring.
Qed.

Lemma INR_nm n m : (m <= n)%nat -> INR ((n + m + 1) * (n - m)) = (INR n + INR m + 1) * (INR n - INR m).
Proof. intros H. rewrite mult_INR, !plus_INR, minus_INR by assumption. cbn [INR]. ring. Qed.

Lemma cos_sin2 th : sin th ^ 2 = 1 - cos th ^ 2.
Proof. pose proof (sin2_cos2 th) as H. unfold Rsqr in H. lra. Qed.

Theorem is_derive_schmidt n m th : (m <= n)%nat -> (0 < n)%nat ->
  is_derive (schmidt n m) th (dschmidt n m th).
Proof.
  intros Hmn Hn. evar_last; [apply is_derive_schmidt_raw|].
  destruct m as [|[|m]].
  - (* m = 0 *)
    cbn [dschmidt]. rewrite schmidt_Q.
    destruct (cn_0 n Hn) as [E _].
    replace (INR (n * n + n) / 2) with ((INR n + 1) * INR n / 2) by (rewrite plus_INR, mult_INR; field).
    cbn [INR pow pred]. rewrite <- E. ring.
  - (* m = 1 *)
    cbn [dschmidt]. rewrite !schmidt_Q.
    destruct (cn_0 n Hn) as [_ E].
    pose proof (Qf_ode n 0 (cos th)) as O. cbn [INR] in O.
    replace (INR (2 * (n * n + n))) with (2 * ((INR n + 1) * INR n)) by (rewrite mult_INR, plus_INR, mult_INR; cbn [INR]; ring).
    assert (F : sqrt (INR (n * n + n - 2)) * (cn n 2 * Qf n 2 (cos th)) = cn n 1 * Qf n 2 (cos th)).
    { destruct (Nat.eq_dec n 1) as [->|Hne].
      - rewrite (Qf_0 1 2) by lia. ring.
      - destruct (cn_m n 1 ltac:(lia) ltac:(lia)) as [E1 _]. rewrite <- E1.
        replace (n * n + n - 2)%nat with ((n + 1 + 1) * (n - 1))%nat by nia.
        rewrite INR_nm by lia. ring. }
    cbn [INR pow pred] in *.
    replace (sqrt (INR (n * n + n - 2)) * (cn n 2 * (sin th * (sin th * 1)) * Qf n 2 (cos th)))
      with ((sin th * sin th) * (sqrt (INR (n * n + n - 2)) * (cn n 2 * Qf n 2 (cos th)))) by ring.
    rewrite F.
    replace (sqrt (2 * ((INR n + 1) * INR n)) * (cn n 0 * 1 * Qf n 0 (cos th)))
      with ((sqrt (2 * ((INR n + 1) * INR n)) * cn n 0) * Qf n 0 (cos th)) by ring.
    rewrite E. pose proof (cos_sin2 th) as CS. cbn [pow] in CS.
    replace ((INR n + 1) * INR n * cn n 1 * Qf n 0 (cos th)) with
       (cn n 1 * ((INR n + 0 + 1) * (INR n - 0) * Qf n 0 (cos th))) by ring.
    rewrite <- O.
    replace (1 - cos th * (cos th * 1)) with (sin th * (sin th * 1)) by lra. field.
  - (* m >= 2 *)
    cbn [dschmidt]. rewrite !schmidt_Q.
    set (M := S (S m)) in *.
    replace (M - 1)%nat with (S m) by (unfold M; lia).
    replace (M + 1)%nat with (S M) by lia.
    pose proof (Qf_ode n (S m) (cos th)) as O. fold M in O.
    replace (n - M + 1)%nat with (n - S m)%nat by (unfold M in *; lia).
    replace (n + M)%nat with (n + S m + 1)%nat by (unfold M; lia).
    rewrite INR_nm by (unfold M in *; lia).
    destruct (cn_m n (S m) ltac:(unfold M in *; lia) ltac:(lia)) as [_ E]. fold M in E.
    assert (F : sqrt (INR ((n + S m + 1 + 1) * (n - M))) * (cn n (S M) * Qf n (S M) (cos th)) = cn n M * Qf n (S M) (cos th)).
    { destruct (Nat.eq_dec n M) as [->|Hne].
      - rewrite (Qf_0 M (S M)) by lia. ring.
      - destruct (cn_m n M ltac:(lia) ltac:(lia)) as [E1 _]. rewrite <- E1.
        replace (n + S m + 1 + 1)%nat with (n + M + 1)%nat by (unfold M; lia).
        rewrite INR_nm by lia. ring. }
    transitivity (/ 2 * ((sqrt ((INR n + INR (S m) + 1) * (INR n - INR (S m))) * cn n (S m)) * (sin th ^ S m * Qf n (S m) (cos th))
       - (sqrt (INR ((n + S m + 1 + 1) * (n - M))) * (cn n (S M) * Qf n (S M) (cos th))) * sin th ^ S M)); [|ring].
    rewrite E, F.
    transitivity (/ 2 * cn n M * sin th ^ S m * ((INR n + INR (S m) + 1) * (INR n - INR (S m)) * Qf n (S m) (cos th)
         - sin th ^ 2 * Qf n (S M) (cos th))).
    2:{ unfold M. cbn [pow]. ring. }
    rewrite <- O, cos_sin2.
    replace (INR M) with (INR (S m) + 1) by (unfold M; rewrite (S_INR (S m)); reflexivity).
    replace (sin th ^ S M) with (sin th ^ S m * (1 - cos th ^ 2)).
    2:{ rewrite <- cos_sin2. unfold M. cbn [pow]. ring. }
    change (Init.Nat.pred M) with (S m). field.
Qed.
