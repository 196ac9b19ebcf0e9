(** Facts about accumulated rounding errors *)
From Coq Require Import ZArith Reals List Permutation Lia Lra Psatz.
From Flocq Require Import Core Relative Plus_error.
From Verif Require Import Spec_Float Spec_Rounding Spec_Field P_Float P_Synth.
Import ListNotations.
Open Scope R_scope.

Local Notation fexp := (FLT_exp (-1074) 53).
Local Instance prec53 : Prec_gt_0 53. Proof. reflexivity. Qed.
Local Instance valid53 : Valid_exp fexp := FLT_exp_valid (-1074) 53.

Lemma u_val : u = / 9007199254740992.
Proof. unfold u. rewrite powerRZ_bpow. reflexivity. Qed.
Lemma u_bpow : u = bpow radix2 (-53).
Proof. apply powerRZ_bpow. Qed.
Lemma u_pos : 0 < u < 1.
Proof. rewrite u_val. lra. Qed.
Lemma pw_pos k : 0 < (1 - u) ^ k.
Proof. apply pow_lt. pose proof u_pos. lra. Qed.
Lemma pw_le_1 k : (1 - u) ^ k <= 1.
Proof. pose proof u_pos as U. induction k as [|k IH]; cbn [pow]; [lra|]. pose proof (pw_pos k). nra. Qed.

Lemma Th_pos k q : roundings k q -> 0 < q.
Proof. intros [H _]. pose proof (pw_pos k). lra. Qed.
Lemma Th_0 k : roundings k 1.
Proof.
  split; [apply pw_le_1|]. rewrite <- Rinv_1 at 1. apply Rinv_le_contravar; [apply pw_pos|apply pw_le_1].
Qed.
Lemma Th_mono k k' q : (k <= k')%nat -> roundings k q -> roundings k' q.
Proof.
  intros H [A B]. assert (L : (1 - u) ^ k' <= (1 - u) ^ k).
  { replace k' with (k + (k' - k))%nat by lia. rewrite pow_add. rewrite <- (Rmult_1_r ((1 - u) ^ k)) at 2.
    apply Rmult_le_compat_l; [left; apply pw_pos|apply pw_le_1]. }
  split; [lra|]. eapply Rle_trans; [exact B|]. apply Rinv_le_contravar; [apply pw_pos|exact L].
Qed.
Lemma Th_mul k k' q q' : roundings k q -> roundings k' q' -> roundings (k + k') (q * q').
Proof.
  intros H H'. pose proof (Th_pos _ _ H). pose proof (Th_pos _ _ H'). destruct H, H'. unfold roundings. rewrite pow_add, Rinv_mult.
  pose proof (pw_pos k). pose proof (pw_pos k'). split; apply Rmult_le_compat; lra.
Qed.
Lemma Th_inv k q : roundings k q -> roundings k (/ q).
Proof.
  intros H. pose proof (Th_pos _ _ H). destruct H as [A B]. split.
  - rewrite <- (Rinv_inv ((1 - u) ^ k)). apply Rinv_le_contravar; assumption.
  - apply Rinv_le_contravar; [apply pw_pos|assumption].
Qed.
Lemma Th_pow k q n : roundings k q -> roundings (n * k) (q ^ n).
Proof. intros H. induction n as [|n IH]; [apply Th_0|]. cbn [pow Nat.mul]. apply Th_mul; assumption. Qed.
Lemma Th_delta d : Rabs d <= bpow radix2 (-53) -> roundings 1 (1 + d).
Proof.
  intros H. rewrite <- u_bpow in H. apply Rabs_le_inv in H. unfold roundings. rewrite pow_1. split; [lra|].
  pose proof u_pos. apply Rmult_le_reg_r with (1 - u); [lra|]. rewrite Rinv_l by lra. nra.
Qed.

Lemma near_refl k x : near k x x.
Proof. exists 1. split; [apply Th_0|ring]. Qed.
Lemma near_mono k k' x y : (k <= k')%nat -> near k x y -> near k' x y.
Proof. intros H (q & T & E). exists q. split; [apply (Th_mono k); assumption|exact E]. Qed.
Lemma near_trans k k' x y z : near k x y -> near k' y z -> near (k + k') x z.
Proof. intros (q & T & ->) (q' & T' & ->). exists (q * q'). split; [apply Th_mul; assumption|ring]. Qed.
Lemma near_mul k k' x y x' y' : near k x y -> near k' x' y' -> near (k + k') (x * x') (y * y').
Proof. intros (q & T & ->) (q' & T' & ->). exists (q * q'). split; [apply Th_mul; assumption|ring]. Qed.
Lemma near_inv k x y : near k x y -> near k (/ x) (/ y).
Proof. intros (q & T & ->). exists (/ q). split; [apply Th_inv, T|]. apply Rinv_mult. Qed.
Lemma near_div k k' x y x' y' : near k x y -> near k' x' y' -> near (k + k') (x / x') (y / y').
Proof. intros A B. apply near_mul; [exact A|]. apply near_inv, B. Qed.
Lemma near_pow k x y n : near k x y -> near (n * k) (x ^ n) (y ^ n).
Proof. intros (q & T & ->). exists (q ^ n). split; [apply Th_pow, T|apply Rpow_mult_distr]. Qed.
Lemma near_zero k y : near k 0 y -> y = 0.
Proof. intros (q & _ & ->). ring. Qed.
Lemma near_nonneg k x y : 0 <= x -> near k x y -> 0 <= y.
Proof. intros H (q & T & ->). apply Rmult_le_pos; [exact H|]. left. apply (Th_pos k), T. Qed.

(** One operation *)
Lemma near_rn x : normal x -> near 1 x (rn x).
Proof.
  intros [->|H]; [rewrite rn_0; apply near_refl|]. rewrite powerRZ_bpow in H.
  destruct (rn_rel x H) as (d & Hd & E). exists (1 + d). split; [apply Th_delta, Hd|exact E].
Qed.
Lemma near_plus x y : double x -> double y -> near 1 (x + y) (rn (x + y)).
Proof.
  intros Dx Dy. apply double_format in Dx, Dy.
  destruct (FLT_plus_error_N_ex radix2 (-1074) 53 (fun z => negb (Z.even z)) x y Dx Dy) as (d & Hd & E).
  exists (1 + d). split; [|exact E]. apply Th_delta. eapply Rle_trans; [exact Hd|].
  unfold u_ro. change (/ 2 * bpow radix2 (- (53) + 1)) with (/ 2 * bpow radix2 (-52)).
  cbn. lra.
Qed.

(** Sums of nonnegative numbers *)
Lemma near_add k x y x' y' : 0 <= x -> 0 <= x' -> near k x y -> near k x' y' -> near k (x + x') (y + y').
Proof.
  intros Hx Hx' (q & [A B] & ->) (q' & [A' B'] & ->). destruct (Req_dec (x + x') 0) as [Z|N].
  - assert (x = 0) by lra. assert (x' = 0) by lra. subst. exists 1. split; [apply Th_0|ring].
  - assert (P : 0 < x + x') by lra. exists ((x * q + x' * q') / (x + x')). split; [|field; lra].
    split.
    + apply Rmult_le_reg_r with (x + x'); [exact P|]. unfold Rdiv. rewrite Rmult_assoc, Rinv_l by lra. nra.
    + apply Rmult_le_reg_r with (x + x'); [exact P|]. unfold Rdiv. rewrite Rmult_assoc, Rinv_l by lra. nra.
Qed.
Lemma Rsum_nonneg l : List.Forall (fun x => 0 <= x) l -> 0 <= Rsum l.
Proof. intros H. induction H; unfold Rsum in *; cbn [fold_right]; lra. Qed.
Lemma Rsum_perm l l' : Permutation l l' -> Rsum l = Rsum l'.
Proof. intros H. induction H; unfold Rsum in *; cbn [fold_right]; lra. Qed.
Lemma fsum_near l s : fsum l s -> List.Forall double l -> List.Forall (fun x => 0 <= x) l ->
  double s /\ 0 <= s /\ near (List.length l - 1) (Rsum l) s /\ l <> [].
Proof.
  intros H. induction H as [x|l1 l2 l s1 s2 H1 IH1 H2 IH2 P]; intros D N.
  - inversion D; inversion N; subst. split; [assumption|]. split; [assumption|]. split; [|discriminate]. cbn. rewrite Rplus_0_r. apply near_refl.
  - assert (D' : List.Forall double (l1 ++ l2)) by (rewrite P; exact D).
    assert (N' : List.Forall (fun x => 0 <= x) (l1 ++ l2)) by (rewrite P; exact N).
    apply Forall_app in D'. apply Forall_app in N'. destruct D' as [D1 D2], N' as [N1 N2].
    destruct (IH1 D1 N1) as (Ds1 & Ns1 & E1 & F1). destruct (IH2 D2 N2) as (Ds2 & Ns2 & E2 & F2).
    split; [apply rn_double|]. split; [apply rn_ge; [apply (double_int 0); lia|lra]|]. split.
    + rewrite <- (Rsum_perm _ _ P), <- (Permutation_length P), app_length.
      replace (Rsum (l1 ++ l2)) with (Rsum l1 + Rsum l2) by (symmetry; apply Rsum_app).
      assert (List.length l1 <> 0%nat) by (destruct l1; [congruence|discriminate]).
      assert (List.length l2 <> 0%nat) by (destruct l2; [congruence|discriminate]).
      set (k := Nat.max (List.length l1 - 1) (List.length l2 - 1)).
      apply (near_mono (k + 1)); [lia|]. apply (near_trans k 1 _ (s1 + s2)).
      * apply near_add; [apply Rsum_nonneg, N1|apply Rsum_nonneg, N2| |]; (eapply near_mono; [|eassumption]); lia.
      * apply near_plus; assumption.
    + intros ->. apply Permutation_sym, Permutation_nil in P. destruct l1; [congruence|discriminate].
Qed.

(** What near means as a relative error *)
Lemma bernoulli k x : 0 <= x <= 1 -> 1 - INR k * x <= (1 - x) ^ k.
Proof.
  intros H. induction k as [|k IH]; [cbn; lra|]. rewrite S_INR. cbn [pow].
  assert (0 <= (1 - x) ^ k) by (apply pow_le; lra).
  assert (0 <= INR k) by apply pos_INR. nra.
Qed.
Lemma near_err k x y : INR k <= 1000000 -> near k x y -> Rabs (y - x) <= 1.2e-16 * INR k * Rabs x.
Proof.
  intros Hk (q & [A B] & ->). replace (x * q - x) with (x * (q - 1)) by ring. rewrite Rabs_mult, Rmult_comm.
  apply Rmult_le_compat_r; [apply Rabs_pos|].
  pose proof (bernoulli k u ltac:(pose proof u_pos; lra)) as Be.
  assert (K0 : 0 <= INR k) by apply pos_INR.
  set (p := (1 - u) ^ k) in *. apply Rabs_le.
  rewrite u_val in Be. rename Be into P.
  assert (P0 : 0.9 <= p) by lra.
  assert (p <= 1) by apply pw_le_1.
  assert (I : / p <= 1 + 1.2e-16 * INR k).
  { apply Rmult_le_reg_r with p; [lra|]. rewrite Rinv_l by lra. nra. }
  lra.
Qed.
