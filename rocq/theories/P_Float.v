(** Facts about rounding to double precision. *)
From Coq Require Import ZArith Reals Lia Lra Psatz.
From Flocq Require Import Core Relative.
From Verif Require Import Spec_Float.
Open Scope R_scope.

Local Notation fexp := (FLT_exp (-1074) 53).

Local Instance prec53 : Prec_gt_0 53. Proof. reflexivity. Qed.
Local Instance valid53 : Valid_exp fexp := FLT_exp_valid (-1074) 53.

Lemma powerRZ_bpow e : powerRZ 2 e = bpow radix2 e.
Proof. rewrite bpow_powerRZ. reflexivity. Qed.

Lemma double_format x : double x <-> generic_format radix2 fexp x.
Proof.
  split.
  - intros (m & e & -> & Hm & He). rewrite powerRZ_bpow. apply generic_format_FLT. exists (Float radix2 m e); [reflexivity|exact Hm|exact He].
  - intros H. apply FLT_format_generic in H; [|reflexivity]. destruct H as [[m e] -> Hm He]. exists m, e.
    split; [unfold F2R; cbn; rewrite powerRZ_bpow; reflexivity|]. split; assumption.
Qed.

Lemma rn_double x : double (rn x).
Proof. apply double_format. apply generic_format_round; typeclasses eauto. Qed.

Lemma rn_id x : double x -> rn x = x.
Proof. intros H. apply round_generic; [typeclasses eauto|]. apply double_format, H. Qed.

Lemma rn_mono x y : x <= y -> rn x <= rn y.
Proof. apply round_le; typeclasses eauto. Qed.

Lemma rn_ge x y : double x -> x <= y -> x <= rn y.
Proof. intros D H. rewrite <- (rn_id x D). apply rn_mono, H. Qed.

Lemma rn_le x y : double y -> x <= y -> rn x <= y.
Proof. intros D H. rewrite <- (rn_id y D). apply rn_mono, H. Qed.

Lemma bpow_lt_Z k (m : Z) : (0 <= k)%Z -> bpow radix2 k = IZR (2 ^ k).
Proof. intros. rewrite <- (IZR_Zpower radix2) by assumption. reflexivity. Qed.

Lemma double_scaled m e : (Z.abs m <= 2 ^ 53)%Z -> (-1074 <= e)%Z -> double (IZR m * powerRZ 2 e).
Proof.
  intros Hm He. destruct (Z.eq_dec (Z.abs m) (2 ^ 53)) as [Em|Nm].
  - exists (Z.sgn m), (e + 53)%Z. split; [|split; [destruct m; cbn; lia|lia]].
    rewrite !powerRZ_bpow, bpow_plus. rewrite (bpow_lt_Z 53 0) by lia. rewrite <- Em.
    rewrite (Rmult_comm (bpow radix2 e)), <- Rmult_assoc, <- mult_IZR. f_equal. f_equal. destruct m; cbn; lia.
  - exists m, e. split; [reflexivity|]. split; lia.
Qed.

Lemma double_int z : (Z.abs z <= 2 ^ 53)%Z -> double (IZR z).
Proof. intros H. replace (IZR z) with (IZR z * powerRZ 2 0) by (cbn; ring). apply double_scaled; lia. Qed.

(** Absolute error *)
Lemma rn_err x e : (-1020 <= e)%Z -> Rabs x <= bpow radix2 e -> Rabs (rn x - x) <= bpow radix2 (e - 54).
Proof.
  intros He Hx. destruct (Rle_lt_or_eq_dec _ _ Hx) as [Hl|Heq].
  - eapply Rle_trans; [apply error_le_half_ulp; typeclasses eauto|].
    replace (e - 54)%Z with (-1 + (e - 53))%Z by lia. rewrite bpow_plus. change (bpow radix2 (-1)) with (/ 2).
    apply Rmult_le_compat_l; [lra|]. destruct (Req_dec x 0) as [->|Nx].
    + rewrite ulp_FLT_0 by reflexivity. apply bpow_le. lia.
    + rewrite ulp_neq_0 by assumption. unfold cexp. apply bpow_le.
      assert ((mag radix2 x <= e)%Z) by (apply mag_le_bpow; assumption). unfold FLT_exp. lia.
  - rewrite rn_id; [rewrite Rminus_eq_0, Rabs_R0; apply bpow_ge_0|].
    apply double_format. destruct (Rcase_abs x) as [N|P].
    + rewrite Rabs_left in Heq by assumption. replace x with (- bpow radix2 e) by lra. apply generic_format_opp.
      apply generic_format_bpow. unfold FLT_exp. lia.
    + rewrite Rabs_right in Heq by assumption. rewrite Heq. apply generic_format_bpow. unfold FLT_exp. lia.
Qed.

(** Relative error *)
Lemma rn_rel x : bpow radix2 (-1022) <= Rabs x -> exists d, Rabs d <= bpow radix2 (-53) /\ rn x = x * (1 + d).
Proof.
  intros H. destruct (relative_error_N_FLT_ex radix2 (-1074) 53 ltac:(reflexivity) (fun z => negb (Z.even z)) x) as (d & Hd & E).
  - exact H.
  - exists d. split; [|exact E]. replace (bpow radix2 (-53)) with (/ 2 * bpow radix2 (- (53) + 1)); [exact Hd|].
    change (/2) with (bpow radix2 (-1)). rewrite <- bpow_plus. reflexivity.
Qed.

Lemma rn_0 : rn 0 = 0.
Proof. apply round_0. typeclasses eauto. Qed.

Lemma rn_opp x : rn (- x) = - rn x.
Proof.
  unfold rn. rewrite <- round_NE_opp. reflexivity.
Qed.

Lemma rn_rel_int z : exists d, Rabs d <= bpow radix2 (-53) /\ rn (IZR z) = IZR z * (1 + d).
Proof.
  destruct (Z.eq_dec z 0) as [->|N].
  - exists 0. rewrite rn_0, Rabs_R0. split; [apply bpow_ge_0|ring].
  - apply rn_rel. apply Rle_trans with 1; [change 1 with (bpow radix2 0); apply bpow_le; lia|]. rewrite <- abs_IZR. apply IZR_le. lia.
Qed.

(** Value of a rounding: m * 2^(e-53) is nearest when 2^(e-1) <= |x| < 2^e. *)
Lemma rn_eval x e m : (-1020 <= e)%Z -> bpow radix2 (e - 1) <= Rabs x < bpow radix2 e ->
  Rabs (x - IZR m * bpow radix2 (e - 53)) < bpow radix2 (e - 54) -> rn x = IZR m * bpow radix2 (e - 53).
Proof.
  intros He Hb Hm. unfold rn, round, F2R. cbn [Fnum Fexp].
  assert (C : cexp radix2 fexp x = (e - 53)%Z).
  { unfold cexp. rewrite (mag_unique radix2 x e Hb). unfold FLT_exp. lia. }
  rewrite C. f_equal. f_equal. apply Znearest_imp. unfold scaled_mantissa. rewrite C.
  replace (x * bpow radix2 (- (e - 53)) - IZR m) with ((x - IZR m * bpow radix2 (e - 53)) * bpow radix2 (- (e - 53))).
  2: { rewrite Rmult_minus_distr_r, Rmult_assoc, <- bpow_plus. replace (e - 53 + - (e - 53))%Z with 0%Z by lia. cbn [bpow]. ring. }
  rewrite Rabs_mult, (Rabs_pos_eq (bpow _ _)) by apply bpow_ge_0.
  replace (/ 2) with (bpow radix2 (e - 54) * bpow radix2 (- (e - 53))).
  2: { rewrite <- bpow_plus. replace (e - 54 + - (e - 53))%Z with (-1)%Z by lia. reflexivity. }
  apply Rmult_lt_compat_r; [apply bpow_gt_0|exact Hm].
Qed.
