(** mjd2000 and timestamp in double precision. *)
From Coq Require Import ZArith Reals Bool Lia Lra Psatz Zify ZifyBool.
From Flocq Require Import Core.
From Verif Require Import M_Prelude Spec_Calendar M_Time P_Time P_Time2 Spec_Float M_TimeF P_Float.
Open Scope R_scope.

(** The double nearest to z nanoseconds, in days *)
Definition fdays (z : Z) : R := rn (rn (IZR z) / IZR day_ns).

Lemma D_double : double (IZR day_ns).
Proof. apply double_int. vm_compute. discriminate. Qed.

Lemma D_pos : 0 < IZR day_ns. Proof. apply IZR_lt. reflexivity. Qed.

Lemma mjd2000_f_val y m d t k : valid_date (mkdate y m d) -> day_distance (mkdate 2000 1 1) (mkdate y m d) k -> in_clock k t ->
  mjd2000_f y m d (hh t) (mi t) (ss t) (us t) (nns t) = Ok (fdays (k * day_ns + tod_ns t)).
Proof.
  intros V Hk Hc. unfold mjd2000_f, datetime_ns. rewrite (np_parse_ok _ _ _ V). cbn [bind].
  unfold ns_to_mjd_f, fdays. change ns_per_day with day_ns. rewrite (rn_id (IZR day_ns)) by apply D_double.
  do 5 f_equal. apply day_distance_unique in Hk; [|split; cbn; lia|exact V].
  unfold dayno in Hk; cbn [yr mo dy] in Hk. change (np_days 2000 1 1) with 10957%Z in Hk.
  unfold in_clock in Hc. rewrite <- (wrap64_id (k * day_ns + tod_ns t)) by exact Hc. apply wrap64_eq. rewrite epoch2000_val.
  repeat match goal with
  | |- context [wrap64 ?a] =>
      match a with
      | context [wrap64 _] => fail 1
      | _ => let k := fresh "k" in let E := fresh "E" in
             destruct (wrap64_mod a) as [k E]; rewrite E; clear E
      end
  end.
  replace (np_days y m d) with (k + 10957)%Z by lia. unfold tod_ns, day_ns, ns_per_day. 
  exists (k0 + k1 + k2 + k3 + k4 + k5 + k6 + k7 + k8 + k9 + k10)%Z. lia.
Qed.

Lemma u53 : bpow radix2 (-53) = / 9007199254740992.
Proof. cbn. reflexivity. Qed.

Lemma rel2 x y z u : Rabs y <= u -> Rabs z <= u -> x * (1 + y) * (1 + z) - x = x * (y + z + y * z) /\ Rabs (y + z + y * z) <= 2 * u + u * u.
Proof.
  intros Hy Hz. split; [ring|]. pose proof (Rabs_pos y). pose proof (Rabs_pos z).
  eapply Rle_trans; [apply Rabs_triang|]. rewrite Rabs_mult.
  pose proof (Rabs_triang y z). nra.
Qed.

(** division *)
Lemma fdays_rel z : exists d1 d2, Rabs d1 <= bpow radix2 (-53) /\ Rabs d2 <= bpow radix2 (-53) /\
  fdays z = IZR z / IZR day_ns * (1 + d1) * (1 + d2).
Proof.
  destruct (rn_rel_int z) as (d1 & H1 & E1). unfold fdays. rewrite E1. pose proof D_pos as P.
  destruct (Z.eq_dec z 0) as [->|N].
  - exists 0, 0. rewrite Rabs_R0. split; [apply bpow_ge_0|]. split; [apply bpow_ge_0|].
    replace (0 * (1 + d1) / IZR day_ns) with 0 by (field; lra). rewrite rn_0. field. lra.
  - destruct (rn_rel (IZR z * (1 + d1) / IZR day_ns)) as (d2 & H2 & E2).
    + unfold Rdiv. rewrite !Rabs_mult, <- abs_IZR. rewrite (Rabs_pos_eq (/ IZR day_ns)) by (apply Rlt_le, Rinv_0_lt_compat, P).
      assert (A : 1 <= IZR (Z.abs z)) by (apply IZR_le; lia).
      assert (B : / 2 <= Rabs (1 + d1)).
      { rewrite u53 in H1. apply Rabs_le_inv in H1. rewrite Rabs_pos_eq; lra. }
      assert (Cc : bpow radix2 (-50) <= / IZR day_ns).
      { rewrite <- (Rinv_inv (bpow radix2 (-50))), <- bpow_opp. apply Rinv_le; [exact P|]. rewrite (bpow_lt_Z _ 0) by lia. apply IZR_le. vm_compute. discriminate. }
      apply Rle_trans with (1 * / 2 * bpow radix2 (-50)).
      * change (/ 2) with (bpow radix2 (-1)). rewrite Rmult_1_l, <- bpow_plus. apply bpow_le. lia.
      * apply Rmult_le_compat; [lra|apply bpow_ge_0| |exact Cc]. apply Rmult_le_compat; lra.
    + exists d1, d2. split; [exact H1|]. split; [exact H2|]. rewrite E2. field. lra.
Qed.

Lemma fdays_err z : Rabs (fdays z - IZR z / IZR day_ns) <= 2.3e-16 * Rabs (IZR z / IZR day_ns).
Proof.
  destruct (fdays_rel z) as (d1 & d2 & H1 & H2 & ->).
  destruct (rel2 (IZR z / IZR day_ns) d1 d2 _ H1 H2) as [-> B]. rewrite Rabs_mult, (Rmult_comm (2.3e-16)).
  apply Rmult_le_compat_l; [apply Rabs_pos|]. eapply Rle_trans; [exact B|]. rewrite u53. lra.
Qed.

Lemma fdays_mono z1 z2 : (z1 <= z2)%Z -> fdays z1 <= fdays z2.
Proof.
  intros H. unfold fdays. apply rn_mono. apply Rmult_le_compat_r; [apply Rlt_le, Rinv_0_lt_compat, D_pos|]. apply rn_mono, IZR_le, H.
Qed.

Lemma fdays_strict z1 z2 : (-2^63 <= z1)%Z -> (z2 < 2^63)%Z -> (z1 + 5000 <= z2)%Z -> fdays z1 < fdays z2.
Proof.
  intros A B H. pose proof (fdays_err z1) as E1. pose proof (fdays_err z2) as E2. pose proof D_pos as P.
  assert (K : forall z, (- 2^63 <= z <= 2^63)%Z -> Rabs (IZR z / IZR day_ns) <= IZR (2^63) / IZR day_ns).
  { intros z Hz. unfold Rdiv. rewrite Rabs_mult, (Rabs_pos_eq (/ _)) by (apply Rlt_le, Rinv_0_lt_compat, P).
    apply Rmult_le_compat_r; [apply Rlt_le, Rinv_0_lt_compat, P|]. rewrite <- abs_IZR. apply IZR_le. lia. }
  pose proof (K z1 ltac:(lia)) as K1. pose proof (K z2 ltac:(lia)) as K2.
  assert (G : IZR z1 / IZR day_ns + 5000 / IZR day_ns <= IZR z2 / IZR day_ns).
  { unfold Rdiv. rewrite <- Rmult_plus_distr_r. apply Rmult_le_compat_r; [apply Rlt_le, Rinv_0_lt_compat, P|]. rewrite <- plus_IZR. apply IZR_le. exact H. }
  apply Rabs_le_inv in E1. apply Rabs_le_inv in E2.
  assert (Q : 2 * (2.3e-16 * (IZR (2^63) / IZR day_ns)) < 5000 / IZR day_ns).
  { unfold Rdiv. rewrite <- !Rmult_assoc. apply Rmult_lt_compat_r; [apply Rinv_0_lt_compat, P|].
    change (2^63)%Z with 9223372036854775808%Z. lra. }
  lra.
Qed.

(** Multiples of 45 minutes are exact. *)
Lemma fdays_dyadic n : (Z.abs n <= 2^22)%Z -> fdays (n * 2700000000000) = IZR n / 32.
Proof.
  intros H. unfold fdays. rewrite (rn_id (IZR _)).
  - replace (IZR (n * 2700000000000) / IZR day_ns) with (IZR n / 32).
    + apply rn_id. replace (IZR n / 32) with (IZR n * powerRZ 2 (-5)) by (rewrite powerRZ_bpow; change (bpow radix2 (-5)) with (/ 32); reflexivity). apply double_scaled; lia.
    + rewrite mult_IZR. change (IZR day_ns) with 86400000000000. lra.
  - replace (IZR (n * 2700000000000)) with (IZR (n * 1318359375) * powerRZ 2 11).
    + apply double_scaled; lia.
    + rewrite powerRZ_bpow, (bpow_lt_Z 11 0) by lia. rewrite <- mult_IZR. f_equal. lia.
Qed.

(** ** timestamp *)
Definition stamp_ns (x : R) : Z := Ztrunc (rn (x * IZR day_ns)).

Lemma E_lit : 86400e9 = IZR day_ns.
Proof. change day_ns with 86400000000000%Z. lra. Qed.

Lemma timestamp_f_val x : (-2^63 < stamp_ns x < 2^63)%Z -> timestamp_f x = Some (wrap64 (stamp_ns x + epoch2000)).
Proof.
  intros H. unfold timestamp_f. rewrite E_lit, Rmult_1_r, (rn_id (rn _)) by apply rn_double. fold (stamp_ns x).
  replace ((- 2 ^ 63 <? stamp_ns x)%Z && (stamp_ns x <? 2 ^ 63)%Z) with true by lia. reflexivity.
Qed.

Lemma Ztrunc_close x : Rabs (IZR (Ztrunc x) - x) < 1.
Proof.
  unfold Ztrunc. destruct (Rlt_bool_spec x 0) as [N|P].
  - pose proof (Zceil_ub x). pose proof (Zceil_lb x). rewrite Rabs_pos_eq; lra.
  - pose proof (Zfloor_lb x). pose proof (Zfloor_ub x). rewrite Rabs_left1; lra.
Qed.

Lemma stamp_fdays_real z : Rabs (rn (fdays z * IZR day_ns) - IZR z) <= 3.4e-16 * Rabs (IZR z).
Proof.
  destruct (Z.eq_dec z 0) as [->|N].
  - unfold fdays. rewrite rn_0. unfold Rdiv. rewrite Rmult_0_l, rn_0, Rmult_0_l, rn_0, Rminus_0_r, Rabs_R0. lra.
  - destruct (fdays_rel z) as (d1 & d2 & H1 & H2 & ->). pose proof D_pos as P.
    replace (IZR z / IZR day_ns * (1 + d1) * (1 + d2) * IZR day_ns) with (IZR z * (1 + d1) * (1 + d2)) by (field; lra).
    assert (A : 1 <= Rabs (IZR z)) by (rewrite <- abs_IZR; apply IZR_le; lia).
    rewrite u53 in *. destruct (rn_rel (IZR z * (1 + d1) * (1 + d2))) as (d3 & H3 & E).
    + apply Rle_trans with (1 * / 2 * / 2).
      * change (/ 2) with (bpow radix2 (-1)). rewrite Rmult_1_l, <- bpow_plus. apply bpow_le. lia.
      * rewrite !Rabs_mult. apply Rabs_le_inv in H1. apply Rabs_le_inv in H2.
        rewrite (Rabs_pos_eq (1 + d1)), (Rabs_pos_eq (1 + d2)) by lra.
        apply Rmult_le_compat; try lra. apply Rmult_le_compat; lra.
    + rewrite E, u53 in *. destruct (rel2 (IZR z) d1 d2 _ H1 H2) as [E12 B12].
      set (e := d1 + d2 + d1 * d2) in *.
      replace (IZR z * (1 + d1) * (1 + d2) * (1 + d3) - IZR z) with (IZR z * (e + d3 + e * d3)) by (unfold e; ring).
      rewrite Rabs_mult, (Rmult_comm 3.4e-16). apply Rmult_le_compat_l; [apply Rabs_pos|].
      eapply Rle_trans; [apply Rabs_triang|]. eapply Rle_trans; [apply Rplus_le_compat_r, Rabs_triang|]. rewrite Rabs_mult.
      pose proof (Rabs_pos e). pose proof (Rabs_pos d3).
      assert (Rabs e * Rabs d3 <= (2 * / 9007199254740992 + / 9007199254740992 * / 9007199254740992) * / 9007199254740992) by (apply Rmult_le_compat; lra).
      lra.
Qed.

Lemma stamp_fdays z : Rabs (IZR (stamp_ns (fdays z)) - IZR z) < 1 + 3.4e-16 * Rabs (IZR z).
Proof.
  pose proof (stamp_fdays_real z) as A. pose proof (Ztrunc_close (rn (fdays z * IZR day_ns))) as B. fold (stamp_ns (fdays z)) in B.
  replace (IZR (stamp_ns (fdays z)) - IZR z) with ((IZR (stamp_ns (fdays z)) - rn (fdays z * IZR day_ns)) + (rn (fdays z * IZR day_ns) - IZR z)) by ring.
  eapply Rle_lt_trans; [apply Rabs_triang|]. lra.
Qed.

Lemma stamp_dyadic n : (Z.abs n <= 2^22)%Z -> stamp_ns (fdays (n * 2700000000000)) = (n * 2700000000000)%Z.
Proof.
  intros H. unfold stamp_ns. rewrite fdays_dyadic by exact H.
  replace (IZR n / 32 * IZR day_ns) with (IZR (n * 1318359375) * powerRZ 2 11).
  - rewrite rn_id by (apply double_scaled; lia). rewrite powerRZ_bpow, (bpow_lt_Z 11 0) by lia. rewrite <- mult_IZR, Ztrunc_IZR. lia.
  - rewrite powerRZ_bpow, (bpow_lt_Z 11 0) by lia. rewrite <- mult_IZR.
    replace (n * 1318359375 * 2 ^ 11)%Z with (n * 2700000000000)%Z by lia. rewrite mult_IZR. change (IZR day_ns) with 86400000000000. lra.
Qed.
