(** Decimal years in double precision. *)
From Coq Require Import ZArith QArith Qround Reals Bool Lia Lra Psatz Zify ZifyBool.
From Flocq Require Import Core.
From Verif Require Import M_Prelude Spec_Calendar M_Time P_Time P_Calendar P_Time2 Spec_Float M_TimeF P_Float P_TimeF.
Open Scope R_scope.

Lemma mjd2000_ymd_f_jan1 y : year_ok y -> mjd2000_ymd_f y 1 1 = Ok (IZR (jan1 y)).
Proof.
  intros H. pose proof (jan1_range y H) as R0. unfold mjd2000_ymd_f.
  pose proof (mjd2000_f_val y 1 1 (mktod 0 0 0 0 0) (jan1 y) (jan1_valid y)) as E. cbn [hh mi ss us nns] in E. rewrite E.
  - change (tod_ns (mktod 0 0 0 0 0)) with 0%Z. rewrite Z.add_0_r.
    replace (jan1 y * day_ns)%Z with (32 * jan1 y * 2700000000000)%Z by (unfold day_ns; lia). rewrite fdays_dyadic by lia.
    apply (f_equal Ok). rewrite mult_IZR. lra.
  - exact (day_distance_dayno _ _ (jan1_valid 2000) (jan1_valid y)).
  - unfold in_clock. change (tod_ns (mktod 0 0 0 0 0)) with 0%Z. unfold day_ns. lia.
Qed.

Lemma floor_between x a b : IZR a <= x < IZR b -> (a <= Zfloor x < b)%Z.
Proof.
  intros [A B]. split; [apply Zfloor_lub, A|]. apply lt_IZR. eapply Rle_lt_trans; [apply Zfloor_lb|exact B].
Qed.

Lemma year_of_R x y : IZR (jan1 y) <= x < IZR (jan1 (y + 1)) -> np_year_of_days (Zfloor x + np_days 2000 1 1) = y.
Proof.
  intros H. apply floor_between in H. rewrite <- (Qfloor_Z (Zfloor x)). apply mjd_year_of; rewrite <- ?Zle_Qle, <- ?Zlt_Qlt; lia.
Qed.

Lemma year_exists x : IZR (-106651) <= x < IZR 106651 -> exists y, (1708 <= y <= 2291)%Z /\ IZR (jan1 y) <= x < IZR (jan1 (y + 1)).
Proof.
  intros H. apply floor_between in H. set (f := Zfloor x) in *.
  pose proof (year_of_mjd_spec (inject_Z f)) as S. destruct S as [S1 S2]. set (y := year_of_mjd (inject_Z f)) in *.
  rewrite <- Zle_Qle in S1. rewrite <- Zlt_Qlt in S2. exists y.
  assert (Y : (1708 <= y <= 2291)%Z).
  { split.
    - destruct (Z_lt_le_dec y 1708) as [L|]; [|assumption]. pose proof (jan1_mono (y + 1) 1708 ltac:(lia)) as M. change (jan1 1708) with (-106651)%Z in M. lia.
    - destruct (Z_lt_le_dec 2291 y) as [L|]; [|assumption]. pose proof (jan1_mono 2292 y ltac:(lia)) as M. change (jan1 2292) with 106651%Z in M. lia. }
  split; [exact Y|]. split; [eapply Rle_trans; [apply IZR_le, S1|apply Zfloor_lb]|].
  eapply Rlt_le_trans; [apply Zfloor_ub|]. rewrite <- plus_IZR. apply IZR_le. fold f. lia.
Qed.

Lemma L_range y : (365 <= days_per_year y <= 366)%Z.
Proof. unfold days_per_year. destruct (is_leap_year y); lia. Qed.

Lemma L_rangeR y : 365 <= IZR (days_per_year y) <= 366.
Proof. pose proof (L_range y). split; apply IZR_le; lia. Qed.

Lemma b37 : bpow radix2 (17 - 54) = / 137438953472. Proof. reflexivity. Qed.
Lemma b42 : bpow radix2 (12 - 54) = / 4398046511104. Proof. reflexivity. Qed.
Lemma b45 : bpow radix2 (9 - 54) = / 35184372088832. Proof. reflexivity. Qed.
Lemma b54 : bpow radix2 (0 - 54) = / 18014398509481984. Proof. reflexivity. Qed.

(** Rounding with an absolute error *)
Lemma rn_abs x e d : bpow radix2 (e - 54) = d -> (-1020 <= e)%Z -> Rabs x <= bpow radix2 e -> - d <= rn x - x <= d.
Proof. intros <- He Hx. apply Rabs_le_inv. apply rn_err; assumption. Qed.

(** *** mjd_to_dyear within year y *)
Definition to_dyear (y : Z) (x : R) : R := rn (IZR y + rn (rn (x - IZR (jan1 y)) / IZR (days_per_year y))).

Lemma mjd_to_dyear_f_val x y : year_ok y -> IZR (jan1 y) <= x < IZR (jan1 (y + 1)) -> mjd_to_dyear_f x None = Ok (to_dyear y x).
Proof.
  intros Y H. unfold mjd_to_dyear_f. rewrite (year_of_R x y H), mjd2000_ymd_f_jan1 by exact Y. reflexivity.
Qed.

Lemma to_dyear_spec x y : year_ok y -> IZR (jan1 y) <= x <= IZR (jan1 (y + 1)) ->
  IZR y <= to_dyear y x <= IZR (y + 1) /\
  Rabs (to_dyear y x - (IZR y + (x - IZR (jan1 y)) / IZR (days_per_year y))) <= 2.3e-13.
Proof.
  intros Y H. rewrite jan1_step, plus_IZR in H. unfold to_dyear. set (j := IZR (jan1 y)) in *. pose proof (L_rangeR y) as HL. set (L := IZR (days_per_year y)) in *.
  assert (DL : double L) by (apply double_int; pose proof (L_range y); lia).
  assert (Yb : 1708 <= IZR y <= 2292) by (destruct Y; split; apply IZR_le; assumption).
  set (a := x - j). assert (Ha : 0 <= a <= L) by (unfold a; lra).
  assert (P0 : 0 <= rn a) by (rewrite <- rn_0; apply rn_mono; lra).
  assert (P1 : rn a <= L) by (apply rn_le; [exact DL|lra]).
  assert (Q1 : - / 35184372088832 <= rn a - a <= / 35184372088832).
  { apply (rn_abs _ 9); [exact b45|lia|]. rewrite Rabs_pos_eq by lra. change (bpow radix2 9) with 512. lra. }
  set (q := rn a / L). assert (Hq : 0 <= q <= 1).
  { unfold q. split; [apply Rmult_le_pos; [exact P0|apply Rlt_le, Rinv_0_lt_compat; lra]|]. apply Rmult_le_reg_r with L; [lra|]. unfold Rdiv. rewrite Rmult_assoc, Rinv_l by lra. lra. }
  assert (P2 : 0 <= rn q) by (rewrite <- rn_0; apply rn_mono; lra).
  assert (D1 : double 1) by (apply (double_int 1); cbn; lia).
  assert (P3 : rn q <= 1) by (apply rn_le; [exact D1|lra]).
  assert (Q2 : - / 18014398509481984 <= rn q - q <= / 18014398509481984).
  { apply (rn_abs _ 0); [exact b54|lia|]. rewrite Rabs_pos_eq by lra. change (bpow radix2 0) with 1. lra. }
  assert (Dy : double (IZR y)) by (apply double_int; destruct Y; lia).
  assert (Dy1 : double (IZR (y + 1))) by (apply double_int; destruct Y; lia).
  assert (Q3 : - / 4398046511104 <= rn (IZR y + rn q) - (IZR y + rn q) <= / 4398046511104).
  { apply (rn_abs _ 12); [exact b42|lia|]. rewrite Rabs_pos_eq by lra. change (bpow radix2 12) with 4096. lra. }
  split.
  - split; [apply rn_ge; [exact Dy|lra]|apply rn_le; [exact Dy1|rewrite plus_IZR; lra]].
  - assert (Q4 : - (/ 35184372088832 / 365) <= q - a / L <= / 35184372088832 / 365).
    { replace (q - a / L) with ((rn a - a) * / L) by (unfold q, Rdiv; ring).
      assert (0 < / L <= / 365) by (split; [apply Rinv_0_lt_compat; lra|apply Rinv_le; lra]).
      split; unfold Rdiv; nra. }
    apply Rabs_le. lra.
Qed.

Lemma to_dyear_mono x1 x2 y : x1 <= x2 -> to_dyear y x1 <= to_dyear y x2.
Proof.
  intros H. unfold to_dyear. apply rn_mono. apply Rplus_le_compat_l, rn_mono. pose proof (L_rangeR y).
  apply Rmult_le_compat_r; [apply Rlt_le, Rinv_0_lt_compat; lra|]. apply rn_mono. lra.
Qed.

(** *** dyear_to_mjd within year y *)
Definition to_mjd (y : Z) (t : R) : R := rn (IZR (jan1 y) + rn (rn (t - IZR y) * IZR (days_per_year y))).

Lemma floor_year t y : IZR y <= t < IZR (y + 1) -> Zfloor t = y.
Proof. intros H. apply floor_between in H. lia. Qed.

Lemma dyear_to_mjd_f_val t y : year_ok y -> IZR y <= t < IZR (y + 1) -> dyear_to_mjd_f t None = Ok (to_mjd y t).
Proof.
  intros Y H. unfold dyear_to_mjd_f. rewrite (floor_year t y H), mjd2000_ymd_f_jan1 by exact Y. reflexivity.
Qed.

Lemma to_mjd_spec t y : year_ok y -> IZR y <= t <= IZR (y + 1) ->
  IZR (jan1 y) <= to_mjd y t <= IZR (jan1 (y + 1)) /\
  Rabs (to_mjd y t - (IZR (jan1 y) + (t - IZR y) * IZR (days_per_year y))) <= 7.4e-12.
Proof.
  intros Y H. rewrite plus_IZR in H. rewrite jan1_step. unfold to_mjd. pose proof (jan1_range y Y) as JR.
  assert (JR' : -106651 <= IZR (jan1 y) <= 106651) by (split; apply IZR_le; lia).
  assert (Dj : double (IZR (jan1 y))) by (apply double_int; lia).
  assert (Dj1 : double (IZR (jan1 y + days_per_year y))) by (apply double_int; pose proof (L_range y); lia).
  rewrite plus_IZR in *. set (j := IZR (jan1 y)) in *.
  pose proof (L_rangeR y) as HL. assert (DL : double (IZR (days_per_year y))) by (apply double_int; pose proof (L_range y); lia).
  set (L := IZR (days_per_year y)) in *.
  set (f := t - IZR y). assert (Hf : 0 <= f <= 1) by (unfold f; lra).
  assert (P0 : 0 <= rn f) by (rewrite <- rn_0; apply rn_mono; lra).
  assert (D1 : double 1) by (apply (double_int 1); cbn; lia).
  assert (P1 : rn f <= 1) by (apply rn_le; [exact D1|lra]).
  assert (Q1 : - / 18014398509481984 <= rn f - f <= / 18014398509481984).
  { apply (rn_abs _ 0); [exact b54|lia|]. rewrite Rabs_pos_eq by lra. change (bpow radix2 0) with 1. lra. }
  set (d := rn f * L). assert (Hd : 0 <= d <= L) by (unfold d; nra).
  assert (P2 : 0 <= rn d) by (rewrite <- rn_0; apply rn_mono; lra).
  assert (P3 : rn d <= L) by (apply rn_le; [exact DL|lra]).
  assert (Q2 : - / 35184372088832 <= rn d - d <= / 35184372088832).
  { apply (rn_abs _ 9); [exact b45|lia|]. rewrite Rabs_pos_eq by lra. change (bpow radix2 9) with 512. lra. }
  assert (Q3 : - / 137438953472 <= rn (j + rn d) - (j + rn d) <= / 137438953472).
  { apply (rn_abs _ 17); [exact b37|lia|]. change (bpow radix2 17) with 131072. apply Rabs_le. lra. }
  split.
  - split; [apply rn_ge; [exact Dj|lra]|apply rn_le; [exact Dj1|lra]].
  - assert (Q4 : - (366 * / 18014398509481984) <= d - f * L <= 366 * / 18014398509481984).
    { replace (d - f * L) with ((rn f - f) * L) by (unfold d; ring). split; nra. }
    apply Rabs_le. lra.
Qed.

Lemma to_mjd_mono t1 t2 y : t1 <= t2 -> to_mjd y t1 <= to_mjd y t2.
Proof.
  intros H. unfold to_mjd. apply rn_mono. apply Rplus_le_compat_l, rn_mono. pose proof (L_rangeR y).
  apply Rmult_le_compat_r; [lra|]. apply rn_mono. lra.
Qed.

Lemma to_mjd_start y : year_ok y -> to_mjd y (IZR y) = IZR (jan1 y).
Proof.
  intros Y. unfold to_mjd. rewrite Rminus_eq_0, rn_0, Rmult_0_l, rn_0, Rplus_0_r. apply rn_id, double_int. pose proof (jan1_range y Y). lia.
Qed.

Lemma to_dyear_start y : year_ok y -> to_dyear y (IZR (jan1 y)) = IZR y.
Proof.
  intros Y. unfold to_dyear. rewrite Rminus_eq_0, rn_0. unfold Rdiv. rewrite Rmult_0_l, rn_0, Rplus_0_r. apply rn_id, double_int. destruct Y. lia.
Qed.

(** ** The statements *)
Lemma mjd_round_trip_f x : -106651 <= x < 106651 ->
  exists t x', mjd_to_dyear_f x None = Ok t /\ dyear_to_mjd_f t None = Ok x' /\ Rabs (x' - x) <= 1e-10.
Proof.
  intros H. destruct (year_exists x H) as (y & Y & Hx).
  assert (Yo : year_ok y) by (unfold year_ok; lia). assert (Yo1 : year_ok (y + 1)) by (unfold year_ok; lia).
  destruct (to_dyear_spec x y Yo) as [S1 S2]; [split; [apply Hx|apply Rlt_le, Hx]|].
  exists (to_dyear y x). set (t := to_dyear y x) in *. pose proof (L_rangeR y) as HL.
  apply Rabs_le_inv in S2. set (w := (x - IZR (jan1 y)) / IZR (days_per_year y)) in *.
  assert (Ew : x = IZR (jan1 y) + w * IZR (days_per_year y)) by (unfold w; field; lra).
  destruct (Rle_lt_or_eq_dec _ _ (proj2 S1)) as [Lt|E].
  - exists (to_mjd y t). split; [apply mjd_to_dyear_f_val; assumption|]. split; [apply dyear_to_mjd_f_val; [exact Yo|split; [apply S1|exact Lt]]|].
    destruct (to_mjd_spec t y Yo S1) as [_ S3]. apply Rabs_le_inv in S3. rewrite Ew. apply Rabs_le.
    replace (to_mjd y t - (IZR (jan1 y) + w * IZR (days_per_year y))) with
      ((to_mjd y t - (IZR (jan1 y) + (t - IZR y) * IZR (days_per_year y))) + (t - (IZR y + w)) * IZR (days_per_year y)) by ring.
    nra.
  - exists (to_mjd (y + 1) t). split; [apply mjd_to_dyear_f_val; assumption|].
    split; [apply dyear_to_mjd_f_val; [exact Yo1|rewrite E; split; [lra|apply IZR_lt; lia]]|].
    rewrite E, to_mjd_start by exact Yo1. rewrite jan1_step, plus_IZR. rewrite E, plus_IZR in S2. rewrite Ew at 1. apply Rabs_le.
    replace (IZR (jan1 y) + IZR (days_per_year y) - (IZR (jan1 y) + w * IZR (days_per_year y))) with ((1 - w) * IZR (days_per_year y)) by ring.
    nra.
Qed.

Lemma dyear_round_trip_f t : 1708 <= t < 2292 ->
  exists x t', dyear_to_mjd_f t None = Ok x /\ mjd_to_dyear_f x None = Ok t' /\ Rabs (t' - t) <= 2.6e-13.
Proof.
  intros H. pose proof (floor_between t 1708 2292 H) as Y. set (y := Zfloor t) in *.
  assert (Yo : year_ok y) by (unfold year_ok; lia). assert (Yo1 : year_ok (y + 1)) by (unfold year_ok; lia).
  assert (Ht : IZR y <= t < IZR (y + 1)) by (split; [apply Zfloor_lb|rewrite plus_IZR; apply Zfloor_ub]).
  destruct (to_mjd_spec t y Yo) as [S1 S2]; [split; [apply Ht|apply Rlt_le, Ht]|].
  exists (to_mjd y t). set (x := to_mjd y t) in *. pose proof (L_rangeR y) as HL. apply Rabs_le_inv in S2.
  assert (I : 0 < / IZR (days_per_year y) <= / 365) by (split; [apply Rinv_0_lt_compat; lra|apply Rinv_le; lra]).
  assert (Ex : t = IZR y + (x - IZR (jan1 y)) / IZR (days_per_year y) - (x - (IZR (jan1 y) + (t - IZR y) * IZR (days_per_year y))) * / IZR (days_per_year y)) by (field; lra).
  assert (B : - (7.4e-12 / 365) <= (x - (IZR (jan1 y) + (t - IZR y) * IZR (days_per_year y))) * / IZR (days_per_year y) <= 7.4e-12 / 365) by (unfold Rdiv; split; nra).
  destruct (Rle_lt_or_eq_dec _ _ (proj2 S1)) as [Lt|E].
  - exists (to_dyear y x). split; [apply dyear_to_mjd_f_val; assumption|]. split; [apply mjd_to_dyear_f_val; [exact Yo|split; [apply S1|exact Lt]]|].
    destruct (to_dyear_spec x y Yo S1) as [_ S3]. apply Rabs_le_inv in S3. apply Rabs_le. lra.
  - exists (to_dyear (y + 1) x). split; [apply dyear_to_mjd_f_val; assumption|].
    split; [apply mjd_to_dyear_f_val; [exact Yo1|rewrite E; split; [lra|rewrite (jan1_step (y + 1)); apply IZR_lt; pose proof (L_range (y + 1)); lia]]|].
    rewrite E, to_dyear_start by exact Yo1.
    rewrite E in Ex at 1. rewrite jan1_step, plus_IZR in Ex. replace ((IZR (jan1 y) + IZR (days_per_year y) - IZR (jan1 y)) / IZR (days_per_year y)) with 1 in Ex by (field; lra).
    rewrite plus_IZR. apply Rabs_le. lra.
Qed.
