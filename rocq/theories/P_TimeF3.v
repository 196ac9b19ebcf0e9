(** Double precision: order, calendar year, 365.25 days, counterexamples. *)
From Coq Require Import ZArith Reals Bool Lia Lra Psatz Zify ZifyBool.
From Flocq Require Import Core.
From Verif Require Import M_Prelude Spec_Calendar M_Time P_Time P_Calendar P_Time2 Spec_Float M_TimeF P_Float P_TimeF P_TimeF2.
Open Scope R_scope.

Lemma mjd_to_dyear_f_mono x1 x2 : -106651 <= x1 -> x1 <= x2 -> x2 < 106651 ->
  exists t1 t2, mjd_to_dyear_f x1 None = Ok t1 /\ mjd_to_dyear_f x2 None = Ok t2 /\ t1 <= t2.
Proof.
  intros A H B. destruct (year_exists x1 ltac:(lra)) as (y1 & Y1 & H1). destruct (year_exists x2 ltac:(lra)) as (y2 & Y2 & H2).
  assert (O1 : year_ok y1) by (unfold year_ok; lia). assert (O2 : year_ok y2) by (unfold year_ok; lia).
  exists (to_dyear y1 x1), (to_dyear y2 x2). split; [apply mjd_to_dyear_f_val; assumption|]. split; [apply mjd_to_dyear_f_val; assumption|].
  destruct (Z.lt_trichotomy y1 y2) as [L|[E|G]].
  - apply Rle_trans with (IZR (y1 + 1)); [apply (to_dyear_spec x1 y1 O1); lra|].
    apply Rle_trans with (IZR y2); [apply IZR_le; lia|apply (to_dyear_spec x2 y2 O2); lra].
  - subst y2. apply to_dyear_mono, H.
  - exfalso. pose proof (jan1_mono (y2 + 1) y1 ltac:(lia)) as M. apply IZR_le in M. lra.
Qed.

Lemma dyear_to_mjd_f_mono t1 t2 : 1708 <= t1 -> t1 <= t2 -> t2 < 2293 ->
  exists x1 x2, dyear_to_mjd_f t1 None = Ok x1 /\ dyear_to_mjd_f t2 None = Ok x2 /\ x1 <= x2.
Proof.
  intros A H B. pose proof (floor_between t1 1708 2293 ltac:(lra)) as Y1. pose proof (floor_between t2 1708 2293 ltac:(lra)) as Y2.
  set (y1 := Zfloor t1) in *. set (y2 := Zfloor t2) in *.
  assert (O1 : year_ok y1) by (unfold year_ok; lia). assert (O2 : year_ok y2) by (unfold year_ok; lia).
  assert (H1 : IZR y1 <= t1 < IZR (y1 + 1)) by (split; [apply Zfloor_lb|rewrite plus_IZR; apply Zfloor_ub]).
  assert (H2 : IZR y2 <= t2 < IZR (y2 + 1)) by (split; [apply Zfloor_lb|rewrite plus_IZR; apply Zfloor_ub]).
  exists (to_mjd y1 t1), (to_mjd y2 t2). split; [apply dyear_to_mjd_f_val; assumption|]. split; [apply dyear_to_mjd_f_val; assumption|].
  destruct (Z.lt_trichotomy y1 y2) as [L|[E|G]].
  - apply Rle_trans with (IZR (jan1 (y1 + 1))); [apply (to_mjd_spec t1 y1 O1); lra|].
    apply Rle_trans with (IZR (jan1 y2)); [apply IZR_le, jan1_mono; lia|apply (to_mjd_spec t2 y2 O2); lra].
  - rewrite <- E in *. apply to_mjd_mono, H.
  - exfalso. assert (M : (y2 + 1 <= y1)%Z) by lia. apply IZR_le in M. lra.
Qed.

(** the calendar: k days after 2000-01-01 is a date of year y *)
Lemma year_of_date d k : valid_date d -> day_distance (mkdate 2000 1 1) d k ->
  (jan1 (yr d) <= k < jan1 (yr d + 1))%Z.
Proof.
  intros V H. apply day_distance_unique in H; [|apply jan1_valid|exact V]. change (dayno (mkdate 2000 1 1)) with 10957%Z in H.
  pose proof (np_days_in_year d V) as [A B]. unfold jan1. rewrite np_days_year. unfold dayno in *. lia.
Qed.

Lemma date_of_year y k : year_ok y -> day_distance (mkdate 2000 1 1) (mkdate y 1 1) k -> k = jan1 y.
Proof. intros Y H. apply day_distance_unique in H; [exact H|apply jan1_valid|apply jan1_valid]. Qed.

Lemma calendar_year_f x d : -106651 <= x < 106651 -> valid_date d -> day_distance (mkdate 2000 1 1) d (Zfloor x) ->
  exists t, mjd_to_dyear_f x None = Ok t /\
    (Zfloor t = yr d \/ (t = IZR (yr d + 1) /\ exists k, day_distance (mkdate 2000 1 1) (mkdate (yr d + 1) 1 1) k /\ IZR k - 1e-10 <= x)).
Proof.
  intros H V D. pose proof (year_of_date d _ V D) as K. destruct (year_exists x H) as (y & Y & Hx).
  assert (E : yr d = y).
  { pose proof (floor_between x _ _ Hx) as F.
    destruct (Z.lt_trichotomy (yr d) y) as [L|[E|G]]; [|exact E|].
    - pose proof (jan1_mono (yr d + 1) y ltac:(lia)). lia.
    - pose proof (jan1_mono (y + 1) (yr d) ltac:(lia)). lia. }
  rewrite E. assert (O : year_ok y) by (unfold year_ok; lia).
  exists (to_dyear y x). split; [apply mjd_to_dyear_f_val; assumption|].
  destruct (to_dyear_spec x y O ltac:(lra)) as [S1 S2]. destruct (Rle_lt_or_eq_dec _ _ (proj2 S1)) as [Lt|Et].
  - left. apply floor_year. split; [apply S1|exact Lt].
  - right. split; [exact Et|]. exists (jan1 (y + 1)). split; [exact (day_distance_dayno _ _ (jan1_valid 2000) (jan1_valid (y + 1)))|].
    rewrite Et, plus_IZR in S2. apply Rabs_le_inv in S2. rewrite jan1_step, plus_IZR. pose proof (L_rangeR y) as HL.
    set (w := (x - IZR (jan1 y)) / IZR (days_per_year y)) in *.
    assert (Ew : x = IZR (jan1 y) + w * IZR (days_per_year y)) by (unfold w; field; lra).
    rewrite Ew. assert (1 - w <= 2.3e-13) by lra. nra.
Qed.

Lemma january_f y k : (1708 <= y <= 2291)%Z -> day_distance (mkdate 2000 1 1) (mkdate y 1 1) k ->
  mjd_to_dyear_f (IZR k) None = Ok (IZR y) /\ dyear_to_mjd_f (IZR y) None = Ok (IZR k).
Proof.
  intros Y H. assert (O : year_ok y) by (unfold year_ok; lia). rewrite (date_of_year y k O H). split.
  - rewrite (mjd_to_dyear_f_val _ y O).
    + rewrite to_dyear_start by exact O. reflexivity.
    + rewrite jan1_step, plus_IZR. pose proof (L_rangeR y). lra.
  - rewrite (dyear_to_mjd_f_val _ y O).
    + rewrite to_mjd_start by exact O. reflexivity.
    + rewrite plus_IZR. lra.
Qed.

(** ** 365.25 days per year *)
Lemma b33 : bpow radix2 (21 - 54) = / 8589934592. Proof. reflexivity. Qed.
Lemma b41 : bpow radix2 (13 - 54) = / 2199023255552. Proof. reflexivity. Qed.

Lemma affine_dyear_f t : -2000 <= t <= 6000 ->
  exists x t', dyear_to_mjd_f t (Some false) = Ok x /\ mjd_to_dyear_f x (Some false) = Ok t' /\
    Rabs (x - (t - 2000) * 365.25) <= 2.1e-10 /\ Rabs (t' - t) <= 1.5e-12.
Proof.
  intros H. unfold dyear_to_mjd_f, mjd_to_dyear_f.
  exists (rn (rn (t - 2000) * 365.25)). set (a := t - 2000).
  assert (Ha : -4000 <= a <= 4000) by (unfold a; lra).
  assert (Q1 : - / 4398046511104 <= rn a - a <= / 4398046511104).
  { apply (rn_abs _ 12); [exact b42|lia|]. change (bpow radix2 12) with 4096. apply Rabs_le. lra. }
  set (b := rn a * 365.25).
  assert (Q2 : - / 8589934592 <= rn b - b <= / 8589934592).
  { apply (rn_abs _ 21); [exact b33|lia|]. change (bpow radix2 21) with 2097152. unfold b. apply Rabs_le. lra. }
  set (x := rn b) in *. exists (rn (rn (x / 365.25) + 2000)). split; [reflexivity|]. split; [reflexivity|].
  assert (E1 : - 2.1e-10 <= x - a * 365.25 <= 2.1e-10) by (unfold b in Q2; lra).
  split; [apply Rabs_le; lra|].
  set (c := x / 365.25). assert (Hc : a - 5.8e-13 <= c <= a + 5.8e-13) by (unfold c; lra).
  assert (Q3 : - / 4398046511104 <= rn c - c <= / 4398046511104).
  { apply (rn_abs _ 12); [exact b42|lia|]. change (bpow radix2 12) with 4096. apply Rabs_le. lra. }
  assert (Q4 : - / 2199023255552 <= rn (rn c + 2000) - (rn c + 2000) <= / 2199023255552).
  { apply (rn_abs _ 13); [exact b41|lia|]. change (bpow radix2 13) with 8192. apply Rabs_le. lra. }
  unfold a in *. apply Rabs_le. lra.
Qed.

Lemma affine_mjd_f x : -1400000 <= x <= 1400000 ->
  exists t x', mjd_to_dyear_f x (Some false) = Ok t /\ dyear_to_mjd_f t (Some false) = Ok x' /\
    Rabs (t - (2000 + x / 365.25)) <= 7e-13 /\ Rabs (x' - x) <= 5e-10.
Proof.
  intros H. unfold dyear_to_mjd_f, mjd_to_dyear_f.
  exists (rn (rn (x / 365.25) + 2000)). set (c := x / 365.25). assert (Hc : -3833 <= c <= 3833) by (unfold c; lra).
  assert (Q3 : - / 4398046511104 <= rn c - c <= / 4398046511104).
  { apply (rn_abs _ 12); [exact b42|lia|]. change (bpow radix2 12) with 4096. apply Rabs_le. lra. }
  assert (Q4 : - / 2199023255552 <= rn (rn c + 2000) - (rn c + 2000) <= / 2199023255552).
  { apply (rn_abs _ 13); [exact b41|lia|]. change (bpow radix2 13) with 8192. apply Rabs_le. lra. }
  set (t := rn (rn c + 2000)) in *. exists (rn (rn (t - 2000) * 365.25)). split; [reflexivity|]. split; [reflexivity|].
  split; [apply Rabs_le; lra|].
  set (a := t - 2000).
  assert (Q1 : - / 4398046511104 <= rn a - a <= / 4398046511104).
  { apply (rn_abs _ 12); [exact b42|lia|]. change (bpow radix2 12) with 4096. unfold a. apply Rabs_le. lra. }
  set (b := rn a * 365.25).
  assert (Q2 : - / 8589934592 <= rn b - b <= / 8589934592).
  { apply (rn_abs _ 21); [exact b33|lia|]. change (bpow radix2 21) with 2097152. unfold b, a in *. apply Rabs_le. lra. }
  unfold b, a, c in *. apply Rabs_le. lra.
Qed.

(** ** Counterexamples to exact statements *)

(** 2100-01-01 and one nanosecond later *)
Lemma same_value : fdays (36525 * day_ns) = fdays (36525 * day_ns + 1).
Proof.
  unfold fdays. do 2 f_equal. change (36525 * day_ns)%Z with 3155760000000000000%Z. change (3155760000000000000 + 1)%Z with 3155760000000000001%Z.
  transitivity (IZR 6163593750000000 * bpow radix2 (62 - 53)).
  - apply rn_eval; [lia| |]; change (bpow radix2 (62 - 53)) with 512; change (bpow radix2 (62 - 54)) with 256;
      change (bpow radix2 (62 - 1)) with 2305843009213693952; change (bpow radix2 62) with 4611686018427387904; rewrite ?Rabs_pos_eq by lra; lra.
  - symmetry. apply rn_eval; [lia| |]; change (bpow radix2 (62 - 53)) with 512; change (bpow radix2 (62 - 54)) with 256;
      change (bpow radix2 (62 - 1)) with 2305843009213693952; change (bpow radix2 62) with 4611686018427387904; rewrite ?Rabs_pos_eq by lra; lra.
Qed.

(** the last double before 2001-01-01 (366 days after 2000-01-01) *)
Lemma early_new_year : let x := 366 - / 17592186044416 in double x /\ mjd_to_dyear_f x None = Ok 2001.
Proof.
  cbv zeta. assert (B : bpow radix2 (-44) = / 17592186044416) by reflexivity.
  assert (D : double (366 - / 17592186044416)).
  { replace (366 - / 17592186044416) with (IZR (366 * 17592186044416 - 1) * powerRZ 2 (-44)).
    - apply double_scaled; lia.
    - rewrite powerRZ_bpow, B, minus_IZR, mult_IZR. field. }
  split; [exact D|].
  assert (O : year_ok 2000) by (unfold year_ok; lia).
  rewrite (mjd_to_dyear_f_val _ 2000 O).
  2: { change (jan1 2000) with 0%Z. change (jan1 (2000 + 1)) with 366%Z. lra. }
  f_equal. unfold to_dyear. change (jan1 2000) with 0%Z. change (days_per_year 2000) with 366%Z. rewrite Rminus_0_r, (rn_id _ D).
  assert (E : rn ((366 - / 17592186044416) / 366) = IZR 9007199254740991 * bpow radix2 (0 - 53)).
  { apply rn_eval; [lia| |]; change (bpow radix2 (0 - 53)) with (/ 9007199254740992); change (bpow radix2 (0 - 54)) with (/ 18014398509481984);
      change (bpow radix2 (0 - 1)) with (/ 2); change (bpow radix2 0) with 1.
    - rewrite Rabs_pos_eq; lra.
    - apply Rabs_def1; lra. }
  rewrite E. change (bpow radix2 (0 - 53)) with (/ 9007199254740992).
  transitivity (IZR 8800491068719104 * bpow radix2 (11 - 53)).
  - apply rn_eval; [lia| |]; change (bpow radix2 (11 - 53)) with (/ 4398046511104); change (bpow radix2 (11 - 54)) with (/ 8796093022208);
      change (bpow radix2 (11 - 1)) with 1024; change (bpow radix2 11) with 2048.
    + rewrite Rabs_pos_eq; lra.
    + apply Rabs_def1; lra.
  - change (bpow radix2 (11 - 53)) with (/ 4398046511104). lra.
Qed.

(** 2003-05-03 13:52:15, the example of the documentation *)
Lemma docstring_instant : stamp_ns (fdays 105285135000000000) = 105285134999999984%Z.
Proof.
  unfold stamp_ns, fdays.
  assert (E1 : rn (IZR 105285135000000000) = IZR 105285135000000000).
  { apply rn_id. replace (IZR 105285135000000000) with (IZR 205635029296875 * powerRZ 2 9).
    - apply double_scaled; lia.
    - rewrite powerRZ_bpow, (bpow_lt_Z 9 0) by lia. rewrite <- mult_IZR. reflexivity. }
  rewrite E1. change (IZR day_ns) with 86400000000000.
  assert (E2 : rn (105285135000000000 / 86400000000000) = IZR 5359362507614162 * bpow radix2 (11 - 53)).
  { apply rn_eval; [lia| |]; change (bpow radix2 (11 - 53)) with (/ 4398046511104); change (bpow radix2 (11 - 54)) with (/ 8796093022208);
      change (bpow radix2 (11 - 1)) with 1024; change (bpow radix2 11) with 2048.
    - rewrite Rabs_pos_eq; lra.
    - apply Rabs_def1; lra. }
  rewrite E2. change (bpow radix2 (11 - 53)) with (/ 4398046511104).
  assert (E3 : rn (IZR 5359362507614162 * / 4398046511104 * 86400000000000) = IZR 6580320937499999 * bpow radix2 (57 - 53)).
  { apply rn_eval; [lia| |]; change (bpow radix2 (57 - 53)) with 16; change (bpow radix2 (57 - 54)) with 8;
      change (bpow radix2 (57 - 1)) with 72057594037927936; change (bpow radix2 57) with 144115188075855872.
    - rewrite Rabs_pos_eq; lra.
    - apply Rabs_def1; lra. }
  rewrite E3. change (bpow radix2 (57 - 53)) with (IZR 16). rewrite <- mult_IZR, Ztrunc_IZR. reflexivity.
Qed.
