(** Proofs about decimal years and time stamps. *)
From Coq Require Import ZArith QArith Qround Qabs List Bool Lia Zify ZifyBool Lqa.
From Verif Require Import M_Prelude Spec_Calendar M_Time P_Time P_Calendar.
Import ListNotations.
Open Scope Z_scope.

(** ** January firsts *)
Definition year_ok (y : Z) : Prop := 1708 <= y <= 2292.

Lemma jan1_valid y : valid_date (mkdate y 1 1).
Proof. unfold valid_date, month_length; cbn; lia. Qed.

Definition jan1 (y : Z) : Z := np_days y 1 1 - 10957.

Lemma jan1_range y : year_ok y -> -106651 <= jan1 y <= 106651.
Proof.
  intros [H1 H2]. unfold jan1.
  pose proof (np_days_year_mono 1708 y H1). pose proof (np_days_year_mono y 2292 H2).
  change (np_days 1708 1 1) with (-95694) in *. change (np_days 2292 1 1) with 117608 in *. lia.
Qed.

Lemma mjd2000_jan1 y : year_ok y -> exists q, mjd2000_ymd y 1 1 = Ok q /\ (q == inject_Z (jan1 y))%Q.
Proof.
  intros H. pose proof (jan1_range y H) as R.
  unfold mjd2000_ymd.
  eexists; split; [exact (mjd2000_exact y 1 1 (mktod 0 0 0 0 0) (jan1_valid y))|].
  change (tod_ns _) with 0. rewrite Z.add_0_r. fold (jan1 y).
  rewrite wrap64_id by (unfold ns_per_day; lia).
  rewrite inject_Z_mult. field. discriminate.
Qed.

Lemma days_per_year_pos y : (0 < inject_Z (days_per_year y))%Q.
Proof. unfold days_per_year. destruct (is_leap_year y); reflexivity. Qed.

Lemma jan1_step y : jan1 (y + 1) = jan1 y + days_per_year y.
Proof. unfold jan1. rewrite np_days_year. lia. Qed.

Lemma jan1_mono y1 y2 : y1 <= y2 -> jan1 y1 <= jan1 y2.
Proof. intros H. pose proof (np_days_year_mono y1 y2 H). unfold jan1. lia. Qed.

(** Decimal year of [x] when [y] is its year. *)
Lemma Qfloor_unique (q : Q) (z : Z) : (inject_Z z <= q)%Q -> (q < inject_Z (z + 1))%Q -> Qfloor q = z.
Proof.
  intros H1 H2.
  pose proof (Qfloor_le q) as F1. pose proof (Qlt_floor q) as F2.
  assert (inject_Z z < inject_Z (Qfloor q + 1))%Q by lra.
  assert (inject_Z (Qfloor q) < inject_Z (z + 1))%Q by lra.
  rewrite <- Zlt_Qlt in *. lia.
Qed.

Lemma Qfloor_bounds q z : Qfloor q = z -> (inject_Z z <= q /\ q < inject_Z z + 1)%Q.
Proof.
  intros <-. pose proof (Qfloor_le q). pose proof (Qlt_floor q) as F2.
  rewrite inject_Z_plus in F2. split; [assumption|]. exact F2.
Qed.

Lemma mjd_year_of x y : (inject_Z (jan1 y) <= x)%Q -> (x < inject_Z (jan1 (y+1)))%Q ->
  np_year_of_days (Qfloor x + np_days 2000 1 1) = y.
Proof.
  intros H1 H2. change (np_days 2000 1 1) with 10957.
  apply (year_unique _ _ (Qfloor x + 10957)); [apply year_of_days_spec|].
  rewrite <- np_days_year.
  pose proof (Qfloor_le x) as F1. pose proof (Qlt_floor x) as F2.
  assert (A : (inject_Z (jan1 y) < inject_Z (Qfloor x + 1))%Q) by lra.
  assert (B : (inject_Z (Qfloor x) < inject_Z (jan1 (y+1)))%Q) by lra.
  rewrite <- Zlt_Qlt in A, B. unfold jan1 in *. lia.
Qed.

Lemma mjd_to_dyear_val x y : year_ok y ->
  (inject_Z (jan1 y) <= x)%Q -> (x < inject_Z (jan1 (y+1)))%Q ->
  exists q, mjd_to_dyear x None = Ok q /\
    (q == inject_Z y + (x - inject_Z (jan1 y)) / inject_Z (days_per_year y))%Q.
Proof.
  intros Hy H1 H2. unfold mjd_to_dyear. rewrite (mjd_year_of x y H1 H2).
  destruct (mjd2000_jan1 y Hy) as [j [-> Hj]].
  eexists; split; [reflexivity|]. rewrite Hj. reflexivity.
Qed.

Lemma dyear_to_mjd_val t y : year_ok y -> Qfloor t = y ->
  exists q, dyear_to_mjd t None = Ok q /\
    (q == inject_Z (jan1 y) + (t - inject_Z y) * inject_Z (days_per_year y))%Q.
Proof.
  intros Hy Ht. unfold dyear_to_mjd. rewrite Ht.
  destruct (mjd2000_jan1 y Hy) as [j [-> Hj]].
  eexists; split; [reflexivity|]. rewrite Hj. reflexivity.
Qed.

Lemma frac_bounds a b : (0 < b)%Q -> (0 <= a)%Q -> (a < b)%Q -> (0 <= a / b /\ a / b < 1)%Q.
Proof.
  intros Hb H1 H2. split.
  - apply Qle_shift_div_l; lra.
  - apply Qlt_shift_div_r; lra.
Qed.

(** Round trip: decimal year -> mjd -> decimal year. *)
Lemma dyear_round_trip t : (1708 <= t)%Q -> (t < 2293)%Q ->
  exists x, dyear_to_mjd t None = Ok x /\
  exists t', mjd_to_dyear x None = Ok t' /\ (t' == t)%Q.
Proof.
  intros H1 H2. set (y := Qfloor t).
  destruct (Qfloor_bounds t y eq_refl) as [F1 F2].
  assert (Hy : year_ok y).
  { assert (A : (inject_Z 1708 < inject_Z (y + 1))%Q) by (rewrite inject_Z_plus; change (inject_Z 1708) with (1708#1); change (inject_Z 1) with 1%Q; lra).
    assert (B : (inject_Z y < inject_Z 2293)%Q) by (change (inject_Z 2293) with (2293#1); lra).
    rewrite <- Zlt_Qlt in A, B. unfold year_ok. lia. }
  destruct (dyear_to_mjd_val t y Hy eq_refl) as [x [-> Hx]].
  exists x; split; [reflexivity|].
  pose proof (days_per_year_pos y) as Dp. set (D := inject_Z (days_per_year y)) in *.
  set (f := (t - inject_Z y)%Q) in *.
  assert (Hf0 : (0 <= f)%Q) by (unfold f; lra).
  assert (Hf1 : (f < 1)%Q) by (unfold f; lra).
  assert (G1 : (0 <= f * D)%Q) by nra.
  assert (G2 : (f * D < D)%Q) by nra.
  destruct (mjd_to_dyear_val x y Hy) as [t' [-> Ht']].
  - lra.
  - rewrite jan1_step, inject_Z_plus. fold D. lra.
  - exists t'; split; [reflexivity|]. rewrite Ht', Hx. fold D. unfold f. field. lra.
Qed.

(** The calendar year of x. *)
Definition year_of_mjd (x : Q) : Z := np_year_of_days (Qfloor x + 10957).

Lemma year_of_mjd_spec x :
  (inject_Z (jan1 (year_of_mjd x)) <= x)%Q /\ (x < inject_Z (jan1 (year_of_mjd x + 1)))%Q.
Proof.
  pose proof (year_of_days_spec (Qfloor x + 10957)) as S. fold (year_of_mjd x) in S.
  rewrite <- np_days_year in S. unfold jan1.
  pose proof (Qfloor_le x) as F1. pose proof (Qlt_floor x) as F2.
  assert (A : (inject_Z (np_days (year_of_mjd x) 1 1 - 10957) <= inject_Z (Qfloor x))%Q)
    by (rewrite <- Zle_Qle; lia).
  assert (B : (inject_Z (Qfloor x + 1) <= inject_Z (np_days (year_of_mjd x + 1) 1 1 - 10957))%Q)
    by (rewrite <- Zle_Qle; lia).
  lra.
Qed.

Lemma year_of_mjd_mono x1 x2 : (x1 <= x2)%Q -> year_of_mjd x1 <= year_of_mjd x2.
Proof.
  intros H. destruct (Z_le_gt_dec (year_of_mjd x1) (year_of_mjd x2)); [assumption|exfalso].
  pose proof (year_of_mjd_spec x1) as [A _]. pose proof (year_of_mjd_spec x2) as [_ B].
  pose proof (jan1_mono (year_of_mjd x2 + 1) (year_of_mjd x1) ltac:(lia)) as M.
  rewrite Zle_Qle in M. lra.
Qed.

(** mjd range of the years 1708 .. 2292 *)
Definition mjd_ok (x : Q) : Prop := (-106651 <= x /\ x < 107017)%Q.

Lemma mjd_ok_year x : mjd_ok x -> year_ok (year_of_mjd x).
Proof.
  intros [H1 H2]. pose proof (year_of_mjd_spec x) as [A B].
  unfold year_ok. split.
  - destruct (Z_le_gt_dec 1708 (year_of_mjd x)); [assumption|exfalso].
    pose proof (jan1_mono (year_of_mjd x + 1) 1708 ltac:(lia)) as M.
    rewrite Zle_Qle in M. change (inject_Z (jan1 1708)) with (-106651#1) in M. lra.
  - destruct (Z_le_gt_dec (year_of_mjd x) 2292); [assumption|exfalso].
    pose proof (jan1_mono 2293 (year_of_mjd x) ltac:(lia)) as M.
    rewrite Zle_Qle in M. change (inject_Z (jan1 2293)) with (107017#1) in M. lra.
Qed.

Lemma mjd_to_dyear_year x : mjd_ok x ->
  exists q, mjd_to_dyear x None = Ok q /\
    (q == inject_Z (year_of_mjd x) + (x - inject_Z (jan1 (year_of_mjd x))) / inject_Z (days_per_year (year_of_mjd x)))%Q
    /\ Qfloor q = year_of_mjd x.
Proof.
  intros Hx. pose proof (mjd_ok_year x Hx) as Hy. pose proof (year_of_mjd_spec x) as [A B].
  destruct (mjd_to_dyear_val x _ Hy A B) as [q [E Hq]]. exists q; split; [exact E|split;[exact Hq|]].
  set (y := year_of_mjd x) in *. pose proof (days_per_year_pos y) as Dp.
  rewrite jan1_step, inject_Z_plus in B. set (D := inject_Z (days_per_year y)) in *.
  destruct (frac_bounds (x - inject_Z (jan1 y)) D) as [G1 G2]; [lra|lra|lra|].
  apply Qfloor_unique; [lra|]. rewrite inject_Z_plus. change (inject_Z 1) with 1%Q. lra.
Qed.

Lemma mjd_round_trip x : mjd_ok x ->
  exists t, mjd_to_dyear x None = Ok t /\
  exists x', dyear_to_mjd t None = Ok x' /\ (x' == x)%Q.
Proof.
  intros Hx. destruct (mjd_to_dyear_year x Hx) as [t [E [Ht Hf]]].
  exists t; split; [exact E|].
  destruct (dyear_to_mjd_val t _ (mjd_ok_year x Hx) Hf) as [x' [E' Hx']].
  exists x'; split; [exact E'|]. rewrite Hx', Ht.
  pose proof (days_per_year_pos (year_of_mjd x)). field. lra.
Qed.

Lemma mjd_to_dyear_monotone x1 x2 : mjd_ok x1 -> mjd_ok x2 -> (x1 < x2)%Q ->
  exists t1 t2, mjd_to_dyear x1 None = Ok t1 /\ mjd_to_dyear x2 None = Ok t2 /\ (t1 < t2)%Q.
Proof.
  intros H1 H2 H.
  destruct (mjd_to_dyear_year x1 H1) as [t1 [E1 [V1 F1]]].
  destruct (mjd_to_dyear_year x2 H2) as [t2 [E2 [V2 F2]]].
  exists t1, t2. split; [exact E1|split; [exact E2|]].
  pose proof (year_of_mjd_mono x1 x2 ltac:(lra)) as M.
  destruct (Z.eq_dec (year_of_mjd x1) (year_of_mjd x2)) as [Eq|Ne].
  - rewrite <- Eq in *. rewrite V1, V2.
    pose proof (days_per_year_pos (year_of_mjd x1)) as Dp.
    set (D := inject_Z (days_per_year (year_of_mjd x1))) in *.
    assert (Di : (0 < / D)%Q) by (apply Qinv_lt_0_compat; exact Dp).
    unfold Qdiv. nra.
  - apply Qfloor_bounds in F1 as [_ F1]. apply Qfloor_bounds in F2 as [F2 _].
    assert (L : (inject_Z (year_of_mjd x1 + 1) <= inject_Z (year_of_mjd x2))%Q) by (rewrite <- Zle_Qle; lia).
    rewrite inject_Z_plus in L. change (inject_Z 1) with 1%Q in L. lra.
Qed.

Lemma dyear_ok_year t : (1708 <= t)%Q -> (t < 2293)%Q -> year_ok (Qfloor t).
Proof.
  intros H1 H2. destruct (Qfloor_bounds t _ eq_refl) as [F1 F2].
  assert (A : (inject_Z 1708 < inject_Z (Qfloor t + 1))%Q) by (rewrite inject_Z_plus; change (inject_Z 1708) with (1708#1); change (inject_Z 1) with 1%Q; lra).
  assert (B : (inject_Z (Qfloor t) < inject_Z 2293)%Q) by (change (inject_Z 2293) with (2293#1); lra).
  rewrite <- Zlt_Qlt in A, B. unfold year_ok. lia.
Qed.

Lemma dyear_to_mjd_monotone t1 t2 : (1708 <= t1)%Q -> (t1 < t2)%Q -> (t2 < 2293)%Q ->
  exists x1 x2, dyear_to_mjd t1 None = Ok x1 /\ dyear_to_mjd t2 None = Ok x2 /\ (x1 < x2)%Q.
Proof.
  intros H1 H H2.
  destruct (dyear_to_mjd_val t1 _ (dyear_ok_year t1 H1 ltac:(lra)) eq_refl) as [x1 [E1 V1]].
  destruct (dyear_to_mjd_val t2 _ (dyear_ok_year t2 ltac:(lra) H2) eq_refl) as [x2 [E2 V2]].
  exists x1, x2. split; [exact E1|split; [exact E2|]].
  destruct (Qfloor_bounds t1 _ eq_refl) as [A1 B1]. destruct (Qfloor_bounds t2 _ eq_refl) as [A2 B2].
  pose proof (Qfloor_resp_le t1 t2 ltac:(lra)) as M.
  pose proof (days_per_year_pos (Qfloor t1)) as D1. pose proof (days_per_year_pos (Qfloor t2)) as D2.
  destruct (Z.eq_dec (Qfloor t1) (Qfloor t2)) as [Eq|Ne].
  - rewrite <- Eq in *. rewrite V1, V2. nra.
  - pose proof (jan1_mono (Qfloor t1 + 1) (Qfloor t2) ltac:(lia)) as J.
    rewrite jan1_step in J. rewrite Zle_Qle, inject_Z_plus in J. rewrite V1, V2. nra.
Qed.

(** 1 January 0h. *)
Lemma jan1_dyear y k : year_ok y -> day_distance (mkdate 2000 1 1) (mkdate y 1 1) k ->
  (exists t, mjd_to_dyear (inject_Z k) None = Ok t /\ (t == inject_Z y)%Q) /\
  (exists x, dyear_to_mjd (inject_Z y) None = Ok x /\ (x == inject_Z k)%Q).
Proof.
  intros Hy Hk. apply day_distance_unique in Hk; [|apply jan1_valid|apply jan1_valid].
  unfold dayno in Hk; cbn [yr mo dy] in Hk. change (np_days 2000 1 1) with 10957 in Hk. fold (jan1 y) in Hk. subst k.
  split.
  - destruct (mjd_to_dyear_val (inject_Z (jan1 y)) y Hy) as [t [E V]].
    + lra.
    + rewrite jan1_step, inject_Z_plus. pose proof (days_per_year_pos y). lra.
    + exists t; split; [exact E|]. rewrite V. pose proof (days_per_year_pos y). field. lra.
  - destruct (dyear_to_mjd_val (inject_Z y) y Hy (Qfloor_Z y)) as [x [E V]].
    exists x; split; [exact E|]. rewrite V. ring.
Qed.

(** Calendar year of the decimal year. *)
Lemma dyear_calendar_year x d : mjd_ok x -> valid_date d ->
  day_distance (mkdate 2000 1 1) d (Qfloor x) ->
  exists t, mjd_to_dyear x None = Ok t /\ Qfloor t = yr d.
Proof.
  intros Hx Hd Hk. apply day_distance_unique in Hk; [|apply jan1_valid|exact Hd].
  change (dayno (mkdate 2000 1 1)) with 10957 in Hk.
  destruct (mjd_to_dyear_year x Hx) as [t [E [_ F]]]. exists t; split; [exact E|].
  rewrite F. unfold year_of_mjd. rewrite Hk.
  replace (dayno d - 10957 + 10957) with (dayno d) by lia. apply year_of_date, Hd.
Qed.

(** leap_year=False *)
Lemma affine_round_trip t :
  (exists x, dyear_to_mjd t (Some false) = Ok x /\
     exists t', mjd_to_dyear x (Some false) = Ok t' /\ (t' == t)%Q) /\
  (exists u, mjd_to_dyear t (Some false) = Ok u /\
     exists x', dyear_to_mjd u (Some false) = Ok x' /\ (x' == t)%Q).
Proof.
  unfold dyear_to_mjd, mjd_to_dyear; split; (eexists; split; [reflexivity|]);
    (eexists; split; [reflexivity|]); field; discriminate.
Qed.

(** ** timestamp *)
Lemma Qtrunc_inject z : Qtrunc (inject_Z z) = z.
Proof. unfold Qtrunc, inject_Z; cbn. apply Z.quot_1_r. Qed.

Lemma Qtrunc_comp p q : (p == q)%Q -> Qtrunc p = Qtrunc q.
Proof.
  unfold Qeq, Qtrunc. destruct p as [a b], q as [c d]; cbn. intros H.
  rewrite <- (Z.quot_mul_cancel_r a (Z.pos b) (Z.pos d)) by discriminate.
  rewrite H. rewrite (Z.mul_comm (Z.pos b) (Z.pos d)).
  apply Z.quot_mul_cancel_r; discriminate.
Qed.

Lemma Qtrunc_close q : (Qabs (q - inject_Z (Qtrunc q)) < 1)%Q.
Proof.
  unfold Qtrunc. destruct q as [a b]. cbn [Qnum Qden].
  apply Qabs_Qlt_condition.
  unfold Qlt, Qminus, Qplus, Qopp, inject_Z; cbn [Qnum Qden].
  pose proof (Z.quot_rem' a (Z.pos b)). pose proof (Z.rem_bound_abs a (Z.pos b) ltac:(discriminate)).
  change (Z.abs (Z.pos b)) with (Z.pos b) in *. rewrite Pos.mul_1_r. nia.
Qed.

(** nanoseconds since 1970-01-01 of an instant *)
Lemma timestamp_mjd2000 y m d t k k70 :
  valid_date (mkdate y m d) ->
  day_distance (mkdate 2000 1 1) (mkdate y m d) k ->
  day_distance (mkdate 1970 1 1) (mkdate y m d) k70 ->
  - 2^63 < k * day_ns + tod_ns t < 2^63 ->
  - 2^63 <= k70 * day_ns + tod_ns t < 2^63 ->
  exists q, mjd2000 y m d (hh t) (mi t) (ss t) (us t) (nns t) = Ok q /\
            timestamp q = Some (k70 * day_ns + tod_ns t).
Proof.
  intros V Hk Hk70 C1 C2.
  destruct (mjd2000_counts_days y m d t k V Hk) as [q [E Hq]]; [unfold in_clock; lia|].
  exists q; split; [exact E|].
  apply day_distance_unique in Hk; [|apply jan1_valid|exact V].
  apply day_distance_unique in Hk70; [|apply jan1_valid|exact V].
  change (dayno (mkdate 2000 1 1)) with 10957 in Hk. change (dayno (mkdate 1970 1 1)) with 0 in Hk70.
  unfold timestamp.
  assert (Hns : Qtrunc (q * inject_Z ns_per_day) = k * day_ns + tod_ns t).
  { rewrite <- Qtrunc_inject. apply Qtrunc_comp. rewrite Hq. change ns_per_day with day_ns.
    rewrite inject_Z_plus, inject_Z_mult. field. discriminate. }
  cbv zeta. rewrite Hns.
  replace ((- 2 ^ 63 <? k * day_ns + tod_ns t) && (k * day_ns + tod_ns t <? 2 ^ 63)) with true by lia.
  f_equal. rewrite epoch2000_val. change ns_per_day with day_ns.
  rewrite wrap64_id; replace k70 with (k + 10957) in * by lia; unfold day_ns in *; lia.
Qed.

Lemma mjd2000_timestamp x ts :
  timestamp x = Some ts ->
  (Qabs (mjd2000_datetime ts - x) < 1 / inject_Z day_ns)%Q.
Proof.
  unfold timestamp. cbv zeta.
  set (ns := Qtrunc (x * inject_Z ns_per_day)).
  destruct ((- 2^63 <? ns) && (ns <? 2^63)) eqn:R; [|discriminate].
  intros [= <-]. unfold mjd2000_datetime, ns_to_mjd.
  unfold Z.sub. rewrite wrap64_add_l. replace (ns + epoch2000 + - epoch2000) with ns by lia.
  rewrite wrap64_id by lia.
  pose proof (Qtrunc_close (x * inject_Z ns_per_day)) as C. fold ns in C.
  apply Qabs_Qlt_condition in C as [C1 C2].
  apply Qabs_Qlt_condition. change day_ns with ns_per_day.
  assert (P : (0 < inject_Z ns_per_day)%Q) by reflexivity.
  set (D := inject_Z ns_per_day) in *.
  assert (P' : (0 < / D)%Q) by (apply Qinv_lt_0_compat; exact P).
  assert (I : (D * / D == 1)%Q) by (field; lra).
  unfold Qdiv. set (w := (/ D)%Q) in *.
  assert (X : (x == x * D * w)%Q) by (rewrite <- Qmult_assoc, I; ring).
  split; rewrite X; nra.
Qed.
