(** Properties C01-C09: calendar, modified Julian date, decimal years. *)
From Coq Require Import ZArith QArith Qround Qabs List.
From Verif Require Import M_Prelude Spec_Calendar M_Time P_Time P_Calendar P_Time2 W_Time.
Import ListNotations.
Open Scope Z_scope.

(** C01.  [is_leap_year y] holds iff the calendar takes 366 days from
    1 January y to 1 January y+1, fails iff it takes 365, and is Gregory's
    rule; a non-integer array is refused. *)
Theorem C01_leap_year_is_calendar (y : Z) :
  (is_leap_year y = true <-> days_later 366 (mkdate y 1 1) = mkdate (y+1) 1 1) /\
  (is_leap_year y = false <-> days_later 365 (mkdate y 1 1) = mkdate (y+1) 1 1).
Proof. exact (leap_year_366 y). Qed.
Print Assumptions C01_leap_year_is_calendar.

Theorem C01_leap_year_is_gregorian_rule (y : Z) :
  is_leap_year_dtype (Some y) = Ok true <-> leap_rule y.
Proof. exact (leap_year_rule y). Qed.
Print Assumptions C01_leap_year_is_gregorian_rule.

Theorem C01_leap_year_rejects_non_integers : is_leap_year_dtype None = Err TypeError.
Proof. exact eq_refl. Qed.

Example C01_years : leap_rule 2000 /\ is_leap_year 2000 = true /\ is_leap_year 2024 = true /\ is_leap_year 2100 = false.
Proof.
  split; [|repeat split]. split; [exists 500; reflexivity|right; exists 5; reflexivity].
Qed.

(** C02. *)
Theorem C02_mjd2000_counts_days (y m d k : Z) (t : tod) :
  valid_date (mkdate y m d) ->
  day_distance (mkdate 2000 1 1) (mkdate y m d) k ->
  in_clock k t ->
  exists q, mjd2000 y m d (hh t) (mi t) (ss t) (us t) (nns t) = Ok q /\
            (q == inject_Z k + inject_Z (tod_ns t) / inject_Z day_ns)%Q.
Proof. exact (mjd2000_counts_days y m d t k). Qed.
Print Assumptions C02_mjd2000_counts_days.

(** every valid date has such a distance *)
Theorem C02_every_date_has_a_distance (d : date) :
  valid_date d -> exists k, day_distance (mkdate 2000 1 1) d k.
Proof. exact (date_distance_exists d). Qed.
Print Assumptions C02_every_date_has_a_distance.

Example C02_applies :
  valid_date (mkdate 2003 5 3) /\
  day_distance (mkdate 2000 1 1) (mkdate 2003 5 3) 1218 /\
  in_clock 1218 (mktod 13 52 15 0 0).
Proof. vm_compute. repeat split; congruence. Qed.

(** C03. *)
Theorem C03_mjd2000_rejects_invalid_dates (y m d h mi s us ns : Z) :
  ~ valid_date (mkdate y m d) -> mjd2000 y m d h mi s us ns = Err ValueError.
Proof. exact (mjd2000_invalid y m d h mi s us ns). Qed.
Print Assumptions C03_mjd2000_rejects_invalid_dates.

Theorem C03_mjd2000_accepts_valid_dates (y m d h mi s us ns : Z) :
  valid_date (mkdate y m d) -> exists q, mjd2000 y m d h mi s us ns = Ok q.
Proof. exact (mjd2000_valid_ok y m d h mi s us ns). Qed.
Print Assumptions C03_mjd2000_accepts_valid_dates.

Theorem C03_one_bad_date_fails_the_array (l : list (Z * Z * Z)) (y m d : Z) :
  In (y, m, d) l -> ~ valid_date (mkdate y m d) -> mjd2000_array l = Err ValueError.
Proof. exact (mjd2000_array_invalid l y m d). Qed.
Print Assumptions C03_one_bad_date_fails_the_array.

Example C03_applies : ~ valid_date (mkdate 1900 2 29) /\ valid_date (mkdate 2000 2 29).
Proof. vm_compute. split; [intros [_ [_ H]]; now apply H|repeat split; congruence]. Qed.

(** C04. *)
Theorem C04_mjd2000_strictly_increasing (a b : date) (ta tb : tod) (ka kb : Z) :
  valid_date a -> valid_date b -> tod_normal ta -> tod_normal tb ->
  day_distance (mkdate 2000 1 1) a ka -> day_distance (mkdate 2000 1 1) b kb ->
  in_clock ka ta -> in_clock kb tb ->
  inst_lt a ta b tb ->
  exists qa qb,
    mjd2000 (yr a) (mo a) (dy a) (hh ta) (mi ta) (ss ta) (us ta) (nns ta) = Ok qa /\
    mjd2000 (yr b) (mo b) (dy b) (hh tb) (mi tb) (ss tb) (us tb) (nns tb) = Ok qb /\
    (qa < qb)%Q.
Proof. exact (mjd2000_monotone a ta b tb ka kb). Qed.
Print Assumptions C04_mjd2000_strictly_increasing.

Example C04_applies :
  let a := mkdate 1999 12 31 in let b := mkdate 2000 1 1 in
  valid_date a /\ valid_date b /\ tod_normal (mktod 23 59 59 999999 999) /\
  tod_normal (mktod 0 0 0 0 0) /\
  day_distance (mkdate 2000 1 1) a (-1) /\ day_distance (mkdate 2000 1 1) b 0 /\
  in_clock (-1) (mktod 23 59 59 999999 999) /\ in_clock 0 (mktod 0 0 0 0 0) /\
  inst_lt a (mktod 23 59 59 999999 999) b (mktod 0 0 0 0 0).
Proof. vm_compute. repeat split; try congruence. left; left; reflexivity. Qed.

(** C05. *)
Theorem C05_dyear_round_trip (t : Q) : (1708 <= t)%Q -> (t < 2293)%Q ->
  exists x, dyear_to_mjd t None = Ok x /\
  exists t', mjd_to_dyear x None = Ok t' /\ (t' == t)%Q.
Proof. exact (dyear_round_trip t). Qed.
Print Assumptions C05_dyear_round_trip.

Theorem C05_mjd_round_trip (x : Q) : (-106651 <= x)%Q -> (x < 107017)%Q ->
  exists t, mjd_to_dyear x None = Ok t /\
  exists x', dyear_to_mjd t None = Ok x' /\ (x' == x)%Q.
Proof. exact (fun a b => mjd_round_trip x (conj a b)). Qed.
Print Assumptions C05_mjd_round_trip.

(** the bounds are the calendar: 1708-01-01 .. 2293-01-01 *)
Example C05_bounds_are_dates :
  day_distance (mkdate 2000 1 1) (mkdate 1708 1 1) (-106651) /\
  day_distance (mkdate 2000 1 1) (mkdate 2293 1 1) 107017.
Proof. exact mjd_bounds. Qed.

(** outside that range the round trip fails *)
Theorem C05_round_trip_every_year_refuted :
  exists (t x t' : Q), (1600 <= t <= 1700)%Q /\
    dyear_to_mjd t None = Ok x /\ mjd_to_dyear x None = Ok t' /\ ~ (t' == t)%Q.
Proof. exact dyear_round_trip_1700_fails. Qed.
Print Assumptions C05_round_trip_every_year_refuted.

(** C06. *)
Theorem C06_affine_round_trip (t : Q) :
  (exists x, dyear_to_mjd t (Some false) = Ok x /\
     exists t', mjd_to_dyear x (Some false) = Ok t' /\ (t' == t)%Q) /\
  (exists u, mjd_to_dyear t (Some false) = Ok u /\
     exists x', dyear_to_mjd u (Some false) = Ok x' /\ (x' == t)%Q).
Proof. exact (affine_round_trip t). Qed.
Print Assumptions C06_affine_round_trip.

Theorem C06_affine_formula (t : Q) :
  exists x, dyear_to_mjd t (Some false) = Ok x /\ (x == (t - 2000) * (1461 # 4))%Q.
Proof. exact (affine_formula t). Qed.
Print Assumptions C06_affine_formula.

(** For example 2003.5 *)
Example C06_value : exists x, dyear_to_mjd (20035 # 10) (Some false) = Ok x /\ (x == 1278 + (3 # 8))%Q.
Proof. eexists. split; [reflexivity|reflexivity]. Qed.

(** C07. *)
Theorem C07_floor_is_calendar_year (x : Q) (d : date) :
  (-106651 <= x)%Q -> (x < 107017)%Q -> valid_date d ->
  day_distance (mkdate 2000 1 1) d (Qfloor x) ->
  exists t, mjd_to_dyear x None = Ok t /\ Qfloor t = yr d.
Proof. exact (fun a b => dyear_calendar_year x d (conj a b)). Qed.
Print Assumptions C07_floor_is_calendar_year.

Theorem C07_mjd_to_dyear_strictly_increasing (x1 x2 : Q) :
  (-106651 <= x1)%Q -> (x1 < x2)%Q -> (x2 < 107017)%Q ->
  exists t1 t2, mjd_to_dyear x1 None = Ok t1 /\ mjd_to_dyear x2 None = Ok t2 /\ (t1 < t2)%Q.
Proof. exact (mjd_to_dyear_monotone' x1 x2). Qed.
Print Assumptions C07_mjd_to_dyear_strictly_increasing.

Theorem C07_dyear_to_mjd_strictly_increasing (t1 t2 : Q) :
  (1708 <= t1)%Q -> (t1 < t2)%Q -> (t2 < 2293)%Q ->
  exists x1 x2, dyear_to_mjd t1 None = Ok x1 /\ dyear_to_mjd t2 None = Ok x2 /\ (x1 < x2)%Q.
Proof. exact (dyear_to_mjd_monotone t1 t2). Qed.
Print Assumptions C07_dyear_to_mjd_strictly_increasing.

Theorem C07_january_first (y k : Z) : 1708 <= y <= 2292 ->
  day_distance (mkdate 2000 1 1) (mkdate y 1 1) k ->
  (exists t, mjd_to_dyear (inject_Z k) None = Ok t /\ (t == inject_Z y)%Q) /\
  (exists x, dyear_to_mjd (inject_Z y) None = Ok x /\ (x == inject_Z k)%Q).
Proof. exact (jan1_dyear y k). Qed.
Print Assumptions C07_january_first.

Example C07_applies :
  valid_date (mkdate 1999 12 31) /\
  day_distance (mkdate 2000 1 1) (mkdate 1999 12 31) (Qfloor (-1 # 2)) /\
  day_distance (mkdate 2000 1 1) (mkdate 2004 1 1) 1461.
Proof. vm_compute. repeat split; congruence. Qed.

(** C08.  The datetime64[ns] returned by timestamp counts nanoseconds from
    1970-01-01 0h. *)
Theorem C08_timestamp_inverts_mjd2000 (y m d k k70 : Z) (t : tod) :
  valid_date (mkdate y m d) ->
  day_distance (mkdate 2000 1 1) (mkdate y m d) k ->
  day_distance (mkdate 1970 1 1) (mkdate y m d) k70 ->
  - 2^63 < k * day_ns + tod_ns t < 2^63 ->
  - 2^63 <= k70 * day_ns + tod_ns t < 2^63 ->
  exists q, mjd2000 y m d (hh t) (mi t) (ss t) (us t) (nns t) = Ok q /\
            timestamp q = Some (k70 * day_ns + tod_ns t).
Proof. exact (timestamp_mjd2000 y m d t k k70). Qed.
Print Assumptions C08_timestamp_inverts_mjd2000.

Theorem C08_mjd2000_of_timestamp_within_1ns (x : Q) (ts : Z) :
  timestamp x = Some ts ->
  (Qabs (mjd2000_datetime ts - x) < 1 / inject_Z day_ns)%Q.
Proof. exact (mjd2000_timestamp x ts). Qed.
Print Assumptions C08_mjd2000_of_timestamp_within_1ns.

Example C08_applies :
  valid_date (mkdate 2000 1 1) /\ day_distance (mkdate 1970 1 1) (mkdate 2000 1 1) 10957 /\
  timestamp (53245 # 100000) = Some (946684800 * 1000000000 + 46003680 * 1000000).
Proof. vm_compute. repeat split; congruence. Qed.

(** C09: false. 1 January 1700 is 109572 days before 2000-01-01, mjd2000
    returns +103931.98...: the nanosecond difference wraps around. *)
Theorem C09_every_four_digit_year_refuted :
  exists y m d k q,
    1000 <= y <= 9999 /\ valid_date (mkdate y m d) /\
    day_distance (mkdate y m d) (mkdate 2000 1 1) (- k) /\
    mjd2000 y m d 0 0 0 0 0 = Ok q /\ ~ (q == inject_Z k)%Q.
Proof. exact mjd2000_1700_wrong. Qed.
Print Assumptions C09_every_four_digit_year_refuted.

(** what does hold: every date from 1708 to 2291 *)
Theorem C09_years_1708_to_2291_partial (y m d k : Z) :
  valid_date (mkdate y m d) -> 1708 <= y <= 2291 ->
  day_distance (mkdate 2000 1 1) (mkdate y m d) k ->
  exists q, mjd2000 y m d 0 0 0 0 0 = Ok q /\ (q == inject_Z k)%Q.
Proof. exact (mjd2000_years_ok y m d k). Qed.
Print Assumptions C09_years_1708_to_2291_partial.
Print Assumptions C01_leap_year_rejects_non_integers.

Example C09_applies : valid_date (mkdate 1833 2 28) /\ day_distance (mkdate 2000 1 1) (mkdate 1833 2 28) (-60937).
Proof. vm_compute. repeat split; congruence. Qed.
