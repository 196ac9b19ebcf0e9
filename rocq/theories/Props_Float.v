(** Time conversions and inferred degrees in double precision (C109-C112):
    the statements of C02, C04-C08 and C19 with the C110_C112_rounding of every
    operation.  [double] and [rn] are in Spec_Float, the calendar in
    Spec_Calendar. *)
From Coq Require Import ZArith Reals.
From Flocq Require Import Core.
From Verif Require Import M_Prelude Spec_Calendar M_Time M_Synth Spec_Float M_TimeF M_Degree P_Float P_TimeF2 P_TimeF3 P_Degree W_Float.
Open Scope R_scope.

(** The results of the model are doubles; doubles are left alone, order is
    preserved. *)
Example C110_C112_rounding : (forall x, double (rn x)) /\ (forall x, double x -> rn x = x) /\ (forall x y, x <= y -> rn x <= rn y).
Proof. exact (conj rn_double (conj rn_id rn_mono)). Qed.

(** ** C109 *)
Theorem C109_mjd2000_relative_error : forall y m d t k,
  valid_date (mkdate y m d) -> day_distance (mkdate 2000 1 1) (mkdate y m d) k -> in_clock k t ->
  let exact := IZR k + IZR (tod_ns t) / IZR day_ns in
  exists x, mjd2000_f y m d (hh t) (mi t) (ss t) (us t) (nns t) = Ok x /\ double x /\ Rabs (x - exact) <= 2.3e-16 * Rabs exact.
Proof. exact mjd2000_error. Qed.

(** Full days and multiples of 45 minutes are exact. *)
Theorem C109_mjd2000_exact_times : forall y m d t k n,
  valid_date (mkdate y m d) -> day_distance (mkdate 2000 1 1) (mkdate y m d) k -> in_clock k t ->
  tod_ns t = (n * 2700000000000)%Z ->
  mjd2000_f y m d (hh t) (mi t) (ss t) (us t) (nns t) = Ok (IZR k + IZR n / 32).
Proof. exact mjd2000_45min. Qed.

(** Later instants never get smaller values; 5 microseconds are enough for a
    larger one. *)
Theorem C109_mjd2000_order : forall a ta b tb ka kb,
  valid_date a -> valid_date b -> tod_normal ta -> tod_normal tb ->
  day_distance (mkdate 2000 1 1) a ka -> day_distance (mkdate 2000 1 1) b kb -> in_clock ka ta -> in_clock kb tb ->
  inst_lt a ta b tb ->
  exists xa xb, mjd2000_f (yr a) (mo a) (dy a) (hh ta) (mi ta) (ss ta) (us ta) (nns ta) = Ok xa /\
    mjd2000_f (yr b) (mo b) (dy b) (hh tb) (mi tb) (ss tb) (us tb) (nns tb) = Ok xb /\ xa <= xb /\
    ((ka * day_ns + tod_ns ta + 5000 <= kb * day_ns + tod_ns tb)%Z -> xa < xb).
Proof. exact mjd2000_order. Qed.

(** One nanosecond may be lost: 2100-01-01 and one nanosecond later. *)
Theorem C109_one_nanosecond_may_be_lost : exists ta tb, tod_ns ta = 0%Z /\ tod_ns tb = 1%Z /\
  exists x, mjd2000_f 2100 1 1 (hh ta) (mi ta) (ss ta) (us ta) (nns ta) = Ok x /\
            mjd2000_f 2100 1 1 (hh tb) (mi tb) (ss tb) (us tb) (nns tb) = Ok x.
Proof. exact strict_order_fails. Qed.

Example C109_applies : valid_date (mkdate 2003 5 3) /\ day_distance (mkdate 2000 1 1) (mkdate 2003 5 3) 1218 /\
  in_clock 1218 (mktod 13 52 15 0 0) /\ tod_ns (mktod 18 45 0 0 0) = (25 * 2700000000000)%Z.
Proof. vm_compute. repeat split; congruence. Qed.

(** ** C110 *)

(** At most 3.2 microseconds are lost, 0.4 within 36 years of 2000, nothing
    for multiples of 45 minutes.  (2^60 ns = 36.5 years) *)
Theorem C110_timestamp_of_mjd2000 : forall y m d t k k70, valid_date (mkdate y m d) ->
  day_distance (mkdate 2000 1 1) (mkdate y m d) k -> day_distance (mkdate 1970 1 1) (mkdate y m d) k70 ->
  (- 2^63 + 4000 <= k * day_ns + tod_ns t <= 2^63 - 4000)%Z -> (- 2^63 + 4000 <= k70 * day_ns + tod_ns t <= 2^63 - 4000)%Z ->
  exists x ts, mjd2000_f y m d (hh t) (mi t) (ss t) (us t) (nns t) = Ok x /\ timestamp_f x = Some ts /\
    (Z.abs (ts - (k70 * day_ns + tod_ns t)) <= 3136)%Z /\
    ((Z.abs (k * day_ns + tod_ns t) <= 2^60)%Z -> (Z.abs (ts - (k70 * day_ns + tod_ns t)) <= 392)%Z) /\
    (forall n, tod_ns t = (n * 2700000000000)%Z -> ts = (k70 * day_ns + tod_ns t)%Z).
Proof. exact timestamp_of_mjd2000. Qed.

(** So whole microseconds come back when the result is rounded to
    microseconds. *)
Theorem C110_microseconds_survive_rounding : forall y m d t k k70, valid_date (mkdate y m d) ->
  day_distance (mkdate 2000 1 1) (mkdate y m d) k -> day_distance (mkdate 1970 1 1) (mkdate y m d) k70 ->
  (Z.abs (k * day_ns + tod_ns t) <= 2^60)%Z -> (tod_ns t mod 1000 = 0)%Z ->
  exists x ts, mjd2000_f y m d (hh t) (mi t) (ss t) (us t) (nns t) = Ok x /\ timestamp_f x = Some ts /\
    (1000 * ((ts + 500) / 1000) = k70 * day_ns + tod_ns t)%Z.
Proof. exact microseconds_survive. Qed.

(** The result itself is not exact: the date in the documentation of mjd2000,
    2003-05-03 13:52:15, comes back 16 ns early, as 13:52:14.999999984. *)
Theorem C110_documentation_example_is_16_ns_early : exists x, mjd2000_f 2003 5 3 13 52 15 0 0 = Ok x /\
  exists ts, timestamp_f x = Some ts /\ (ts = 12175 * day_ns + tod_ns (mktod 13 52 15 0 0) - 16)%Z /\
  day_distance (mkdate 1970 1 1) (mkdate 2003 5 3) 12175.
Proof. exact timestamp_example. Qed.

(** ** C111 *)

(** Round trips: 8.7 microseconds at most (bounds in days and years) *)
Theorem C111_mjd_round_trip : forall x, -106651 <= x < 106651 ->
  exists t x', mjd_to_dyear_f x None = Ok t /\ dyear_to_mjd_f t None = Ok x' /\ Rabs (x' - x) <= 1e-10.
Proof. exact mjd_round_trip_f. Qed.

Theorem C111_dyear_round_trip : forall t, 1708 <= t < 2292 ->
  exists x t', dyear_to_mjd_f t None = Ok x /\ mjd_to_dyear_f x None = Ok t' /\ Rabs (t' - t) <= 2.6e-13.
Proof. exact dyear_round_trip_f. Qed.

Theorem C111_years_of_36525_hundredths : forall t, -2000 <= t <= 6000 ->
  exists x t', dyear_to_mjd_f t (Some false) = Ok x /\ mjd_to_dyear_f x (Some false) = Ok t' /\
    Rabs (x - (t - 2000) * 365.25) <= 2.1e-10 /\ Rabs (t' - t) <= 1.5e-12.
Proof. exact affine_dyear_f. Qed.

Theorem C111_days_of_36525_hundredths : forall x, -1400000 <= x <= 1400000 ->
  exists t x', mjd_to_dyear_f x (Some false) = Ok t /\ dyear_to_mjd_f t (Some false) = Ok x' /\
    Rabs (t - (2000 + x / 365.25)) <= 7e-13 /\ Rabs (x' - x) <= 5e-10.
Proof. exact affine_mjd_f. Qed.

Theorem C111_mjd_to_dyear_increasing : forall x1 x2, -106651 <= x1 -> x1 <= x2 -> x2 < 106651 ->
  exists t1 t2, mjd_to_dyear_f x1 None = Ok t1 /\ mjd_to_dyear_f x2 None = Ok t2 /\ t1 <= t2.
Proof. exact mjd_to_dyear_f_mono. Qed.

Theorem C111_dyear_to_mjd_increasing : forall t1 t2, 1708 <= t1 -> t1 <= t2 -> t2 < 2293 ->
  exists x1 x2, dyear_to_mjd_f t1 None = Ok x1 /\ dyear_to_mjd_f t2 None = Ok x2 /\ x1 <= x2.
Proof. exact dyear_to_mjd_f_mono. Qed.

Theorem C111_january_first_is_exact : forall y k, (1708 <= y <= 2291)%Z -> day_distance (mkdate 2000 1 1) (mkdate y 1 1) k ->
  mjd_to_dyear_f (IZR k) None = Ok (IZR y) /\ dyear_to_mjd_f (IZR y) None = Ok (IZR k).
Proof. exact january_f. Qed.

(** The integer part is the calendar year except within 1e-10 days (8.7
    microseconds) of the next new year, where the result may be the next year
    exactly. *)
Theorem C111_calendar_year : forall x d, -106651 <= x < 106651 -> valid_date d -> day_distance (mkdate 2000 1 1) d (Zfloor x) ->
  exists t, mjd_to_dyear_f x None = Ok t /\
    (Zfloor t = yr d \/ (t = IZR (yr d + 1) /\ exists k, day_distance (mkdate 2000 1 1) (mkdate (yr d + 1) 1 1) k /\ IZR k - 1e-10 <= x)).
Proof. exact calendar_year_f. Qed.

(** It happens: a double before 2001-01-01 is given the decimal year 2001. *)
Theorem C111_new_year_may_come_early : exists x, double x /\ x < 366 /\ mjd_to_dyear_f x None = Ok 2001.
Proof. exact early_new_year'. Qed.

(** ** C112 *)
Theorem C112_full_set_of_coefficients : forall n, (0 <= n <= 2 ^ 24)%Z -> int_sqrt (n * (n + 2) + 1) = n.
Proof. exact degree_of_full. Qed.

(** Any number: the largest n with (n+1)^2 <= x. *)
Theorem C112_square_root : forall x, (0 <= x <= 2 ^ 50)%Z -> int_sqrt x = (Z.sqrt x - 1)%Z.
Proof. exact degree_double. Qed.

(** The degree of the coefficient at position k *)
Theorem C112_degree_of_position : forall k n, (0 <= k < 2 ^ 50)%Z -> (1 <= n)%Z ->
  (n * n - 1 <= k < (n + 1) * (n + 1) - 1)%Z -> floor_sqrt k = (n - 1)%Z.
Proof. exact degree_of_position. Qed.

(** The degree and order used by synth_values: as with exact arithmetic *)
Theorem C112_inferred_degree : forall dim nmin nmax mmax, (0 <= dim <= 2 ^ 30)%Z -> (1 <= nmin <= 2 ^ 15)%Z ->
  match mmax with Some m => (0 <= m <= 2 ^ 15)%Z | None => True end ->
  infer_nmax_f dim nmin nmax mmax = infer_nmax dim nmin nmax mmax.
Proof. exact infer_nmax_double. Qed.

Print Assumptions C109_mjd2000_relative_error.
Print Assumptions C109_mjd2000_exact_times.
Print Assumptions C109_mjd2000_order.
Print Assumptions C109_one_nanosecond_may_be_lost.
Print Assumptions C110_timestamp_of_mjd2000.
Print Assumptions C110_microseconds_survive_rounding.
Print Assumptions C110_documentation_example_is_16_ns_early.
Print Assumptions C111_mjd_round_trip.
Print Assumptions C111_dyear_round_trip.
Print Assumptions C111_years_of_36525_hundredths.
Print Assumptions C111_days_of_36525_hundredths.
Print Assumptions C111_mjd_to_dyear_increasing.
Print Assumptions C111_dyear_to_mjd_increasing.
Print Assumptions C111_january_first_is_exact.
Print Assumptions C111_calendar_year.
Print Assumptions C111_new_year_may_come_early.
Print Assumptions C112_full_set_of_coefficients.
Print Assumptions C112_square_root.
Print Assumptions C112_degree_of_position.
Print Assumptions C112_inferred_degree.
