(** The time functions of chaosmagpy/data_utils.py (lines 384-642) in double
    precision: every floating-point operation is the exact operation followed
    by rounding ([rn]).  The integer part (calendar, 64-bit nanoseconds) is
    that of M_Time. *)
From Coq Require Import ZArith Reals Bool.
From Flocq Require Import Core.
From Verif Require Import M_Prelude M_Time Spec_Float.
Open Scope Z_scope.

(** data_utils.py 443-459: the datetime64[ns] built from the integers, as
    nanoseconds since 1970. *)
Definition datetime_ns (y m d h mi s us ns : Z) : result Z :=
  bind (np_parse_date y m d) (fun datetime =>
  let datetime := wrap64 (datetime + wrap64 (h * 3600000000000)) in
  let datetime := wrap64 (datetime + wrap64 (mi * 60000000000)) in
  let datetime := wrap64 (datetime + wrap64 (s * 1000000000)) in
  let datetime := wrap64 (datetime + wrap64 (us * 1000)) in
  Ok (wrap64 (datetime + wrap64 ns))).

(** data_utils.py 461-463: NumPy divides two timedelta64 by converting both
    64-bit integers to double and dividing. *)
Definition ns_to_mjd_f (datetime : Z) : R :=
  rn (rn (IZR (wrap64 (datetime - epoch2000))) / rn (IZR ns_per_day)).

(** data_utils.py 384-463 *)
Definition mjd2000_f (y m d h mi s us ns : Z) : result R :=
  bind (datetime_ns y m d h mi s us ns) (fun z => Ok (ns_to_mjd_f z)).

Definition mjd2000_ymd_f (y m d : Z) : result R := mjd2000_f y m d 0 0 0 0 0.

(** data_utils.py 466-495: time * 86400e9 is rounded, the product with
    timedelta64(1, 'ns') is cast to int64 (truncation; NaT out of range). *)
Definition timestamp_f (time : R) : option Z :=
  let ns := Ztrunc (rn (rn (time * 86400e9) * 1)) in
  if (- 2^63 <? ns) && (ns <? 2^63) then Some (wrap64 (ns + epoch2000)) else None.

(** data_utils.py 535-586; np.floor and np.remainder(time, 1.) are exact
    for doubles (the fraction of a double is a double unless it is negative
    and tiny, which is rounded). *)
Definition dyear_to_mjd_f (time : R) (leap_year : option bool) : result R :=
  if (match leap_year with None => true | Some b => b end) then
    let year := Zfloor time in
    let frac := rn (time - IZR year) in
    let days := rn (frac * IZR (days_per_year year)) in
    bind (mjd2000_ymd_f year 1 1) (fun j => Ok (rn (j + days)))
  else Ok (rn (rn (time - 2000) * 365.25)).

(** data_utils.py 589-642 *)
Definition mjd_to_dyear_f (time : R) (leap_year : option bool) : result R :=
  if (match leap_year with None => true | Some b => b end) then
    let date := Zfloor time + np_days 2000 1 1 in
    let year := np_year_of_days date in
    bind (mjd2000_ymd_f year 1 1) (fun j =>
    let days := rn (time - j) in
    Ok (rn (IZR year + rn (days / IZR (days_per_year year)))))
  else Ok (rn (rn (time / 365.25) + 2000)).
