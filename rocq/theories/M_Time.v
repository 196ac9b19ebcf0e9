(** Model of the time functions of chaosmagpy/data_utils.py (lines 384-642).

    Simplifications (recorded in DESIGN.md): one array element at a time
    (the functions are NumPy-elementwise, an exception of one element being an
    exception of the call, see [mjd2000_array]); float64 results are exact
    rationals; the 64-bit wrap-around of NumPy's datetime64[ns] and
    timedelta64[ns] is modelled, the NaT bit pattern -2^63 is not
    distinguished. *)
From Coq Require Import ZArith QArith Qround List Bool.
From Verif Require Import M_Prelude.
Import ListNotations.
Open Scope Z_scope.

(** int64 two's complement wrap-around of NumPy datetime arithmetic. *)
Definition wrap64 (z : Z) : Z := (z + 2^63) mod 2^64 - 2^63.

Definition ns_per_day : Z := 86400000000000.

(** data_utils.py 498-532 [is_leap_year], integer dtype. *)
Definition is_leap_year (y : Z) : bool :=
  (y mod 4 =? 0) && (negb (y mod 100 =? 0) || (y mod 400 =? 0)).

(** data_utils.py 525-528: dtype test in front of it. [None] stands for an
    array whose dtype is not a kind of Python's int (floats, but also int32
    and unsigned integers). *)
Definition is_leap_year_dtype (y : option Z) : result bool :=
  match y with None => Err TypeError | Some y => Ok (is_leap_year y) end.

(** NumPy's month table [_days_per_month_table] (used by the string parser of
    [astype('datetime64[ns]')], data_utils.py 452). *)
Definition np_days_per_month (leap : bool) : list Z :=
  [31; (if leap then 29 else 28); 31; 30; 31; 30; 31; 31; 30; 31; 30; 31].

(** NumPy's [get_datetimestruct_days]: days since 1970-01-01; integer division
    is C division (truncating). Called through data_utils.py 452. *)
Definition np_days (y m d : Z) : Z :=
  let year := y - 1970 in
  let days := year * 365 in
  let days :=
    if 0 <=? days then
      let year := year + 1 in
      let days := days + Z.quot year 4 in
      let year := year + 68 in
      let days := days - Z.quot year 100 in
      let year := year + 300 in
      days + Z.quot year 400
    else
      let year := year - 2 in
      let days := days + Z.quot year 4 in
      let year := year - 28 in
      let days := days - Z.quot year 100 in
      days + Z.quot year 400 in
  let months := firstn (Z.to_nat (m - 1)) (np_days_per_month (is_leap_year y)) in
  fold_left Z.add months days + (d - 1).

(** NumPy's ISO-date parser accepts 'Y-MM-DD' only for existing dates
    (data_utils.py 444-452: the zero-filled strings are parsed by
    [astype('datetime64[ns]')]); out-of-range or signed months and days raise
    ValueError. *)
Definition np_parse_date (y m d : Z) : result Z :=
  if (1 <=? m) && (m <=? 12) then
    if (1 <=? d) &&
       (d <=? nth (Z.to_nat (m - 1)) (np_days_per_month (is_leap_year y)) 0)
    then Ok (wrap64 (np_days y m d * ns_per_day))
    else Err ValueError
  else Err ValueError.

(** np.datetime64('2000-01-01', 'ns'), data_utils.py 461 and 495. *)
Definition epoch2000 : Z := np_days 2000 1 1 * ns_per_day.

(** data_utils.py 461-463: difference to the epoch, in days. *)
Definition ns_to_mjd (datetime : Z) : Q :=
  inject_Z (wrap64 (datetime - epoch2000)) / inject_Z ns_per_day.

(** data_utils.py 384-463 [mjd2000], integer branch (lines 443-459). *)
Definition mjd2000 (y m d h mi s us ns : Z) : result Q :=
  match np_parse_date y m d with
  | Err e => Err e
  | Ok datetime =>
      let datetime := wrap64 (datetime + wrap64 (h * 3600000000000)) in
      let datetime := wrap64 (datetime + wrap64 (mi * 60000000000)) in
      let datetime := wrap64 (datetime + wrap64 (s * 1000000000)) in
      let datetime := wrap64 (datetime + wrap64 (us * 1000)) in
      let datetime := wrap64 (datetime + wrap64 ns) in
      Ok (ns_to_mjd datetime)
  end.

(** data_utils.py 439-441: the datetime branch, argument = int64 nanoseconds
    since 1970 of a datetime64[ns]. *)
Definition mjd2000_datetime (datetime : Z) : Q := ns_to_mjd datetime.

(** Default arguments of data_utils.py 384-385. *)
Definition mjd2000_ymd (y m d : Z) : result Q := mjd2000 y m d 0 0 0 0 0.

(** Element-wise call over arrays of dates: any invalid element raises. *)
Definition mjd2000_array (l : list (Z * Z * Z)) : result (list Q) :=
  mapM (fun '(y, m, d) => mjd2000_ymd y m d) l.

(** C cast of a double to int64 (truncation towards zero). *)
Definition Qtrunc (q : Q) : Z := Z.quot (Qnum q) (Zpos (Qden q)).

(** data_utils.py 466-495 [timestamp]: int64 nanoseconds since 1970 of the
    returned datetime64[ns]; [None] = NaT (the cast of an out-of-range
    double). *)
Definition timestamp (time : Q) : option Z :=
  let ns := Qtrunc (time * inject_Z ns_per_day) in
  if (- 2^63 <? ns) && (ns <? 2^63) then Some (wrap64 (ns + epoch2000)) else None.

(** NumPy's [days_to_yearsdays] (called by [astype('datetime64[Y]')],
    data_utils.py 628): calendar year of a day number since 1970-01-01. *)
Definition np_year_of_days (days0 : Z) : Z :=
  let per400 := 400*365 + 100 - 4 + 1 in
  let days := days0 - (365*30 + 7) in
  let '(year, days) :=
    if 0 <=? days then (400 * Z.quot days per400, Z.rem days per400)
    else
      let year := 400 * Z.quot (days - (per400 - 1)) per400 in
      let days := Z.rem days per400 in
      (year, if days <? 0 then days + per400 else days) in
  let year :=
    if 366 <=? days then
      let year := year + 100 * Z.quot (days - 1) (100*365 + 25 - 1) in
      let days := Z.rem (days - 1) (100*365 + 25 - 1) in
      if 365 <=? days then
        let year := year + 4 * Z.quot (days + 1) (4*365 + 1) in
        let days := Z.rem (days + 1) (4*365 + 1) in
        if 366 <=? days then year + Z.quot (days - 1) 365 else year
      else year
    else year in
  year + 2000.

(** np.where(isleap, 366., 365.), data_utils.py 572 and 631. *)
Definition days_per_year (y : Z) : Z := if is_leap_year y then 366 else 365.

(** data_utils.py 535-586 [dyear_to_mjd]; [None] is the default (True).
    The final [else: raise] (583-584) is unreachable. *)
Definition dyear_to_mjd (time : Q) (leap_year : option bool) : result Q :=
  if (match leap_year with None => true | Some b => b end) then
    let year := Qfloor time in
    let frac := (time - inject_Z year)%Q in
    let days := (frac * inject_Z (days_per_year year))%Q in
    match mjd2000_ymd year 1 1 with
    | Err e => Err e
    | Ok j => Ok (j + days)%Q
    end
  else Ok ((time - 2000) * (36525 # 100))%Q.

(** data_utils.py 589-642 [mjd_to_dyear]. *)
Definition mjd_to_dyear (time : Q) (leap_year : option bool) : result Q :=
  if (match leap_year with None => true | Some b => b end) then
    let date := Qfloor time + np_days 2000 1 1 in
    let year := np_year_of_days date in
    match mjd2000_ymd year 1 1 with
    | Err e => Err e
    | Ok j =>
        let days := (time - j)%Q in
        Ok (inject_Z year + days / inject_Z (days_per_year year))%Q
    end
  else Ok (time / (36525 # 100) + 2000)%Q.
