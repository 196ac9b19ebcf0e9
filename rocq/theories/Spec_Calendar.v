(** Independent specification of the (proleptic) Gregorian calendar:
    the calendar is what one gets by turning over one day after the other. *)
From Coq Require Import ZArith Bool.
Open Scope Z_scope.

Record date := mkdate { yr : Z; mo : Z; dy : Z }.

(** Pope Gregory's rule. *)
Definition leap_rule (y : Z) : Prop :=
  (4 | y) /\ (~ (100 | y) \/ (400 | y)).

Definition leapb (y : Z) : bool :=
  if (y mod 400 =? 0) then true
  else if (y mod 100 =? 0) then false
  else (y mod 4 =? 0).

(** "Thirty days hath September, ..." *)
Definition month_length (y m : Z) : Z :=
  if m =? 2 then (if leapb y then 29 else 28)
  else if (m =? 4) || (m =? 6) || (m =? 9) || (m =? 11) then 30 else 31.

Definition valid_date (d : date) : Prop :=
  1 <= mo d <= 12 /\ 1 <= dy d <= month_length (yr d) (mo d).

(** The day after [d]. *)
Definition next_date (d : date) : date :=
  if dy d <? month_length (yr d) (mo d) then mkdate (yr d) (mo d) (dy d + 1)
  else if mo d <? 12 then mkdate (yr d) (mo d + 1) 1
  else mkdate (yr d + 1) 1 1.

Fixpoint days_later (n : nat) (d : date) : date :=
  match n with O => d | S k => days_later k (next_date d) end.

(** [d2] is [k] days after [d1] (before, if [k] is negative). *)
Definition day_distance (d1 d2 : date) (k : Z) : Prop :=
  if 0 <=? k then days_later (Z.to_nat k) d1 = d2
  else days_later (Z.to_nat (- k)) d2 = d1.

(** Chronological order of dates. *)
Definition date_lt (a b : date) : Prop :=
  yr a < yr b \/ (yr a = yr b /\ (mo a < mo b \/ (mo a = mo b /\ dy a < dy b))).

(** Time of day as entered by the user. *)
Record tod := mktod { hh : Z; mi : Z; ss : Z; us : Z; nns : Z }.
Definition tod_ns (t : tod) : Z :=
  ((((hh t * 60 + mi t) * 60) + ss t) * 1000000 + us t) * 1000 + nns t.
Definition tod_normal (t : tod) : Prop :=
  0 <= hh t < 24 /\ 0 <= mi t < 60 /\ 0 <= ss t < 60 /\
  0 <= us t < 1000000 /\ 0 <= nns t < 1000.

Definition day_ns : Z := 86400 * 1000000000.

(** The signed 64-bit nanosecond clock reaches the instant which is [k] days
    and the time of day [t] after 2000-01-01 0h (about 1707-09-22 .. 2292-04-10). *)
Definition in_clock (k : Z) (t : tod) : Prop := - 2^63 <= k * day_ns + tod_ns t < 2^63.

(** Chronological order of instants. *)
Definition inst_lt (a : date) (ta : tod) (b : date) (tb : tod) : Prop :=
  date_lt a b \/ (a = b /\ tod_ns ta < tod_ns tb).
