(** Proofs about decimal years and time stamps. *)
From Coq Require Import ZArith QArith Qround List Bool Lia Zify ZifyBool Lqa.
From Verif Require Import M_Prelude Spec_Calendar M_Time P_Time.
Import ListNotations.
Open Scope Z_scope.

(** ** Calendar year of a day number *)

Lemma np_days_400 y q : np_days (y + 400 * q) 1 1 = np_days y 1 1 + 146097 * q.
Proof.
  rewrite !np_days_closed, !cum_month_1. unfold leaps_before.
  replace (y + 400*q - 1) with (y - 1 + (100*q)*4) at 1 by lia.
  rewrite Z.div_add by lia.
  replace (y + 400*q - 1) with (y - 1 + (4*q)*100) at 1 by lia.
  rewrite Z.div_add by lia.
  replace (y + 400*q - 1) with (y - 1 + q*400) at 1 by lia.
  rewrite Z.div_add by lia. lia.
Qed.

Lemma is_leap_400 y q : is_leap_year (y + 400 * q) = is_leap_year y.
Proof.
  unfold is_leap_year.
  replace (y + 400*q) with (y + (100*q)*4) at 1 by lia. rewrite Z.mod_add by lia.
  replace (y + 400*q) with (y + (4*q)*100) at 1 by lia. rewrite Z.mod_add by lia.
  replace (y + 400*q) with (y + q*400) at 1 by lia. rewrite Z.mod_add by lia.
  reflexivity.
Qed.

Definition year_in_cycle (days : Z) : Z :=
  if 366 <=? days then
    let year := 100 * Z.quot (days - 1) (100*365 + 25 - 1) in
    let days := Z.rem (days - 1) (100*365 + 25 - 1) in
    if 365 <=? days then
      let year := year + 4 * Z.quot (days + 1) (4*365 + 1) in
      let days := Z.rem (days + 1) (4*365 + 1) in
      if 366 <=? days then year + Z.quot (days - 1) 365 else year
    else year
  else 0.

Lemma np_year_cycle n :
  np_year_of_days n = 2000 + 400 * ((n - 10957) / 146097) + year_in_cycle ((n - 10957) mod 146097).
Proof.
  unfold np_year_of_days. cbv zeta.
  change (400 * 365 + 100 - 4 + 1) with 146097. change (365 * 30 + 7) with 10957.
  set (d := n - 10957).
  assert (E : (if 0 <=? d then (400 * Z.quot d 146097, Z.rem d 146097)
     else (400 * Z.quot (d - (146097 - 1)) 146097,
           if Z.rem d 146097 <? 0 then Z.rem d 146097 + 146097 else Z.rem d 146097))
     = (400 * (d / 146097), d mod 146097)).
  { destruct (Z.leb_spec 0 d).
    - rewrite Z.quot_div_nonneg, Z.rem_mod_nonneg by lia. reflexivity.
    - destruct (Z.ltb_spec (Z.rem d 146097) 0); f_equal; ediv. }
  rewrite E. unfold year_in_cycle. cbv zeta.
  destruct (366 <=? d mod 146097); [|lia].
  destruct (365 <=? _); [|lia].
  destruct (366 <=? Z.rem (_ + 1) _); lia.
Qed.

Definition year_check (y n : Z) : bool :=
  (np_days y 1 1 <=? n) && (n <? np_days y 1 1 + days_per_year y).

Definition scan (P : Z -> bool) (s : bool * Z) : bool * Z :=
  (fst s && P (snd s), snd s + 1).

Definition cycle_P (n : Z) : bool := year_check (2000 + year_in_cycle n) (n + 10957).

Lemma cycle_check_true : fst (N.iter 146097 (scan cycle_P) (true, 0)) = true.
Proof. vm_compute. reflexivity. Qed.

Lemma iter_check (P : Z -> bool) (m : N) :
  forall b0 n0, fst (N.iter m (scan P) (b0, n0)) = true ->
  snd (N.iter m (scan P) (b0, n0)) = n0 + Z.of_N m /\ forall k, n0 <= k < n0 + Z.of_N m -> P k = true.
Proof.
  induction m as [|m IH] using N.peano_ind; intros b0 n0 H.
  - split; [cbn; lia|]. intros; lia.
  - rewrite N.iter_succ in *. unfold scan at 1 in H. unfold scan at 1. cbn [fst snd] in *.
    apply andb_prop in H as [H1 H2].
    destruct (IH b0 n0 H1) as [IH1 IH2]. split; [lia|]. intros k Hk.
    destruct (Z.eq_dec k (n0 + Z.of_N m)) as [->|Hne]; [rewrite <- IH1; exact H2|]. apply IH2. lia.
Qed.

Lemma cycle_ok n : 0 <= n < 146097 -> cycle_P n = true.
Proof.
  intros Hn. apply (proj2 (iter_check cycle_P 146097 true 0 cycle_check_true)).
  change (Z.of_N 146097) with 146097. lia.
Qed.

Lemma year_of_days_spec n :
  np_days (np_year_of_days n) 1 1 <= n
  < np_days (np_year_of_days n) 1 1 + days_per_year (np_year_of_days n).
Proof.
  rewrite np_year_cycle.
  set (d := n - 10957). set (q := d / 146097). set (r := d mod 146097).
  assert (Hr : 0 <= r < 146097) by (apply Z.mod_pos_bound; lia).
  pose proof (cycle_ok r Hr) as H. unfold cycle_P, year_check in H.
  apply andb_prop in H as [H1 H2].
  replace (2000 + 400 * q + year_in_cycle r) with (2000 + year_in_cycle r + 400 * q) by lia.
  rewrite np_days_400. unfold days_per_year in *. rewrite is_leap_400.
  assert (d = 146097 * q + r) by (apply Z.div_mod; lia). unfold d in *. lia.
Qed.

Lemma year_unique y1 y2 n :
  np_days y1 1 1 <= n < np_days y1 1 1 + days_per_year y1 ->
  np_days y2 1 1 <= n < np_days y2 1 1 + days_per_year y2 -> y1 = y2.
Proof.
  rewrite <- !np_days_year. intros H1 H2.
  destruct (Z.lt_trichotomy y1 y2) as [H|[H|H]]; [|exact H|].
  - pose proof (np_days_year_mono (y1+1) y2 ltac:(lia)). lia.
  - pose proof (np_days_year_mono (y2+1) y1 ltac:(lia)). lia.
Qed.

Lemma year_of_date d : valid_date d -> np_year_of_days (dayno d) = yr d.
Proof.
  intros H. apply (year_unique _ _ (dayno d)); [apply year_of_days_spec|].
  apply np_days_in_year, H.
Qed.

