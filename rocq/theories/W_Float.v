(** Statements of Props_Float put together. *)
From Coq Require Import ZArith Reals Bool Lia Lra Psatz Zify ZifyBool.
From Flocq Require Import Core.
From Verif Require Import M_Prelude Spec_Calendar M_Time P_Time P_Calendar P_Time2 Spec_Float M_TimeF M_Degree P_Float P_TimeF P_TimeF2 P_TimeF3 P_Degree.
Open Scope R_scope.

Lemma mjd2000_error y m d t k : valid_date (mkdate y m d) -> day_distance (mkdate 2000 1 1) (mkdate y m d) k -> in_clock k t ->
  let exact := IZR k + IZR (tod_ns t) / IZR day_ns in
  exists x, mjd2000_f y m d (hh t) (mi t) (ss t) (us t) (nns t) = Ok x /\ double x /\ Rabs (x - exact) <= 2.3e-16 * Rabs exact.
Proof.
  intros V Hk Hc exact. exists (fdays (k * day_ns + tod_ns t)). split; [apply mjd2000_f_val; assumption|]. split; [apply rn_double|].
  replace exact with (IZR (k * day_ns + tod_ns t) / IZR day_ns); [apply fdays_err|].
  unfold exact. rewrite plus_IZR, mult_IZR. pose proof D_pos. field. lra.
Qed.

Lemma mjd2000_45min y m d t k n : valid_date (mkdate y m d) -> day_distance (mkdate 2000 1 1) (mkdate y m d) k -> in_clock k t ->
  tod_ns t = (n * 2700000000000)%Z ->
  mjd2000_f y m d (hh t) (mi t) (ss t) (us t) (nns t) = Ok (IZR k + IZR n / 32).
Proof.
  intros V Hk Hc Ht. rewrite (mjd2000_f_val y m d t k) by assumption. f_equal.
  unfold in_clock in Hc. rewrite Ht in *.
  replace (k * day_ns + n * 2700000000000)%Z with ((32 * k + n) * 2700000000000)%Z in * by (unfold day_ns; lia).
  rewrite fdays_dyadic by lia. rewrite plus_IZR, mult_IZR. lra.
Qed.

Lemma instant_le a ta b tb ka kb : valid_date a -> valid_date b -> tod_normal ta -> tod_normal tb ->
  day_distance (mkdate 2000 1 1) a ka -> day_distance (mkdate 2000 1 1) b kb -> inst_lt a ta b tb ->
  (ka * day_ns + tod_ns ta < kb * day_ns + tod_ns tb)%Z.
Proof.
  intros Va Vb Na Nb Ka Kb H. apply day_distance_unique in Ka; [|apply jan1_valid|exact Va]. apply day_distance_unique in Kb; [|apply jan1_valid|exact Vb].
  pose proof (tod_normal_range _ Na). pose proof (tod_normal_range _ Nb).
  destruct H as [H|[-> H]].
  - pose proof (dayno_lt a b Va Vb H). assert (ka + 1 <= kb)%Z by lia. unfold day_ns in *. lia.
  - subst. lia.
Qed.

Lemma mjd2000_order a ta b tb ka kb : valid_date a -> valid_date b -> tod_normal ta -> tod_normal tb ->
  day_distance (mkdate 2000 1 1) a ka -> day_distance (mkdate 2000 1 1) b kb -> in_clock ka ta -> in_clock kb tb ->
  inst_lt a ta b tb ->
  exists xa xb, mjd2000_f (yr a) (mo a) (dy a) (hh ta) (mi ta) (ss ta) (us ta) (nns ta) = Ok xa /\
    mjd2000_f (yr b) (mo b) (dy b) (hh tb) (mi tb) (ss tb) (us tb) (nns tb) = Ok xb /\ xa <= xb /\
    ((ka * day_ns + tod_ns ta + 5000 <= kb * day_ns + tod_ns tb)%Z -> xa < xb).
Proof.
  intros Va Vb Na Nb Ka Kb Ca Cb H. pose proof (instant_le a ta b tb ka kb Va Vb Na Nb Ka Kb H) as L.
  exists (fdays (ka * day_ns + tod_ns ta)), (fdays (kb * day_ns + tod_ns tb)).
  split; [destruct a; apply mjd2000_f_val; assumption|]. split; [destruct b; apply mjd2000_f_val; assumption|].
  split; [apply fdays_mono; lia|]. intros G. unfold in_clock in *. apply fdays_strict; lia.
Qed.

Lemma strict_order_fails : exists ta tb, tod_ns ta = 0%Z /\ tod_ns tb = 1%Z /\
  exists x, mjd2000_f 2100 1 1 (hh ta) (mi ta) (ss ta) (us ta) (nns ta) = Ok x /\
            mjd2000_f 2100 1 1 (hh tb) (mi tb) (ss tb) (us tb) (nns tb) = Ok x.
Proof.
  exists (mktod 0 0 0 0 0), (mktod 0 0 0 0 1). split; [reflexivity|]. split; [reflexivity|]. exists (fdays (36525 * day_ns)).
  assert (V : valid_date (mkdate 2100 1 1)) by apply jan1_valid.
  assert (D : day_distance (mkdate 2000 1 1) (mkdate 2100 1 1) 36525) by exact (day_distance_dayno _ _ (jan1_valid 2000) (jan1_valid 2100)).
  split.
  - rewrite (mjd2000_f_val 2100 1 1 (mktod 0 0 0 0 0) 36525 V D); [reflexivity|]. vm_compute. split; congruence.
  - rewrite (mjd2000_f_val 2100 1 1 (mktod 0 0 0 0 1) 36525 V D); [|vm_compute; split; congruence]. rewrite same_value. reflexivity.
Qed.

(** timestamp after mjd2000 *)
Lemma stamp_bound z : (- 2^63 + 4000 <= z <= 2^63 - 4000)%Z -> (Z.abs (stamp_ns (fdays z) - z) <= 3136)%Z.
Proof.
  intros H. pose proof (stamp_fdays z) as S. rewrite <- minus_IZR, <- !abs_IZR in S.
  assert (B : IZR (Z.abs z) <= 9223372036854775808) by (apply IZR_le; lia).
  assert (C : IZR (Z.abs (stamp_ns (fdays z) - z)) < IZR 3137) by lra. apply lt_IZR in C. lia.
Qed.

Lemma stamp_bound_60 z : (Z.abs z <= 2^60)%Z -> (Z.abs (stamp_ns (fdays z) - z) <= 392)%Z.
Proof.
  intros H. pose proof (stamp_fdays z) as S. rewrite <- minus_IZR, <- !abs_IZR in S.
  assert (B : IZR (Z.abs z) <= 1152921504606846976) by (apply IZR_le; lia).
  assert (C : IZR (Z.abs (stamp_ns (fdays z) - z)) < IZR 393) by lra. apply lt_IZR in C. lia.
Qed.

Lemma timestamp_of_mjd2000 y m d t k k70 : valid_date (mkdate y m d) ->
  day_distance (mkdate 2000 1 1) (mkdate y m d) k -> day_distance (mkdate 1970 1 1) (mkdate y m d) k70 ->
  (- 2^63 + 4000 <= k * day_ns + tod_ns t <= 2^63 - 4000)%Z -> (- 2^63 + 4000 <= k70 * day_ns + tod_ns t <= 2^63 - 4000)%Z ->
  exists x ts, mjd2000_f y m d (hh t) (mi t) (ss t) (us t) (nns t) = Ok x /\ timestamp_f x = Some ts /\
    (Z.abs (ts - (k70 * day_ns + tod_ns t)) <= 3136)%Z /\
    ((Z.abs (k * day_ns + tod_ns t) <= 2^60)%Z -> (Z.abs (ts - (k70 * day_ns + tod_ns t)) <= 392)%Z) /\
    (forall n, tod_ns t = (n * 2700000000000)%Z -> ts = (k70 * day_ns + tod_ns t)%Z).
Proof.
  intros V Hk Hk70 C1 C2. exists (fdays (k * day_ns + tod_ns t)). set (z := (k * day_ns + tod_ns t)%Z) in *.
  exists (wrap64 (stamp_ns (fdays z) + epoch2000)). pose proof (stamp_bound z C1) as B.
  assert (E70 : k70 = (k + 10957)%Z).
  { apply day_distance_unique in Hk; [|apply jan1_valid|exact V]. apply day_distance_unique in Hk70; [|apply jan1_valid|exact V].
    change (dayno (mkdate 2000 1 1)) with 10957%Z in Hk. change (dayno (mkdate 1970 1 1)) with 0%Z in Hk70. lia. }
  assert (Ez : (k70 * day_ns + tod_ns t = z + epoch2000)%Z).
  { unfold z. rewrite E70. change epoch2000 with (10957 * day_ns)%Z. lia. }
  rewrite Ez in *.
  split; [apply mjd2000_f_val; [exact V|exact Hk|unfold in_clock; fold z; lia]|].
  split; [apply timestamp_f_val; lia|].
  rewrite wrap64_id by lia.
  split; [lia|]. split; [intros H; pose proof (stamp_bound_60 z H); lia|].
  intros n Hn. assert (Zn : z = ((32 * k + n) * 2700000000000)%Z) by (unfold z; rewrite Hn; unfold day_ns; lia).
  rewrite Zn, stamp_dyadic by lia. reflexivity.
Qed.

(** Rounding to the nearest microsecond undoes the error. *)
Lemma nearest_us ts e : (e mod 1000 = 0)%Z -> (Z.abs (ts - e) <= 392)%Z -> (1000 * ((ts + 500) / 1000) = e)%Z.
Proof. intros A B. pose proof (Z.div_mod e 1000 ltac:(lia)). pose proof (Z.div_mod (ts + 500) 1000 ltac:(lia)). pose proof (Z.mod_pos_bound (ts + 500) 1000 ltac:(lia)). lia. Qed.

Lemma microseconds_survive y m d t k k70 : valid_date (mkdate y m d) ->
  day_distance (mkdate 2000 1 1) (mkdate y m d) k -> day_distance (mkdate 1970 1 1) (mkdate y m d) k70 ->
  (Z.abs (k * day_ns + tod_ns t) <= 2^60)%Z -> (tod_ns t mod 1000 = 0)%Z ->
  exists x ts, mjd2000_f y m d (hh t) (mi t) (ss t) (us t) (nns t) = Ok x /\ timestamp_f x = Some ts /\
    (1000 * ((ts + 500) / 1000) = k70 * day_ns + tod_ns t)%Z.
Proof.
  intros V Hk Hk70 C Hm.
  assert (E70 : k70 = (k + 10957)%Z).
  { apply day_distance_unique in Hk; [|apply jan1_valid|exact V]. apply day_distance_unique in Hk70; [|apply jan1_valid|exact V].
    change (dayno (mkdate 2000 1 1)) with 10957%Z in Hk. change (dayno (mkdate 1970 1 1)) with 0%Z in Hk70. lia. }
  destruct (timestamp_of_mjd2000 y m d t k k70 V Hk Hk70) as (x & ts & E1 & E2 & _ & E3 & _); [unfold day_ns in *; lia|unfold day_ns in *; lia|].
  exists x, ts. split; [exact E1|]. split; [exact E2|]. apply nearest_us; [|apply E3; exact C].
  rewrite Z.add_mod, Hm by lia. unfold day_ns. rewrite <- Z.mul_mod_idemp_r by lia. change (86400 * 1000000000 mod 1000)%Z with 0%Z. rewrite Z.mul_0_r. reflexivity.
Qed.

Lemma timestamp_example : exists x, mjd2000_f 2003 5 3 13 52 15 0 0 = Ok x /\
  exists ts, timestamp_f x = Some ts /\ (ts = 12175 * day_ns + tod_ns (mktod 13 52 15 0 0) - 16)%Z /\
  day_distance (mkdate 1970 1 1) (mkdate 2003 5 3) 12175.
Proof.
  assert (V : valid_date (mkdate 2003 5 3)) by (vm_compute; repeat split; congruence).
  assert (D : day_distance (mkdate 2000 1 1) (mkdate 2003 5 3) 1218) by (vm_compute; reflexivity).
  exists (fdays 105285135000000000). split.
  - exact (mjd2000_f_val 2003 5 3 (mktod 13 52 15 0 0) 1218 V D ltac:(vm_compute; split; congruence)).
  - eexists. split; [apply timestamp_f_val; rewrite docstring_instant; split; reflexivity|]. rewrite docstring_instant. split; [vm_compute; reflexivity|].
    vm_compute. reflexivity.
Qed.

Lemma degree_double : forall x, (0 <= x <= 2 ^ 50)%Z -> int_sqrt x = (Z.sqrt x - 1)%Z.
Proof. intros x H. apply (proj1 (int_sqrt_double x H)). Qed.

Lemma degree_of_full n : (0 <= n <= 2 ^ 24)%Z -> int_sqrt (n * (n + 2) + 1) = n.
Proof.
  intros H. rewrite degree_double by nia. replace (n * (n + 2) + 1)%Z with ((n + 1) * (n + 1))%Z by ring. rewrite Z.sqrt_square by lia. lia.
Qed.

Lemma degree_of_position k n : (0 <= k < 2 ^ 50)%Z -> (1 <= n)%Z -> (n * n - 1 <= k < (n + 1) * (n + 1) - 1)%Z -> floor_sqrt k = (n - 1)%Z.
Proof.
  intros H Hn Hk. unfold floor_sqrt. rewrite (proj2 (int_sqrt_double (k + 1) ltac:(lia))).
  rewrite (Z.sqrt_unique (k + 1) n) by (rewrite <- Z.add_1_r; lia). reflexivity.
Qed.

Lemma early_new_year' : exists x, double x /\ x < 366 /\ mjd_to_dyear_f x None = Ok 2001.
Proof. exists (366 - / 17592186044416). destruct early_new_year as [A B]. split; [exact A|]. split; [lra|exact B]. Qed.
