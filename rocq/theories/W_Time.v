(** Witnesses and small corollaries for Props_Time. *)
From Coq Require Import ZArith QArith Qround Qabs List Lia.
From Verif Require Import M_Prelude Spec_Calendar M_Time P_Time P_Calendar P_Time2.
Import ListNotations.
Open Scope Z_scope.

Lemma leap_year_rule y : is_leap_year_dtype (Some y) = Ok true <-> leap_rule y.
Proof.
  cbn. rewrite leapb_is_leap, <- leapb_rule. split; [intros [= H]; exact H|intros ->; reflexivity].
Qed.

Lemma date_distance_exists d : valid_date d -> exists k, day_distance (mkdate 2000 1 1) d k.
Proof. intros H. eexists. apply day_distance_dayno; [apply jan1_valid|exact H]. Qed.

Lemma distance_of y m d : valid_date (mkdate y m d) ->
  day_distance (mkdate 2000 1 1) (mkdate y m d) (np_days y m d - 10957).
Proof. intros V. exact (day_distance_dayno (mkdate 2000 1 1) (mkdate y m d) (jan1_valid 2000) V). Qed.

Lemma mjd_bounds :
  day_distance (mkdate 2000 1 1) (mkdate 1708 1 1) (-106651) /\
  day_distance (mkdate 2000 1 1) (mkdate 2293 1 1) 107017.
Proof. split; apply distance_of; apply jan1_valid. Qed.

Lemma dyear_round_trip_1700_fails :
  exists (t x t' : Q), (1600 <= t <= 1700)%Q /\
    dyear_to_mjd t None = Ok x /\ mjd_to_dyear x None = Ok t' /\ ~ (t' == t)%Q.
Proof.
  exists (1650#1). do 2 eexists. split; [split; discriminate|].
  split; [vm_compute; reflexivity|]. split; [vm_compute; reflexivity|]. vm_compute. discriminate.
Qed.

Lemma affine_formula t :
  exists x, dyear_to_mjd t (Some false) = Ok x /\ (x == (t - 2000) * (1461 # 4))%Q.
Proof. eexists; split; [reflexivity|]. field. Qed.

Lemma mjd_to_dyear_monotone' (x1 x2 : Q) :
  (-106651 <= x1)%Q -> (x1 < x2)%Q -> (x2 < 107017)%Q ->
  exists t1 t2, mjd_to_dyear x1 None = Ok t1 /\ mjd_to_dyear x2 None = Ok t2 /\ (t1 < t2)%Q.
Proof.
  intros A B C. apply mjd_to_dyear_monotone; [split|split|]; try assumption.
  - eapply Qlt_trans; eassumption.
  - apply Qlt_le_weak. eapply Qle_lt_trans; eassumption.
Qed.

Lemma mjd2000_1700_wrong :
  exists y m d k q,
    1000 <= y <= 9999 /\ valid_date (mkdate y m d) /\
    day_distance (mkdate y m d) (mkdate 2000 1 1) (- k) /\
    mjd2000 y m d 0 0 0 0 0 = Ok q /\ ~ (q == inject_Z k)%Q.
Proof.
  exists 1700, 1, 1, (-109572). eexists.
  split; [lia|]. split; [apply jan1_valid|].
  split; [exact (day_distance_dayno (mkdate 1700 1 1) (mkdate 2000 1 1) (jan1_valid _) (jan1_valid _))|].
  split; [vm_compute; reflexivity|]. vm_compute. discriminate.
Qed.

Lemma mjd2000_years_ok y m d k :
  valid_date (mkdate y m d) -> 1708 <= y <= 2291 ->
  day_distance (mkdate 2000 1 1) (mkdate y m d) k ->
  exists q, mjd2000 y m d 0 0 0 0 0 = Ok q /\ (q == inject_Z k)%Q.
Proof.
  intros V Hy Hk.
  pose proof (day_distance_unique _ _ _ (jan1_valid 2000) V Hk) as E.
  change (dayno (mkdate 2000 1 1)) with 10957 in E.
  pose proof (np_days_in_year _ V) as B. cbn [yr] in B.
  pose proof (jan1_range y ltac:(unfold year_ok; lia)) as R.
  pose proof (jan1_range (y+1) ltac:(unfold year_ok; lia)) as R'.
  rewrite jan1_step in R'. unfold jan1 in *.
  destruct (mjd2000_counts_days y m d (mktod 0 0 0 0 0) k V Hk) as [q [Eq Hq]].
  - unfold in_clock. change (tod_ns _) with 0. unfold day_ns. lia.
  - exists q. split; [exact Eq|]. rewrite Hq. change (tod_ns _) with 0. field. discriminate.
Qed.
