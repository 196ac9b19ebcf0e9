(** Proofs about the time functions. *)
From Coq Require Import ZArith QArith Qround List Bool Lia Zify ZifyBool.
From Coq Require Import Lqa.
From Verif Require Import M_Prelude Spec_Calendar M_Time.
Import ListNotations.
Open Scope Z_scope.

Ltac ediv := Z.to_euclidean_division_equations; lia.

Lemma leapb_is_leap y : is_leap_year y = leapb y.
Proof.
  unfold is_leap_year, leapb.
  destruct (Z.eqb_spec (y mod 400) 0) as [H4|H4];
  destruct (Z.eqb_spec (y mod 100) 0) as [H1|H1];
  destruct (Z.eqb_spec (y mod 4) 0) as [H0|H0]; simpl; try reflexivity; exfalso; ediv.
Qed.

Lemma leapb_rule y : leapb y = true <-> leap_rule y.
Proof.
  unfold leapb, leap_rule.
  rewrite <- !Z.mod_divide by lia.
  destruct (Z.eqb_spec (y mod 400) 0) as [H4|H4];
  destruct (Z.eqb_spec (y mod 100) 0) as [H1|H1];
  destruct (Z.eqb_spec (y mod 4) 0) as [H0|H0]; split; intros; try lia; ediv.
Qed.

(** Closed form of NumPy's day count. *)
Definition leaps_before (y : Z) : Z := (y-1)/4 - (y-1)/100 + (y-1)/400.
Definition cum_month (lp : bool) (m : Z) : Z :=
  fold_left Z.add (firstn (Z.to_nat (m - 1)) (np_days_per_month lp)) 0.

Lemma fold_add_acc l a : fold_left Z.add l a = a + fold_left Z.add l 0.
Proof.
  revert a; induction l as [|x r IH]; intros a; cbn [fold_left]; [lia|].
  rewrite IH. rewrite (IH (0 + x)). lia.
Qed.

Lemma np_days_closed y m d :
  np_days y m d = 365 * (y - 1970) + leaps_before y - 477
                  + cum_month (is_leap_year y) m + (d - 1).
Proof.
  unfold np_days. rewrite fold_add_acc. fold (cum_month (is_leap_year y) m).
  assert (H : (if 0 <=? (y - 1970) * 365
      then (y - 1970) * 365 + Z.quot (y - 1970 + 1) 4 - Z.quot (y - 1970 + 1 + 68) 100
           + Z.quot (y - 1970 + 1 + 68 + 300) 400
      else (y - 1970) * 365 + Z.quot (y - 1970 - 2) 4 - Z.quot (y - 1970 - 2 - 28) 100
           + Z.quot (y - 1970 - 2 - 28) 400)
     = 365 * (y - 1970) + leaps_before y - 477).
  { unfold leaps_before. destruct (Z.leb_spec 0 ((y-1970)*365)); ediv. }
  cbv zeta. rewrite H. lia.
Qed.

Lemma month_cases m : 1 <= m <= 12 ->
  m=1 \/ m=2 \/ m=3 \/ m=4 \/ m=5 \/ m=6 \/ m=7 \/ m=8 \/ m=9 \/ m=10 \/ m=11 \/ m=12.
Proof. lia. Qed.

Ltac months H :=
  let H' := fresh in
  pose proof (month_cases _ H) as H';
  repeat (destruct H' as [H'|H']); subst.

Lemma np_month_nth y m : 1 <= m <= 12 ->
  nth (Z.to_nat (m - 1)) (np_days_per_month (is_leap_year y)) 0 = month_length y m.
Proof.
  intros H. rewrite leapb_is_leap. unfold month_length.
  months H; cbn; try reflexivity; destruct (leapb y); reflexivity.
Qed.

Lemma cum_month_step lp m : 1 <= m < 12 ->
  cum_month lp (m + 1) = cum_month lp m + nth (Z.to_nat (m-1)) (np_days_per_month lp) 0.
Proof.
  intros H. assert (H' : 1 <= m <= 12) by lia.
  destruct lp; months H'; try lia; reflexivity.
Qed.

Lemma cum_month_1 lp : cum_month lp 1 = 0. Proof. reflexivity. Qed.
Lemma cum_month_12 lp : cum_month lp 12 = if lp then 335 else 334.
Proof. destruct lp; reflexivity. Qed.

Lemma cum_month_bound y m : 1 <= m <= 12 ->
  0 <= cum_month (is_leap_year y) m /\
  cum_month (is_leap_year y) m + month_length y m <= days_per_year y.
Proof.
  intros H. unfold days_per_year. rewrite <- np_month_nth by assumption.
  unfold cum_month. destruct (is_leap_year y); months H; split; vm_compute; discriminate.
Qed.

Lemma leaps_step y : leaps_before (y + 1) = leaps_before y + (if is_leap_year y then 1 else 0).
Proof.
  unfold leaps_before, is_leap_year.
  destruct (Z.eqb_spec (y mod 400) 0) as [H4|H4];
  destruct (Z.eqb_spec (y mod 100) 0) as [H1|H1];
  destruct (Z.eqb_spec (y mod 4) 0) as [H0|H0]; simpl; ediv.
Qed.

Lemma np_days_year y : np_days (y + 1) 1 1 = np_days y 1 1 + days_per_year y.
Proof.
  rewrite !np_days_closed, !cum_month_1, leaps_step. unfold days_per_year.
  destruct (is_leap_year y); lia.
Qed.

Definition dayno (d : date) : Z := np_days (yr d) (mo d) (dy d).

Lemma valid_next d : valid_date d -> valid_date (next_date d).
Proof.
  destruct d as [y m d]. unfold valid_date, next_date. cbn [yr mo dy]. intros [Hm Hd].
  destruct (Z.ltb_spec d (month_length y m)); cbn [yr mo dy]; [lia|].
  assert (L : forall yy mm, 28 <= month_length yy mm <= 31).
  { intros. unfold month_length. destruct (mm =? 2), (leapb yy), ((mm =? 4) || (mm =? 6) || (mm =? 9) || (mm =? 11)); lia. }
  destruct (Z.ltb_spec m 12); cbn [yr mo dy].
  - specialize (L y (m+1)). lia.
  - specialize (L (y+1) 1). lia.
Qed.

Lemma dayno_next d : valid_date d -> dayno (next_date d) = dayno d + 1.
Proof.
  destruct d as [y m d]. unfold valid_date, next_date, dayno. cbn [yr mo dy]. intros [Hm Hd].
  destruct (Z.ltb_spec d (month_length y m)) as [Hl|Hl]; cbn [yr mo dy].
  - rewrite !np_days_closed. lia.
  - assert (d = month_length y m) by lia. subst d.
    destruct (Z.ltb_spec m 12) as [H12|H12]; cbn [yr mo dy].
    + rewrite !np_days_closed, cum_month_step by lia. rewrite np_month_nth by lia. lia.
    + assert (m = 12) by lia. subst m.
      rewrite np_days_year, !np_days_closed, cum_month_1, cum_month_12.
      unfold month_length, days_per_year. cbn. destruct (is_leap_year y); lia.
Qed.

Lemma days_later_S n d : days_later (S n) d = next_date (days_later n d).
Proof. revert d; induction n as [|n IH]; intros d; [reflexivity|]. cbn [days_later] in *. rewrite <- IH. reflexivity. Qed.

Lemma valid_days_later n d : valid_date d -> valid_date (days_later n d).
Proof. revert d; induction n as [|n IH]; intros d H; cbn; auto using valid_next. Qed.

Lemma dayno_days_later n d : valid_date d -> dayno (days_later n d) = dayno d + Z.of_nat n.
Proof.
  revert d; induction n as [|n IH]; intros d H; cbn [days_later]; [lia|].
  rewrite IH by auto using valid_next. rewrite dayno_next by assumption. lia.
Qed.

(** Chronological order and day numbers. *)
Lemma np_days_in_year d : valid_date d ->
  np_days (yr d) 1 1 <= dayno d < np_days (yr d) 1 1 + days_per_year (yr d).
Proof.
  destruct d as [y m d]. unfold valid_date, dayno. cbn [yr mo dy]. intros [Hm Hd].
  rewrite !np_days_closed, cum_month_1. pose proof (cum_month_bound y m Hm). lia.
Qed.

Lemma np_days_year_mono_S y (n : nat) : np_days y 1 1 + 365 * Z.of_nat n <= np_days (y + Z.of_nat n) 1 1.
Proof.
  induction n as [|n IH].
  - replace (y + Z.of_nat 0) with y by lia. lia.
  - replace (y + Z.of_nat (S n)) with (y + Z.of_nat n + 1) by lia.
    rewrite np_days_year. unfold days_per_year. destruct (is_leap_year _); lia.
Qed.

Lemma np_days_year_mono y1 y2 : y1 <= y2 -> np_days y1 1 1 + 365 * (y2 - y1) <= np_days y2 1 1.
Proof.
  intros H. pose proof (np_days_year_mono_S y1 (Z.to_nat (y2 - y1))) as L.
  replace (y1 + Z.of_nat (Z.to_nat (y2 - y1))) with y2 in L by lia. lia.
Qed.

Lemma nth_month_nonneg lp m : 1 <= m <= 12 ->
  0 <= nth (Z.to_nat (m - 1)) (np_days_per_month lp) 0.
Proof. intros H; destruct lp; months H; vm_compute; discriminate. Qed.

Lemma cum_month_mono_nat lp m (n : nat) : 1 <= m -> m + Z.of_nat n + 1 <= 12 ->
  cum_month lp m + nth (Z.to_nat (m-1)) (np_days_per_month lp) 0 <= cum_month lp (m + Z.of_nat n + 1).
Proof.
  induction n as [|n IH]; intros H1 H2.
  - replace (m + Z.of_nat 0) with m by lia. rewrite cum_month_step by lia. lia.
  - rewrite cum_month_step by lia.
    replace (m + Z.of_nat (S n)) with (m + Z.of_nat n + 1) by lia.
    assert (0 <= nth (Z.to_nat (m + Z.of_nat n + 1 - 1)) (np_days_per_month lp) 0).
    { apply nth_month_nonneg. lia. }
    specialize (IH ltac:(lia) ltac:(lia)). lia.
Qed.

Lemma dayno_lt a b : valid_date a -> valid_date b -> date_lt a b -> dayno a < dayno b.
Proof.
  intros Ha Hb [Hy|[Hy [Hm|[Hm Hd]]]].
  - pose proof (np_days_in_year a Ha) as Ba. pose proof (np_days_in_year b Hb) as Bb.
    pose proof (np_days_year (yr a)). pose proof (np_days_year_mono (yr a + 1) (yr b) ltac:(lia)). lia.
  - destruct a as [y m d], b as [y' m' d']; cbn [yr mo dy] in *. subst y'.
    unfold dayno; cbn [yr mo dy]. rewrite !np_days_closed.
    destruct Ha as [Ha1 Ha2], Hb as [Hb1 Hb2]; cbn [yr mo dy] in *.
    pose proof (cum_month_mono_nat (is_leap_year y) m (Z.to_nat (m' - m - 1)) ltac:(lia) ltac:(lia)) as L.
    replace (m + Z.of_nat (Z.to_nat (m' - m - 1)) + 1) with m' in L by lia.
    rewrite np_month_nth in L by lia. lia.
  - destruct a as [y m d], b as [y' m' d']; cbn [yr mo dy] in *. subst.
    unfold dayno; cbn [yr mo dy]. rewrite !np_days_closed. lia.
Qed.

Lemma date_trichotomy a b : a = b \/ date_lt a b \/ date_lt b a.
Proof.
  destruct a as [y m d], b as [y' m' d']. unfold date_lt; cbn.
  destruct (Z.lt_trichotomy y y') as [H|[H|H]]; [lia| |lia].
  destruct (Z.lt_trichotomy m m') as [H2|[H2|H2]]; [lia| |lia].
  destruct (Z.lt_trichotomy d d') as [H3|[H3|H3]]; [lia| |lia].
  left. subst. reflexivity.
Qed.

Lemma dayno_inj a b : valid_date a -> valid_date b -> dayno a = dayno b -> a = b.
Proof.
  intros Ha Hb E. destruct (date_trichotomy a b) as [H|[H|H]]; [exact H| |].
  - pose proof (dayno_lt a b Ha Hb H). lia.
  - pose proof (dayno_lt b a Hb Ha H). lia.
Qed.

Lemma day_distance_dayno a b : valid_date a -> valid_date b ->
  day_distance a b (dayno b - dayno a).
Proof.
  intros Ha Hb. unfold day_distance.
  destruct (Z.leb_spec 0 (dayno b - dayno a)).
  - apply dayno_inj; auto using valid_days_later. rewrite dayno_days_later by assumption. lia.
  - apply dayno_inj; auto using valid_days_later. rewrite dayno_days_later by assumption. lia.
Qed.

Lemma day_distance_unique a b k : valid_date a -> valid_date b ->
  day_distance a b k -> k = dayno b - dayno a.
Proof.
  intros Ha Hb. unfold day_distance. destruct (Z.leb_spec 0 k); intros E.
  - apply (f_equal dayno) in E. rewrite dayno_days_later in E by assumption. lia.
  - apply (f_equal dayno) in E. rewrite dayno_days_later in E by assumption. lia.
Qed.

(** C01 *)
Lemma leap_year_366 y :
  (is_leap_year y = true <-> days_later 366 (mkdate y 1 1) = mkdate (y+1) 1 1) /\
  (is_leap_year y = false <-> days_later 365 (mkdate y 1 1) = mkdate (y+1) 1 1).
Proof.
  assert (V : forall z, valid_date (mkdate z 1 1)) by (intros z; unfold valid_date; cbn; lia).
  assert (K : forall n, days_later n (mkdate y 1 1) = mkdate (y+1) 1 1 <-> Z.of_nat n = days_per_year y).
  { intros n. split; intros E.
    - apply (f_equal dayno) in E. rewrite dayno_days_later in E by auto.
      unfold dayno in E; cbn [yr mo dy] in E. rewrite np_days_year in E. lia.
    - apply dayno_inj; auto using valid_days_later. rewrite dayno_days_later by auto.
      unfold dayno; cbn [yr mo dy]. rewrite np_days_year. lia. }
  rewrite !K. unfold days_per_year. destruct (is_leap_year y); split; split; intros; try lia; try congruence.
Qed.

(** wrap-around arithmetic *)
Lemma wrap64_id z : - 2^63 <= z < 2^63 -> wrap64 z = z.
Proof. intros. unfold wrap64. rewrite Z.mod_small; lia. Qed.

Lemma wrap64_mod z : exists k, wrap64 z = z + k * 2^64.
Proof. unfold wrap64. exists (- ((z + 2^63) / 2^64)). pose proof (Z.div_mod (z + 2^63) (2^64) ltac:(lia)). lia. Qed.

Lemma wrap64_shift z k : wrap64 (z + k * 2^64) = wrap64 z.
Proof. unfold wrap64. replace (z + k * 2^64 + 2^63) with (z + 2^63 + k * 2^64) by lia. now rewrite Z.mod_add by lia. Qed.

Lemma wrap64_add_l a b : wrap64 (wrap64 a + b) = wrap64 (a + b).
Proof. destruct (wrap64_mod a) as [k ->]. rewrite <- (wrap64_shift (a+b) k). f_equal. lia. Qed.
Lemma wrap64_add_r a b : wrap64 (a + wrap64 b) = wrap64 (a + b).
Proof. rewrite Z.add_comm, wrap64_add_l. f_equal. lia. Qed.

Lemma wrap64_add a b : wrap64 (wrap64 a + wrap64 b) = wrap64 (a + b).
Proof. now rewrite wrap64_add_l, wrap64_add_r. Qed.

Lemma wrap64_eq a b : (exists k, a = b + k * 2^64) -> wrap64 a = wrap64 b.
Proof. intros [k ->]. apply wrap64_shift. Qed.

Lemma epoch2000_val : epoch2000 = 10957 * ns_per_day. Proof. reflexivity. Qed.

Lemma np_parse_ok y m d : valid_date (mkdate y m d) ->
  np_parse_date y m d = Ok (wrap64 (np_days y m d * ns_per_day)).
Proof.
  unfold valid_date; cbn [yr mo dy]; intros [Hm Hd]. unfold np_parse_date.
  rewrite np_month_nth by assumption.
  replace ((1 <=? m) && (m <=? 12)) with true by lia.
  replace ((1 <=? d) && (d <=? month_length y m)) with true by lia. reflexivity.
Qed.

Lemma np_parse_err y m d : ~ valid_date (mkdate y m d) -> np_parse_date y m d = Err ValueError.
Proof.
  unfold valid_date; cbn [yr mo dy]; intros H. unfold np_parse_date.
  destruct ((1 <=? m) && (m <=? 12)) eqn:Em; [|reflexivity].
  rewrite np_month_nth by lia.
  destruct ((1 <=? d) && (d <=? month_length y m)) eqn:Ed; [|reflexivity]. exfalso; apply H; lia.
Qed.

Lemma mjd2000_exact y m d t : valid_date (mkdate y m d) ->
  mjd2000 y m d (hh t) (mi t) (ss t) (us t) (nns t) =
  Ok (inject_Z (wrap64 ((np_days y m d - 10957) * ns_per_day + tod_ns t)) / inject_Z ns_per_day)%Q.
Proof.
  intros V. unfold mjd2000. rewrite (np_parse_ok _ _ _ V). unfold ns_to_mjd.
  do 3 f_equal. rewrite epoch2000_val.
  apply wrap64_eq.
  repeat match goal with
  | |- context [wrap64 ?a] =>
      match a with
      | context [wrap64 _] => fail 1
      | _ => let k := fresh "k" in let E := fresh "E" in
             destruct (wrap64_mod a) as [k E]; rewrite E; clear E
      end
  end.
  unfold tod_ns, ns_per_day.
  exists (k + k0 + k1 + k2 + k3 + k4 + k5 + k6 + k7 + k8 + k9). lia.
Qed.


Lemma mjd2000_counts_days y m d t k :
  valid_date (mkdate y m d) ->
  day_distance (mkdate 2000 1 1) (mkdate y m d) k ->
  in_clock k t ->
  exists q, mjd2000 y m d (hh t) (mi t) (ss t) (us t) (nns t) = Ok q /\
            (q == inject_Z k + inject_Z (tod_ns t) / inject_Z day_ns)%Q.
Proof.
  intros V Hk Hc. apply day_distance_unique in Hk; [|split; cbn; lia|exact V].
  eexists; split; [apply mjd2000_exact; exact V|].
  unfold dayno in Hk; cbn [yr mo dy] in Hk. change (np_days 2000 1 1) with 10957 in Hk.
  rewrite <- Hk. unfold in_clock in Hc. change day_ns with ns_per_day in *.
  rewrite wrap64_id by lia.
  rewrite inject_Z_plus, inject_Z_mult. field. discriminate.
Qed.

Lemma mjd2000_invalid y m d h mi s us ns :
  ~ valid_date (mkdate y m d) -> mjd2000 y m d h mi s us ns = Err ValueError.
Proof. intros H. unfold mjd2000. now rewrite np_parse_err. Qed.

Lemma mjd2000_valid_ok y m d h mi s us ns :
  valid_date (mkdate y m d) -> exists q, mjd2000 y m d h mi s us ns = Ok q.
Proof. intros H. unfold mjd2000. rewrite np_parse_ok by assumption. eauto. Qed.

Lemma mapM_err_in {A B} (f : A -> result B) l x e :
  In x l -> f x = Err e -> is_err (mapM f l).
Proof.
  induction l as [|a r IH]; intros Hin Hf; [destruct Hin|].
  cbn. destruct Hin as [->|Hin].
  - rewrite Hf. cbn. eexists; reflexivity.
  - destruct (f a); cbn; [|eexists; reflexivity].
    destruct (IH Hin Hf) as [e' ->]. cbn. eexists; reflexivity.
Qed.

Lemma mjd2000_err y m d h mi s us ns e : mjd2000 y m d h mi s us ns = Err e -> e = ValueError.
Proof.
  unfold mjd2000, np_parse_date. destruct ((1 <=? m) && (m <=? 12)); [|intros [= <-]; reflexivity].
  destruct ((1 <=? d) && _); [discriminate|intros [= <-]; reflexivity].
Qed.

Lemma mjd2000_array_invalid l y m d :
  In (y, m, d) l -> ~ valid_date (mkdate y m d) -> mjd2000_array l = Err ValueError.
Proof.
  intros Hin Hv. unfold mjd2000_array. induction l as [|[[y0 m0] d0] l IH]; [destruct Hin|].
  cbn [mapM]. unfold mjd2000_ymd at 1. destruct (mjd2000 y0 m0 d0 0 0 0 0 0) as [q|e] eqn:E; cbn [bind].
  - destruct Hin as [[= -> -> ->]|Hin]; [rewrite mjd2000_invalid in E by exact Hv; discriminate|].
    rewrite (IH Hin). reflexivity.
  - f_equal. exact (mjd2000_err _ _ _ _ _ _ _ _ _ E).
Qed.

(** C04 *)

Lemma tod_normal_range t : tod_normal t -> 0 <= tod_ns t < day_ns.
Proof. unfold tod_normal, tod_ns, day_ns. destruct t; cbn. lia. Qed.

Lemma Zfrac_lt a b c : 0 < c -> a < b -> (inject_Z a / inject_Z c < inject_Z b / inject_Z c)%Q.
Proof.
  intros Hc H. unfold Qdiv. apply Qmult_lt_compat_r.
  - apply Qinv_lt_0_compat. change 0%Q with (inject_Z 0). rewrite <- Zlt_Qlt. lia.
  - rewrite <- Zlt_Qlt. lia.
Qed.

Lemma mjd2000_monotone a ta b tb ka kb :
  valid_date a -> valid_date b -> tod_normal ta -> tod_normal tb ->
  day_distance (mkdate 2000 1 1) a ka -> day_distance (mkdate 2000 1 1) b kb ->
  in_clock ka ta -> in_clock kb tb ->
  inst_lt a ta b tb ->
  exists qa qb,
    mjd2000 (yr a) (mo a) (dy a) (hh ta) (mi ta) (ss ta) (us ta) (nns ta) = Ok qa /\
    mjd2000 (yr b) (mo b) (dy b) (hh tb) (mi tb) (ss tb) (us tb) (nns tb) = Ok qb /\
    (qa < qb)%Q.
Proof.
  intros Va Vb Na Nb Ka Kb Ca Cb Hlt.
  assert (V0 : valid_date (mkdate 2000 1 1)) by (split; cbn; lia).
  apply day_distance_unique in Ka; [|exact V0|exact Va].
  apply day_distance_unique in Kb; [|exact V0|exact Vb].
  rewrite (mjd2000_exact (yr a) (mo a) (dy a) ta) by (destruct a; exact Va).
  rewrite (mjd2000_exact (yr b) (mo b) (dy b) tb) by (destruct b; exact Vb).
  eexists; eexists; split; [reflexivity|split; [reflexivity|]].
  change (dayno (mkdate 2000 1 1)) with 10957 in *. unfold dayno in *. unfold in_clock in *.
  change day_ns with ns_per_day in *.
  pose proof (tod_normal_range ta Na). pose proof (tod_normal_range tb Nb).
  change day_ns with ns_per_day in *.
  rewrite <- Ka, <- Kb. rewrite !wrap64_id by lia.
  apply Zfrac_lt; [reflexivity|].
  destruct Hlt as [Hlt|[Heq Hlt]].
  - pose proof (dayno_lt a b Va Vb Hlt). unfold dayno in *. unfold ns_per_day in *. lia.
  - subst b. assert (ka = kb) by lia. subst kb. lia.
Qed.
