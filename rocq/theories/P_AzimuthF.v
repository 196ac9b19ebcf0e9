(** Proofs about M_AzimuthF. *)
From Coq Require Import ZArith Reals Lia Lra Psatz.
From Flocq Require Import Core Sterbenz.
From Verif Require Import Spec_Float M_AzimuthF P_Float.
Open Scope R_scope.

Local Notation fexp := (FLT_exp (-1074) 53).
Local Instance prec53 : Prec_gt_0 53. Proof. reflexivity. Qed.
Local Instance valid53 : Valid_exp fexp := FLT_exp_valid (-1074) 53.

Lemma trunc_pos x : 0 <= x -> IZR (Ztrunc x) <= x < IZR (Ztrunc x) + 1.
Proof. intros H. rewrite Ztrunc_floor by assumption. split; [apply Zfloor_lb|apply Zfloor_ub]. Qed.

Lemma trunc_neg x : x <= 0 -> IZR (Ztrunc x) - 1 < x <= IZR (Ztrunc x).
Proof.
  intros H. rewrite Ztrunc_ceil by assumption. split; [|apply Zceil_ub].
  unfold Zceil. rewrite opp_IZR. pose proof (Zfloor_ub (- x)). lra.
Qed.

Lemma fmod_pos a b : 0 < b -> 0 <= a -> 0 <= fmod a b < b /\ fmod a b <= a.
Proof.
  intros Hb Ha. unfold fmod. assert (H : 0 <= a / b) by (apply Rmult_le_pos; [lra|left; apply Rinv_0_lt_compat; lra]).
  pose proof (trunc_pos _ H) as [L U]. set (k := IZR (Ztrunc (a / b))) in *.
  assert (E : a = a / b * b) by (field; lra). set (q := a / b) in *.
  assert (0 <= k). { unfold k. apply IZR_le. rewrite Ztrunc_floor by assumption. apply Zfloor_lub. exact H. }
  assert (k * b <= q * b) by (apply Rmult_le_compat_r; lra).
  assert (q * b < (k + 1) * b) by (apply Rmult_lt_compat_r; lra).
  assert (0 <= k * b) by (apply Rmult_le_pos; lra).
  lra.
Qed.

Lemma fmod_opp a b : fmod (- a) b = - fmod a b.
Proof.
  unfold fmod. replace (- a / b) with (- (a / b)) by (unfold Rdiv; ring). rewrite Ztrunc_opp, opp_IZR. ring.
Qed.

Lemma fmod_neg a b : 0 < b -> a <= 0 -> - b < fmod a b <= 0 /\ a <= fmod a b.
Proof.
  intros Hb Ha. pose proof (fmod_pos (- a) b Hb ltac:(lra)) as H. rewrite fmod_opp in H. lra.
Qed.

Lemma fmod_bound a b : 0 < b -> Rabs (fmod a b) < b /\ Rabs (fmod a b) <= Rabs a.
Proof.
  intros Hb. destruct (Rle_lt_dec 0 a) as [P|N].
  - pose proof (fmod_pos a b Hb P). rewrite !Rabs_pos_eq; lra.
  - pose proof (fmod_neg a b Hb ltac:(lra)). rewrite !Rabs_left1; lra.
Qed.

(** fmod is exact *)
Lemma fmod_double a (n : Z) : (0 < n <= 2 ^ 53)%Z -> double a -> double (fmod a (IZR n)).
Proof.
  intros Hn (m & e & E & Hm & He).
  assert (Hb : 0 < IZR n) by (apply IZR_lt; lia).
  pose proof (fmod_bound a (IZR n) Hb) as [B1 B2].
  destruct (Z_le_gt_dec e 0) as [Le|Gt].
  - assert (V : fmod a (IZR n) = IZR (m - Ztrunc (a / IZR n) * n * 2 ^ (- e)) * powerRZ 2 e).
    { unfold fmod. set (k := Ztrunc (a / IZR n)). rewrite minus_IZR, !mult_IZR, E.
      assert (P : IZR (2 ^ (- e)) * powerRZ 2 e = 1).
      { rewrite powerRZ_bpow. rewrite <- (bpow_lt_Z (- e) 0) by lia. rewrite <- bpow_plus. replace (- e + e)%Z with 0%Z by lia. reflexivity. }
      rewrite Rmult_minus_distr_r. rewrite (Rmult_assoc (IZR k * IZR n)), P. ring. }
    rewrite V in *. set (z := (m - Ztrunc (a / IZR n) * n * 2 ^ (- e))%Z) in *.
    exists z, e. split; [reflexivity|]. split; [|exact He].
    assert (P : 0 < powerRZ 2 e) by (rewrite powerRZ_bpow; apply bpow_gt_0).
    rewrite E, !Rabs_mult, !(Rabs_pos_eq (powerRZ 2 e)) in B2 by lra.
    apply Rmult_le_reg_r in B2; [|exact P]. rewrite <- !abs_IZR in B2. apply le_IZR in B2. lia.
  - assert (V : fmod a (IZR n) = IZR (m * 2 ^ e - Ztrunc (a / IZR n) * n)).
    { unfold fmod. rewrite minus_IZR, !mult_IZR, E, powerRZ_bpow. rewrite (bpow_lt_Z e 0) by lia. reflexivity. }
    rewrite V in *. apply double_int. rewrite <- abs_IZR in B1. apply lt_IZR in B1. lia.
Qed.

(** The remainder *)
Lemma np_mod_cases a (n : Z) : (0 < n <= 2 ^ 53)%Z -> double a ->
  double (np_mod a (IZR n)) /\ 0 <= np_mod a (IZR n) <= IZR n /\
  (0 <= fmod a (IZR n) -> np_mod a (IZR n) = fmod a (IZR n) /\ np_mod a (IZR n) < IZR n) /\
  (fmod a (IZR n) < 0 -> np_mod a (IZR n) = rn (fmod a (IZR n) + IZR n)).
Proof.
  intros Hn Da. assert (Hb : 0 < IZR n) by (apply IZR_lt; lia).
  pose proof (fmod_bound a (IZR n) Hb) as [B1 _]. unfold np_mod.
  pose proof (fmod_double a n Hn Da) as Df. apply Rabs_lt_inv in B1.
  destruct (Rlt_bool_spec (fmod a (IZR n)) 0) as [N|P].
  - split; [apply rn_double|]. split; [|split; [lra|reflexivity]].
    split; [apply rn_ge; [exact (double_int 0 ltac:(lia))|lra]|apply rn_le; [apply double_int; lia|lra]].
  - split; [exact Df|]. split; [lra|]. split; [lra|lra].
Qed.

Lemma np_mod_congr a (n : Z) e : (0 < n <= 2 ^ 53)%Z -> (-1020 <= e)%Z -> IZR n <= bpow radix2 e -> double a ->
  exists k : Z, Rabs (np_mod a (IZR n) + IZR k * IZR n - a) <= bpow radix2 (e - 54).
Proof.
  intros Hn He Hne Da. assert (Hb : 0 < IZR n) by (apply IZR_lt; lia).
  destruct (np_mod_cases a n Hn Da) as (_ & _ & C1 & C2).
  pose proof (fmod_bound a (IZR n) Hb) as [B1 _]. apply Rabs_lt_inv in B1.
  destruct (Rle_lt_dec 0 (fmod a (IZR n))) as [P|N].
  - destruct (C1 P) as [-> _]. exists (Ztrunc (a / IZR n)). unfold fmod.
    replace (_ - a) with 0 by ring. rewrite Rabs_R0. apply bpow_ge_0.
  - rewrite (C2 N). exists (Ztrunc (a / IZR n) - 1)%Z. rewrite minus_IZR.
    replace (_ - a) with (rn (fmod a (IZR n) + IZR n) - (fmod a (IZR n) + IZR n)) by (unfold fmod; ring).
    apply rn_err; [exact He|]. rewrite Rabs_pos_eq; lra.
Qed.

(** ** Azimuth *)
Lemma minus360 p : double p -> 180 < p <= 360 -> rn (p - 360) = p - 360.
Proof.
  intros D H. apply rn_id, double_format.
  assert (F6 : generic_format radix2 fexp 360) by (apply double_format, (double_int 360); lia).
  apply double_format in D.
  apply (sterbenz radix2 fexp p 360 D F6). lra.
Qed.

Lemma center_cases phi : double phi -> exists p, double p /\ 0 <= p <= 360 /\ p = np_mod phi 360 /\
  ((p <= 180 /\ center_azimuth_f phi = p) \/ (180 < p /\ center_azimuth_f phi = p - 360)).
Proof.
  intros D. destruct (np_mod_cases phi 360 ltac:(lia) D) as (D' & B & _). exists (np_mod phi 360).
  split; [exact D'|]. split; [exact B|]. split; [reflexivity|]. unfold center_azimuth_f. cbv zeta.
  destruct (Rlt_bool_spec 180 (np_mod phi 360)) as [L|L].
  - right. split; [exact L|]. apply minus360; [exact D'|lra].
  - left. split; [exact L|reflexivity].
Qed.

Lemma center_range phi : double phi -> double (center_azimuth_f phi) /\ -180 < center_azimuth_f phi <= 180.
Proof.
  intros D. destruct (center_cases phi D) as (p & Dp & B & _ & [[L ->]|[L ->]]).
  - split; [exact Dp|lra].
  - split; [|lra]. rewrite <- minus360 by (first [assumption | lra]). apply rn_double.
Qed.

Lemma center_congr phi : double phi -> exists k : Z, Rabs (center_azimuth_f phi + 360 * IZR k - phi) <= bpow radix2 (-45).
Proof.
  intros D. destruct (center_cases phi D) as (p & Dp & B & E & C).
  destruct (np_mod_congr phi 360 9 ltac:(lia) ltac:(lia) ltac:(cbn; lra) D) as (k & Hk). rewrite <- E in Hk.
  change (9 - 54)%Z with (-45)%Z in Hk. destruct C as [[L ->]|[L ->]].
  - exists k. rewrite (Rmult_comm 360). exact Hk.
  - exists (k + 1)%Z. rewrite plus_IZR. replace (p - 360 + 360 * (IZR k + 1) - phi) with (p + IZR k * 360 - phi) by ring. exact Hk.
Qed.

Lemma center_exact phi : double phi -> 0 <= phi -> exists k : Z, center_azimuth_f phi + 360 * IZR k = phi.
Proof.
  intros D P. destruct (center_cases phi D) as (p & Dp & B & E & C).
  destruct (np_mod_cases phi 360 ltac:(lia) D) as (_ & _ & C1 & _).
  destruct (C1 (proj1 (proj1 (fmod_pos phi 360 ltac:(lra) P)))) as [E' _]. rewrite E' in E. unfold fmod in E.
  destruct C as [[L ->]|[L ->]].
  - exists (Ztrunc (phi / 360)). lra.
  - exists (Ztrunc (phi / 360) + 1)%Z. rewrite plus_IZR. lra.
Qed.

Lemma np_mod_small a (n : Z) : (0 < n)%Z -> 0 <= a < IZR n -> np_mod a (IZR n) = a.
Proof.
  intros Hn H. assert (Hb : 0 < IZR n) by (apply IZR_lt; lia).
  assert (E : fmod a (IZR n) = a).
  { unfold fmod. replace (Ztrunc (a / IZR n)) with 0%Z; [ring|]. symmetry.
    assert (0 <= a / IZR n) by (apply Rmult_le_pos; [lra|left; apply Rinv_0_lt_compat; lra]).
    rewrite Ztrunc_floor by assumption. apply Zfloor_imp. split; [exact H0|]. cbn.
    apply Rmult_lt_reg_r with (IZR n); [lra|]. unfold Rdiv. rewrite Rmult_assoc, Rinv_l by lra. lra. }
  unfold np_mod. rewrite E. destruct (Rlt_bool_spec a 0); [lra|reflexivity].
Qed.

Lemma np_mod_small_neg a (n : Z) : (0 < n)%Z -> - IZR n < a < 0 -> np_mod a (IZR n) = rn (a + IZR n).
Proof.
  intros Hn H. assert (Hb : 0 < IZR n) by (apply IZR_lt; lia).
  assert (E : fmod a (IZR n) = a).
  { unfold fmod. replace (Ztrunc (a / IZR n)) with 0%Z; [ring|]. symmetry.
    rewrite <- (Ropp_involutive a). replace (- - a / IZR n) with (- (- a / IZR n)) by (unfold Rdiv; ring). rewrite Ztrunc_opp.
    assert (0 <= - a / IZR n) by (apply Rmult_le_pos; [lra|left; apply Rinv_0_lt_compat; lra]).
    rewrite Ztrunc_floor by assumption. replace (Zfloor (- a / IZR n)) with 0%Z; [reflexivity|]. symmetry. apply Zfloor_imp. split; [exact H0|]. cbn.
    apply Rmult_lt_reg_r with (IZR n); [lra|]. unfold Rdiv. rewrite Rmult_assoc, Rinv_l by lra. lra. }
  unfold np_mod. rewrite E. destruct (Rlt_bool_spec a 0); [reflexivity|lra].
Qed.

Lemma center_keeps phi : 0 <= phi <= 180 -> center_azimuth_f phi = phi.
Proof.
  intros H. unfold center_azimuth_f. cbv zeta. rewrite (np_mod_small phi 360) by (first [lia | lra]).
  destruct (Rlt_bool_spec 180 phi); [lra|reflexivity].
Qed.

Lemma center_idem phi : double phi -> center_azimuth_f (center_azimuth_f phi) = center_azimuth_f phi.
Proof.
  intros D. destruct (center_cases phi D) as (p & Dp & B & E & C).
  destruct C as [[L ->]|[L ->]].
  - apply center_keeps. lra.
  - destruct (Req_dec p 360) as [E6|N6].
    + rewrite E6. replace (360 - 360) with 0 by ring. apply center_keeps. lra.
    + unfold center_azimuth_f at 1. cbv zeta. rewrite (np_mod_small_neg (p - 360) 360) by (first [lia | lra]).
      replace (p - 360 + 360) with p by ring. rewrite (rn_id p Dp).
      destruct (Rlt_bool_spec 180 p); [|lra]. apply minus360; [exact Dp|lra].
Qed.

(** A tie goes to the even neighbour: m odd, x half-way between m and m+1 units. *)
Lemma rn_tie_up x e m : (-1020 <= e)%Z -> bpow radix2 (e - 1) <= Rabs x < bpow radix2 e -> Z.even m = false ->
  x = (IZR m + / 2) * bpow radix2 (e - 53) -> rn x = IZR (m + 1) * bpow radix2 (e - 53).
Proof.
  intros He Hb Odd E. unfold rn, round, F2R. cbn [Fnum Fexp].
  assert (C : cexp radix2 fexp x = (e - 53)%Z).
  { unfold cexp. rewrite (mag_unique radix2 x e Hb). unfold FLT_exp. lia. }
  rewrite C. f_equal. f_equal. unfold scaled_mantissa. rewrite C.
  replace (x * bpow radix2 (- (e - 53))) with (IZR m + / 2).
  2: { rewrite E, Rmult_assoc, <- bpow_plus. replace (e - 53 + - (e - 53))%Z with 0%Z by lia. cbn [bpow]. ring. }
  assert (F : Zfloor (IZR m + / 2) = m) by (apply Zfloor_imp; rewrite plus_IZR; lra).
  unfold Znearest. rewrite F. rewrite Rcompare_Eq by lra. rewrite Odd. cbn [negb].
  rewrite Zceil_floor_neq; [rewrite F; reflexivity|]. rewrite F. lra.
Qed.

Lemma rn_tie360 : rn (360 - bpow radix2 (-45)) = 360.
Proof.
  rewrite (rn_tie_up _ 9 (360 * 2 ^ 44 - 1)%Z).
  - rewrite Z.sub_add. rewrite mult_IZR. rewrite <- (bpow_lt_Z 44 0) by lia. rewrite Rmult_assoc, <- bpow_plus. cbn. ring.
  - lia.
  - rewrite Rabs_pos_eq; cbn; lra.
  - reflexivity.
  - cbn. lra.
Qed.

Lemma rn_tie1 : rn (1 - bpow radix2 (-54)) = 1.
Proof.
  rewrite (rn_tie_up _ 0 (2 ^ 53 - 1)%Z).
  - cbn. lra.
  - lia.
  - rewrite Rabs_pos_eq; cbn; lra.
  - reflexivity.
  - cbn. lra.
Qed.

Lemma center_tiny phi : - bpow radix2 (-45) <= phi < 0 -> center_azimuth_f phi = 0.
Proof.
  intros H. unfold center_azimuth_f. cbv zeta. rewrite (np_mod_small_neg phi 360) by (first [lia | cbn in H; lra]).
  assert (E : rn (phi + 360) = 360).
  { apply Rle_antisym.
    - apply rn_le; [apply (double_int 360); lia|lra].
    - rewrite <- rn_tie360 at 1. apply rn_mono. lra. }
  rewrite E. destruct (Rlt_bool_spec 180 360); [|lra]. rewrite minus360; [ring|apply (double_int 360); lia|lra].
Qed.

(** ** Local time *)
Lemma below_one p : double p -> p < 1 -> p <= 1 - bpow radix2 (-53).
Proof.
  intros D H. assert (S : p <= pred radix2 fexp 1).
  { apply pred_ge_gt; [typeclasses eauto| | |exact H]; apply double_format; [exact D|apply (double_int 1); lia]. }
  eapply Rle_trans; [exact S|]. change 1 with (bpow radix2 0). rewrite pred_bpow. unfold FLT_exp. cbn. lra.
Qed.

Lemma times24 p : double p -> 0 <= p < 1 -> 0 <= rn (p * 24) < 24.
Proof.
  intros D H. pose proof (below_one p D ltac:(lra)) as B. split.
  - apply rn_ge; [apply (double_int 0); lia|lra].
  - apply Rle_lt_trans with (24 - bpow radix2 (-48)); [|cbn; lra].
    apply Rle_trans with (rn ((1 - bpow radix2 (-53)) * 24)); [apply rn_mono; lra|].
    rewrite (rn_eval _ 5 (24 * 2 ^ 48 - 1)%Z).
    + rewrite minus_IZR, mult_IZR. rewrite <- (bpow_lt_Z 48 0) by lia. cbn. lra.
    + lia.
    + rewrite Rabs_pos_eq; cbn; lra.
    + apply Rabs_lt. rewrite minus_IZR, mult_IZR. rewrite <- (bpow_lt_Z 48 0) by lia. cbn. lra.
Qed.

Lemma double_units a : double a -> 1 <= Rabs a -> exists k : Z, a = IZR k * bpow radix2 (-52).
Proof.
  intros D H. apply double_format in D. unfold generic_format, F2R in D. cbn [Fnum Fexp] in D.
  set (c := cexp radix2 fexp a) in *. set (m := Ztrunc _) in *.
  assert (Hc : (-52 <= c)%Z).
  { unfold c, cexp, FLT_exp. assert (1 <= mag radix2 a)%Z; [|lia].
    apply mag_ge_bpow. exact H. }
  exists (m * 2 ^ (c + 52))%Z. rewrite mult_IZR. rewrite <- (bpow_lt_Z (c + 52) 0) by lia.
  rewrite Rmult_assoc, <- bpow_plus. replace (c + 52 + -52)%Z with c by lia. exact D.
Qed.

Lemma rn_below_one y : 0 <= y < 1 - bpow radix2 (-54) -> rn y < 1.
Proof.
  intros H. destruct (Rlt_le_dec (rn y) 1) as [L|G]; [exact L|exfalso].
  assert (E : rn y = 1). { apply Rle_antisym; [|exact G]. apply rn_le; [apply (double_int 1); lia|]. assert (0 < bpow radix2 (-54)) by apply bpow_gt_0. lra. }
  destruct (round_N_pt radix2 fexp (fun z => negb (Z.even z)) y) as [_ N].
  assert (F : generic_format radix2 fexp (1 - bpow radix2 (-53))).
  { apply double_format. exists (2 ^ 53 - 1)%Z, (-53)%Z. split; [rewrite powerRZ_bpow; cbn; lra|split; [cbv; reflexivity|lia]]. }
  specialize (N _ F). fold (rn y) in N. change (round radix2 fexp (Znearest (fun z : Z => negb (Z.even z))) y) with (rn y) in N.
  rewrite E in N. cbn in H. destruct H as [H0 H1]. unfold Rabs in N. cbn in N.
  destruct (Rcase_abs (1 - y)), (Rcase_abs (1 - _ - y)); lra.
Qed.

Lemma mod1_range s : double s -> (np_mod s 1 < 1 \/ (np_mod s 1 = 1 /\ - bpow radix2 (-54) <= s < 0)) /\
  (- bpow radix2 (-54) <= s < 0 -> np_mod s 1 = 1).
Proof.
  intros D. assert (T : - bpow radix2 (-54) <= s < 0 -> np_mod s 1 = 1).
  { intros H. rewrite (np_mod_small_neg s 1) by (first [lia | cbn in H; lra]). apply Rle_antisym.
    - apply rn_le; [apply (double_int 1); lia|lra].
    - rewrite <- rn_tie1 at 1. apply rn_mono. lra. }
  split; [|exact T].
  destruct (np_mod_cases s 1 ltac:(lia) D) as (_ & _ & C1 & C2).
  destruct (Rle_lt_dec 0 (fmod s 1)) as [P|N]; [left; apply (C1 P)|].
  destruct (Rle_lt_dec (- bpow radix2 (-54)) s) as [G|L].
  - assert (s < 0). { destruct (Rle_lt_dec 0 s) as [Q|Q]; [|exact Q]. pose proof (fmod_pos s 1 ltac:(lra) Q). lra. }
    right. split; [apply T; lra|lra].
  - left. rewrite (C2 N). apply rn_below_one.
    assert (Hs : s < 0) by (pose proof (bpow_gt_0 radix2 (-54)); lra).
    pose proof (fmod_neg s 1 ltac:(lra) ltac:(lra)) as [B _]. split; [lra|].
    destruct (Rlt_le_dec (-1) s) as [S1|S1].
    + assert (E : fmod s 1 = s).
      { unfold fmod. replace (Ztrunc (s / 1)) with 0%Z; [ring|]. symmetry. replace (s / 1) with (- - s) by field. rewrite Ztrunc_opp, Ztrunc_floor by lra.
        replace (Zfloor (- s)) with 0%Z; [reflexivity|]. symmetry. apply Zfloor_imp. cbn. lra. }
      rewrite E. lra.
    + assert (A1 : 1 <= Rabs s) by (rewrite Rabs_left; lra).
      destruct (double_units s D A1) as (k & Ek).
      assert (E : fmod s 1 = IZR (k - Ztrunc (s / 1) * 2 ^ 52) * bpow radix2 (-52)).
      { unfold fmod. set (t := Ztrunc (s / 1)). rewrite minus_IZR, mult_IZR. rewrite <- (bpow_lt_Z 52 0) by lia.
        rewrite Rmult_minus_distr_r, <- Ek. rewrite (Rmult_assoc (IZR t)), <- bpow_plus. cbn. ring. }
      set (z := (k - Ztrunc (s / 1) * 2 ^ 52)%Z) in *.
      assert (Hz : (z <= -1)%Z). { assert (IZR z < 0). { apply Rmult_lt_reg_r with (bpow radix2 (-52)); [apply bpow_gt_0|]. lra. } apply lt_IZR in H. lia. }
      apply IZR_le in Hz. rewrite E. cbn. cbn in Hz. lra.
Qed.

Lemma local_range time phi : double time -> double phi -> let s := rn (time + rn (phi / 360)) in
  double (local_time_f time phi) /\ 0 <= local_time_f time phi <= 24 /\
  (local_time_f time phi = 24 <-> - bpow radix2 (-54) <= s < 0).
Proof.
  intros Dt Dp s. split; [apply rn_double|]. unfold local_time_f. fold s.
  assert (Ds : double s) by apply rn_double.
  destruct (np_mod_cases s 1 ltac:(lia) Ds) as (Dm & B & _). destruct (mod1_range s Ds) as [C T]. cbn in B.
  split.
  - split; [apply rn_ge; [apply (double_int 0); lia|lra]|apply rn_le; [apply (double_int 24); lia|lra]].
  - split.
    + intros E. destruct C as [L|[_ H]]; [|exact H]. pose proof (times24 _ Dm ltac:(lra)). lra.
    + intros H. rewrite (T H), Rmult_1_l. apply rn_id, (double_int 24). lia.
Qed.

Lemma local_error time phi : Rabs time <= 131071 -> Rabs phi <= 360 -> 
  exists k : Z, Rabs (local_time_f time phi + 24 * IZR k - 24 * (time + phi / 360)) <= 1.8e-10.
Proof.
  intros Ht Hp. unfold local_time_f. set (q := rn (phi / 360)). set (s := rn (time + q)).
  apply Rabs_le_inv in Ht. apply Rabs_le_inv in Hp.
  assert (E1 : Rabs (q - phi / 360) <= bpow radix2 (0 - 54)).
  { apply rn_err; [lia|]. apply Rabs_le. cbn. lra. }
  assert (Q : -1 <= q <= 1).
  { split; [apply rn_ge; [apply (double_int (-1)); lia|lra]|apply rn_le; [apply (double_int 1); lia|lra]]. }
  assert (E2 : Rabs (s - (time + q)) <= bpow radix2 (17 - 54)).
  { apply rn_err; [lia|]. apply Rabs_le. cbn. lra. }
  assert (Ds : double s) by apply rn_double.
  destruct (np_mod_congr s 1 0 ltac:(lia) ltac:(lia) ltac:(cbn; lra) Ds) as (k & E3). cbn [IZR IPR] in E3.
  destruct (np_mod_cases s 1 ltac:(lia) Ds) as (Dm & B & _). set (m := np_mod s 1) in *.
  assert (E4 : Rabs (rn (m * 24) - m * 24) <= bpow radix2 (5 - 54)).
  { apply rn_err; [lia|]. apply Rabs_le. cbn. lra. }
  exists k. cbn in E1, E2, E3, E4.
  apply Rabs_le_inv in E1, E2, E3, E4. apply Rabs_le. lra.
Qed.

Lemma local_24 : exists time phi, double time /\ double phi /\ local_time_f time phi = 24.
Proof.
  exists 0, (- (360 * powerRZ 2 (-60))). 
  assert (D0 : double 0) by (apply (double_int 0); lia).
  assert (D1 : double (- (360 * powerRZ 2 (-60)))). { exists (-360)%Z, (-60)%Z. split; [ring|lia]. }
  split; [exact D0|]. split; [exact D1|].
  apply (local_range _ _ D0 D1). rewrite powerRZ_bpow.
  replace (- (360 * bpow radix2 (-60)) / 360) with (- bpow radix2 (-60)) by field.
  assert (Db : double (- bpow radix2 (-60))). { exists (-1)%Z, (-60)%Z. split; [rewrite powerRZ_bpow; ring|lia]. }
  rewrite (rn_id _ Db), Rplus_0_l, (rn_id _ Db). cbn. lra.
Qed.
