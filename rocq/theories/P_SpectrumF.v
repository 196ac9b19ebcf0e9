(** Proofs about M_SpectrumF *)
From Coq Require Import ZArith Reals List String Permutation Lia Lra Psatz.
From Flocq Require Import Core.
From Verif Require Import M_Prelude M_Spectrum M_SpectrumF Spec_Float Spec_Rounding Spec_Field P_Float P_Synth P_Rounding P_Spectrum P_Chaos4.
Import ListNotations.
Open Scope R_scope.

Lemma near_low k x y : INR k <= 1000000 -> 0 <= x -> near k x y -> 0.9 * x <= y.
Proof.
  intros Hk Hx N. pose proof (near_err k x y Hk N) as E. rewrite (Rabs_pos_eq x Hx) in E. apply Rabs_le_inv in E.
  assert (0 <= INR k) by apply pos_INR. nra.
Qed.
Lemma normal_ge x : bpow radix2 (-1022) <= x -> normal x.
Proof. intros H. right. rewrite powerRZ_bpow. pose proof (bpow_gt_0 radix2 (-1022)). rewrite Rabs_pos_eq; lra. Qed.

Lemma sqnn g : 0 <= g * g.
Proof. apply Rle_0_sqr. Qed.
Lemma sqs_nn l : 0 <= Rsum (map (fun g => g * g) l).
Proof. apply P_Rounding.Rsum_nonneg. induction l; constructor; [apply sqnn|assumption]. Qed.
Lemma sum_near l : moderate l -> forall s,
  fsum (map (fun g => rn (g * g)) l) s -> (INR (List.length l) <= 1000000) ->
  near (List.length l) (Rsum (map (fun g => g * g) l)) s /\ (s = 0 \/ bpow radix2 (-601) <= s).
Proof.
  intros H s F Hl. unfold moderate, sizeable in H. rewrite powerRZ_bpow in H.
  assert (Sq : List.Forall (fun g => normal (g * g)) l).
  { revert H. apply Forall_impl. intros g [_ [->|G]]; [left; ring|]. right. rewrite powerRZ_bpow, Rabs_mult.
    apply Rle_trans with (bpow radix2 (-300) * bpow radix2 (-300)).
    - rewrite <- bpow_plus. apply bpow_le. lia.
    - apply Rmult_le_compat; try apply bpow_ge_0; assumption. }
  assert (S1 : near 1 (Rsum (map (fun g => g * g) l)) (Rsum (map (fun g => rn (g * g)) l))).
  { clear - Sq. induction Sq as [|g l Hg Sq IH]; [apply near_refl|]. cbn. apply near_add; [apply sqnn|apply sqs_nn|apply near_rn, Hg|exact IH]. }
  assert (N : List.Forall (fun x => 0 <= x) (map (fun g => rn (g * g)) l)).
  { clear. induction l; constructor; [apply rn_ge; [apply (double_int 0); lia|apply sqnn]|assumption]. }
  assert (D : List.Forall double (map (fun g => rn (g * g)) l)).
  { clear. induction l; constructor; [apply rn_double|assumption]. }
  destruct (fsum_near _ _ F D N) as (Ds & Ns & E & Ne). rewrite map_length in E.
  assert (L1 : (1 <= List.length l)%nat) by (destruct l; [exfalso; apply Ne; reflexivity|cbn; lia]).
  assert (E2 : near (List.length l) (Rsum (map (fun g => g * g) l)) s).
  { eapply near_mono; [|eapply near_trans; [exact S1|exact E]]. lia. }
  split; [exact E2|].
  assert (Z : Rsum (map (fun g => g * g) l) = 0 \/ bpow radix2 (-600) <= Rsum (map (fun g => g * g) l)).
  { clear - H. induction H as [|g l [_ Hg] H IH]; [left; reflexivity|]. unfold Rsum in *; cbn [map fold_right]; fold (Rsum (map (fun g => g * g) l)) in *.
    assert (0 <= Rsum (map (fun g => g * g) l)) by apply sqs_nn.
    destruct Hg as [->|Hg].
    - destruct IH as [IH|IH]; [left; unfold Rsum in *; lra|right; unfold Rsum in *; lra].
    - right. assert (bpow radix2 (-600) <= g * g); [|unfold Rsum in *; lra].
      replace (g * g) with (Rabs g * Rabs g) by (rewrite <- Rabs_mult; apply Rabs_pos_eq, sqnn).
      change (-600)%Z with (-300 + -300)%Z. rewrite bpow_plus. apply Rmult_le_compat; try apply bpow_ge_0; assumption. }
  destruct Z as [Z|Z].
  - left. rewrite Z in E2. apply (near_zero _ _ E2).
  - right. assert (0 <= Rsum (map (fun g => g * g) l)) by (pose proof (bpow_gt_0 radix2 (-600)); lra).
    pose proof (near_low _ _ _ Hl H0 E2) as X. change (-601)%Z with (-1 + -600)%Z. rewrite bpow_plus. pose proof (bpow_gt_0 radix2 (-600)).
    change (bpow radix2 (-1)) with (/ 2). lra.
Qed.

Lemma slice_forall {A} (P : A -> Prop) a b l : List.Forall P l -> List.Forall P (slice a b l).
Proof.
  intros H. unfold slice. rewrite Forall_forall in *. intros x Hx. apply H.
  assert (In x (skipn a l)) by (rewrite <- (firstn_skipn (b - a) (skipn a l)); apply in_or_app; left; exact Hx).
  rewrite <- (firstn_skipn a l). apply in_or_app. right. assumption.
Qed.
Lemma slice_length {A} a b (l : list A) : (b <= List.length l)%nat -> List.length (slice a b l) = (b - a)%nat.
Proof. intros H. unfold slice. rewrite firstn_length, skipn_length. lia. Qed.

(** The product of factor and sum *)
Lemma spectrum_generic kf F l n f s : (1 <= n)%nat -> (n * (n + 2) <= List.length l)%nat ->
  INR (kf + 2 * n + 3) <= 1000000 ->
  moderate l ->
  bpow radix2 (-300) <= F -> near kf F f ->
  fsum (map (fun g => rn (g * g)) (slice (n ^ 2 - 1) (n ^ 2 - 1 + (2 * n + 1)) l)) s ->
  near (kf + 2 * n + 2) (F * degree_power l n) (rn (f * s)).
Proof.
  intros Hn Hl HK HD HF Nf Fs.
  assert (L : List.length (slice (n ^ 2 - 1) (n ^ 2 - 1 + (2 * n + 1)) l) = (2 * n + 1)%nat).
  { rewrite slice_length; [lia|]. cbn [Nat.pow]. nia. }
  assert (B1 : INR (2 * n + 1) <= 1000000) by (eapply Rle_trans; [|exact HK]; apply le_INR; lia).
  assert (B2 : INR kf <= 1000000) by (eapply Rle_trans; [|exact HK]; apply le_INR; lia).
  destruct (sum_near _ (slice_forall _ _ _ _ HD) s Fs) as [Ns Zs]; [rewrite L; exact B1|]. rewrite L in Ns.
  assert (HF0 : 0 < F) by (pose proof (bpow_gt_0 radix2 (-300)); lra).
  pose proof (near_low _ _ _ B2 (Rlt_le _ _ HF0) Nf) as Lf.
  assert (E : Rsum (map (fun g => g * g) (slice (n ^ 2 - 1) (n ^ 2 - 1 + (2 * n + 1)) l)) = degree_power l n).
  { rewrite <- sum_sq; [rewrite npsum_Rsum; reflexivity|exact Hn|cbn [Nat.pow]; nia]. }
  rewrite E in Ns.
  replace (kf + 2 * n + 2)%nat with ((kf + (2 * n + 1)) + 1)%nat by lia.
  eapply near_trans; [apply near_mul; [exact Nf|exact Ns]|]. apply near_rn.
  destruct Zs as [->|Zs]; [left; ring|]. apply normal_ge.
  apply Rle_trans with (bpow radix2 (-301) * bpow radix2 (-601)); [rewrite <- bpow_plus; apply bpow_le; lia|].
  apply Rmult_le_compat; try apply bpow_ge_0; [|exact Zs].
  change (-301)%Z with (-1 + -300)%Z. rewrite bpow_plus. change (bpow radix2 (-1)) with (/ 2). pose proof (bpow_gt_0 radix2 (-300)). lra.
Qed.

Lemma INR_le_k k : INR k <= 1000000 -> forall j, (j <= k)%nat -> INR j <= 1000000.
Proof. intros H j Hj. eapply Rle_trans; [apply le_INR, Hj|exact H]. Qed.

Lemma base_lower x m : 0 < x -> (1 <= m)%nat -> bpow radix2 (-300) <= x ^ m -> bpow radix2 (-300) <= x.
Proof.
  intros Hx Hm H. destruct (Rle_lt_dec 1 x) as [G|L].
  - apply Rle_trans with 1; [change 1 with (bpow radix2 0); apply bpow_le; lia|exact G].
  - eapply Rle_trans; [exact H|]. destruct m as [|m]; [lia|]. cbn [pow].
    assert (P : 0 <= x ^ m <= 1); [|nra]. clear H Hm. induction m as [|m IH]; cbn [pow]; [lra|]. nra.
Qed.

Lemma powerRZ_nat_neg x (m : nat) : powerRZ x (- Z.of_nat m) = / x ^ m.
Proof. destruct m as [|m]; [cbn; symmetry; apply Rinv_1|]. cbn [Z.of_nat Z.opp powerRZ]. rewrite SuccNat2Pos.id_succ. reflexivity. Qed.

(** r**k, k >= 0 and k <= 0 *)
Lemma pow_near p pow x m : accurate_pow p pow -> normal x -> 0 < x -> near (m + p) (x ^ m) (pow (rn x) (Z.of_nat m)).
Proof.
  intros A N P. pose proof (near_rn x N) as R1. assert (0 < rn x).
  { destruct R1 as (q & T & ->). apply Rmult_lt_0_compat; [exact P|apply (Th_pos 1), T]. }
  eapply near_trans; [|apply A; [apply rn_double|assumption]]. rewrite <- pow_powerRZ.
  replace m with (m * 1)%nat at 1 by lia. apply near_pow, R1.
Qed.
Lemma pow_near_neg p pow x m : accurate_pow p pow -> normal x -> 0 < x -> near (m + p) (/ x ^ m) (pow (rn x) (- Z.of_nat m)%Z).
Proof.
  intros A N P. pose proof (near_rn x N) as R1. assert (0 < rn x).
  { destruct R1 as (q & T & ->). apply Rmult_lt_0_compat; [exact P|apply (Th_pos 1), T]. }
  eapply near_trans; [|apply A; [apply rn_double|assumption]]. rewrite powerRZ_nat_neg. apply near_inv.
  replace m with (m * 1)%nat at 1 by lia. apply near_pow, R1.
Qed.

(** An integer times a power, rounded *)
Lemma times_int k c X y : INR (k + 1) <= 1000000 -> (1 <= c)%nat -> bpow radix2 (-300) <= X -> near k X y ->
  bpow radix2 (-300) <= INR c * X /\ near (k + 1) (INR c * X) (rn (INR c * y)).
Proof.
  intros Hk Hc HX N. assert (1 <= INR c) by (change 1 with (INR 1); apply le_INR, Hc).
  pose proof (bpow_gt_0 radix2 (-300)). assert (X0 : 0 <= X) by lra.
  assert (B : bpow radix2 (-300) <= INR c * X) by nra. split; [exact B|].
  eapply near_trans; [replace k with (0 + k)%nat by lia; apply near_mul; [apply near_refl|exact N]|].
  apply near_rn, normal_ge. pose proof (near_low k X y (INR_le_k _ Hk k ltac:(lia)) X0 N).
  apply Rle_trans with (1 * (0.9 * X)); [|apply Rmult_le_compat; lra].
  apply Rle_trans with (bpow radix2 (-1 + -300)); [apply bpow_le; lia|]. rewrite bpow_plus. change (bpow radix2 (-1)) with (/ 2). lra.
Qed.

Lemma normal_base x : bpow radix2 (-300) <= x -> normal x.
Proof. intros H. apply normal_ge. eapply Rle_trans; [|exact H]. apply bpow_le. lia. Qed.

Lemma internal_near p pow a rad l n w : accurate_pow p pow -> 0 < a -> 0 < rad -> (1 <= n)%nat -> (n * (n + 2) <= List.length l)%nat ->
  moderate l -> bpow radix2 (-300) <= (a / rad) ^ (2 * n + 4) -> INR (4 * n + 8 + p) <= 1000000 ->
  spectrum_f pow a (Some rad) "internal" l n w ->
  near (4 * n + 7 + p) (INR (n + 1) * (a / rad) ^ (2 * n + 4) * degree_power l n) w.
Proof.
  intros A Ha Hr Hn Hl HD HF HK (f & s & Ef & Fs & ->). change (Ok (rn (INR (n + 1) * pow (rn (a / rad)) (2 * Z.of_nat n + 4)%Z)) = Ok f) in Ef. apply Ok_inj in Ef. subst f.
  set (x := a / rad) in *. assert (Px : 0 < x) by (apply Rdiv_lt_0_compat; assumption).
  assert (Bx : bpow radix2 (-300) <= x) by (apply (base_lower x (2 * n + 4)); [exact Px|lia|exact HF]).
  replace (2 * Z.of_nat n + 4)%Z with (Z.of_nat (2 * n + 4)) by lia.
  destruct (times_int (2 * n + 4 + p) (n + 1) _ _ (INR_le_k _ HK (2 * n + 4 + p + 1) ltac:(lia)) ltac:(lia) HF (pow_near p pow x (2 * n + 4) A (normal_base x Bx) Px)) as [B N].
  replace (4 * n + 7 + p)%nat with ((2 * n + 4 + p + 1) + 2 * n + 2)%nat by lia.
  eapply spectrum_generic; [exact Hn|exact Hl|apply (INR_le_k _ HK); lia|exact HD|exact B|exact N|exact Fs].
Qed.

Lemma external_near p pow a rad l n w : accurate_pow p pow -> 0 < a -> 0 < rad -> (1 <= n)%nat -> (n * (n + 2) <= List.length l)%nat ->
  moderate l -> bpow radix2 (-300) <= a / rad -> bpow radix2 (-300) <= (rad / a) ^ (2 * n - 2) -> INR (4 * n + 2 + p) <= 1000000 ->
  spectrum_f pow a (Some rad) "external" l n w ->
  near (4 * n + 1 + p) (INR n * (rad / a) ^ (2 * n - 2) * degree_power l n) w.
Proof.
  intros A Ha Hr Hn Hl HD Bx HF HK (f & s & Ef & Fs & ->). change (Ok (rn (INR n * pow (rn (a / rad)) (- (2 * Z.of_nat n - 2))%Z)) = Ok f) in Ef. apply Ok_inj in Ef. subst f.
  set (x := a / rad) in *. assert (Px : 0 < x) by (apply Rdiv_lt_0_compat; assumption).
  replace (- (2 * Z.of_nat n - 2))%Z with (- Z.of_nat (2 * n - 2))%Z by lia.
  assert (E : (rad / a) ^ (2 * n - 2) = / x ^ (2 * n - 2)).
  { rewrite <- pow_inv. f_equal. unfold x. field. lra. }
  rewrite E in *.
  destruct (times_int (2 * n - 2 + p) n _ _ (INR_le_k _ HK (2 * n - 2 + p + 1) ltac:(lia)) Hn HF (pow_near_neg p pow x (2 * n - 2) A (normal_base x Bx) Px)) as [B N].
  replace (4 * n + 1 + p)%nat with ((2 * n - 2 + p + 1) + 2 * n + 2)%nat by lia.
  eapply spectrum_generic; [exact Hn|exact Hl|apply (INR_le_k _ HK); lia|exact HD|exact B|exact N|exact Fs].
Qed.

Lemma toroidal_near pow a radius l n w : (1 <= n)%nat -> (n * (n + 2) <= List.length l)%nat ->
  moderate l -> INR (2 * n + 4) <= 1000000 ->
  spectrum_f pow a radius "toroidal" l n w ->
  near (2 * n + 3) (INR (n * (n + 1)) / INR (2 * n + 1) * degree_power l n) w.
Proof.
  intros Hn Hl HD HK (f & s & Ef & Fs & ->). change (Ok (rn (INR (n * (n + 1)) / INR (2 * n + 1))) = Ok f) in Ef. apply Ok_inj in Ef. subst f.
  assert (P : bpow radix2 (-1) <= INR (n * (n + 1)) / INR (2 * n + 1)).
  { assert (0 < INR (2 * n + 1)) by (apply lt_0_INR; lia). apply Rmult_le_reg_r with (INR (2 * n + 1)); [assumption|].
    unfold Rdiv. rewrite Rmult_assoc, Rinv_l, Rmult_1_r by lra. change (bpow radix2 (-1)) with (/ 2).
    assert (INR (2 * n + 1) <= 2 * INR (n * (n + 1))); [|lra]. change 2 with (INR 2). rewrite <- mult_INR. apply le_INR. nia. }
  replace (2 * n + 3)%nat with (1 + 2 * n + 2)%nat by lia.
  eapply spectrum_generic; [exact Hn|exact Hl|apply (INR_le_k _ HK); lia|exact HD| | |exact Fs].
  - eapply Rle_trans; [|exact P]. apply bpow_le. lia.
  - apply near_rn, normal_ge. eapply Rle_trans; [|exact P]. apply bpow_le. lia.
Qed.

(** Without a radius there are no powers *)
Lemma surface_near pow a l n w c source : (source = "internal"%string /\ c = (n + 1)%nat) \/ (source = "external"%string /\ c = n) ->
  (1 <= n)%nat -> (n * (n + 2) <= List.length l)%nat ->
  moderate l -> INR (2 * n + 4) <= 1000000 ->
  spectrum_f pow a None source l n w ->
  near (2 * n + 3) (INR c * degree_power l n) w.
Proof.
  intros HS Hn Hl HD HK (f & s & Ef & Fs & ->).
  assert (Ec : f = rn (INR c * 1) /\ (1 <= c)%nat).
  { destruct HS as [[-> ->]|[-> ->]].
    - change (Ok (rn (INR (n + 1) * 1)) = Ok f) in Ef. apply Ok_inj in Ef. split; [congruence|lia].
    - change (Ok (rn (INR n * 1)) = Ok f) in Ef. apply Ok_inj in Ef. split; [congruence|lia]. }
  destruct Ec as [-> Hc]. rewrite Rmult_1_r.
  assert (P : bpow radix2 0 <= INR c) by (change (bpow radix2 0) with (INR 1); apply le_INR, Hc).
  replace (2 * n + 3)%nat with (1 + 2 * n + 2)%nat by lia.
  eapply spectrum_generic; [exact Hn|exact Hl|apply (INR_le_k _ HK); lia|exact HD| | |exact Fs].
  - eapply Rle_trans; [|exact P]. apply bpow_le. lia.
  - apply near_rn, normal_ge. eapply Rle_trans; [|exact P]. apply bpow_le. lia.
Qed.

Lemma fsum_exists l : l <> [] -> exists s, fsum l s.
Proof.
  induction l as [|x l IH]; intros H; [congruence|]. destruct l as [|y l].
  - exists x. constructor.
  - destruct IH as (s & Hs); [discriminate|]. exists (rn (x + s)). apply (fsum_add [x] (y :: l)); [constructor|exact Hs|reflexivity].
Qed.
Lemma spectrum_f_exists pow a radius source l n : (1 <= n)%nat -> (n * (n + 2) <= List.length l)%nat ->
  source = "internal"%string \/ source = "external"%string \/ source = "toroidal"%string -> exists w, spectrum_f pow a radius source l n w.
Proof.
  intros Hn Hl HS.
  assert (L : List.length (slice (n ^ 2 - 1) (n ^ 2 - 1 + (2 * n + 1)) l) = (2 * n + 1)%nat).
  { rewrite slice_length; [lia|]. cbn [Nat.pow]. nia. }
  destruct (fsum_exists (map (fun g => rn (g * g)) (slice (n ^ 2 - 1) (n ^ 2 - 1 + (2 * n + 1)) l))) as (s & Hs).
  { intros E. apply (f_equal (@List.length R)) in E. rewrite map_length, L in E. cbn in E. lia. }
  destruct HS as [-> |[-> | ->]]; eexists; eexists; exists s; (split; [reflexivity|]); split; [exact Hs|reflexivity|exact Hs|reflexivity|exact Hs|reflexivity].
Qed.

Lemma to_error k W w : INR (k + 1) <= 1000000 -> 0 <= W -> near k W w -> Rabs (w - W) <= 1.2e-16 * INR k * W.
Proof.
  intros H P N. pose proof (near_err k W w (INR_le_k _ H k ltac:(lia)) N) as E. rewrite (Rabs_pos_eq W P) in E. exact E.
Qed.

Theorem internal_error p pow a rad l n w : accurate_pow p pow -> 0 < a -> 0 < rad -> (1 <= n)%nat -> (n * (n + 2) <= List.length l)%nat ->
  moderate l -> bpow radix2 (-300) <= (a / rad) ^ (2 * n + 4) -> INR (4 * n + 8 + p) <= 1000000 ->
  spectrum_f pow a (Some rad) "internal" l n w ->
  let W := INR (n + 1) * (a / rad) ^ (2 * n + 4) * degree_power l n in Rabs (w - W) <= 1.2e-16 * INR (4 * n + 7 + p) * W.
Proof.
  intros A Ha Hr Hn Hl HD HF HK Hw W. apply to_error.
  - replace (4 * n + 7 + p + 1)%nat with (4 * n + 8 + p)%nat by lia. exact HK.
  - apply Rmult_le_pos; [|apply degree_power_nonneg]. apply Rmult_le_pos; [apply pos_INR|]. apply pow_le. left. apply Rdiv_lt_0_compat; assumption.
  - apply (internal_near p pow a rad); assumption.
Qed.
Theorem external_error p pow a rad l n w : accurate_pow p pow -> 0 < a -> 0 < rad -> (1 <= n)%nat -> (n * (n + 2) <= List.length l)%nat ->
  moderate l -> bpow radix2 (-300) <= a / rad -> bpow radix2 (-300) <= (rad / a) ^ (2 * n - 2) -> INR (4 * n + 2 + p) <= 1000000 ->
  spectrum_f pow a (Some rad) "external" l n w ->
  let W := INR n * (rad / a) ^ (2 * n - 2) * degree_power l n in Rabs (w - W) <= 1.2e-16 * INR (4 * n + 1 + p) * W.
Proof.
  intros A Ha Hr Hn Hl HD HX HF HK Hw W. apply to_error.
  - replace (4 * n + 1 + p + 1)%nat with (4 * n + 2 + p)%nat by lia. exact HK.
  - apply Rmult_le_pos; [|apply degree_power_nonneg]. apply Rmult_le_pos; [apply pos_INR|]. apply pow_le. left. apply Rdiv_lt_0_compat; assumption.
  - apply (external_near p pow a rad); assumption.
Qed.
Theorem toroidal_error pow a radius l n w : (1 <= n)%nat -> (n * (n + 2) <= List.length l)%nat ->
  moderate l -> INR (2 * n + 4) <= 1000000 -> spectrum_f pow a radius "toroidal" l n w ->
  let W := INR (n * (n + 1)) / INR (2 * n + 1) * degree_power l n in Rabs (w - W) <= 1.2e-16 * INR (2 * n + 3) * W.
Proof.
  intros Hn Hl HD HK Hw W. apply to_error.
  - replace (2 * n + 3 + 1)%nat with (2 * n + 4)%nat by lia. exact HK.
  - apply Rmult_le_pos; [|apply degree_power_nonneg]. apply Rmult_le_pos; [apply pos_INR|]. left. apply Rinv_0_lt_compat, lt_0_INR. lia.
  - apply (toroidal_near pow a radius); assumption.
Qed.
Theorem surface_error pow a l n w : (1 <= n)%nat -> (n * (n + 2) <= List.length l)%nat ->
  moderate l -> INR (2 * n + 4) <= 1000000 ->
  (spectrum_f pow a None "internal" l n w ->
    let W := INR (n + 1) * degree_power l n in Rabs (w - W) <= 1.2e-16 * INR (2 * n + 3) * W) /\
  (spectrum_f pow a None "external" l n w ->
    let W := INR n * degree_power l n in Rabs (w - W) <= 1.2e-16 * INR (2 * n + 3) * W).
Proof.
  intros Hn Hl HD HK.
  assert (HK' : INR (2 * n + 3 + 1) <= 1000000) by (replace (2 * n + 3 + 1)%nat with (2 * n + 4)%nat by lia; exact HK).
  split; intros Hw W; apply to_error; try exact HK';
    try (apply Rmult_le_pos; [apply pos_INR|apply degree_power_nonneg]).
  - apply (surface_near pow a l n w (n + 1) "internal"); auto.
  - apply (surface_near pow a l n w n "external"); auto.
Qed.
