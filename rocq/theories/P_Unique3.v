(** Power spectra under a change of the reference radius; what the radial
    component leaves open. *)
From Coq Require Import Reals List Arith Lia Lra ZArith Bool String.
From Verif Require Import M_Prelude M_ND Spec_Legendre Spec_Field Spec_Analysis M_Legendre M_Synth M_SynthArr M_Spectrum
  P_Legendre2 P_LegendreProps P_Synth P_SynthClosed P_SynthProps P_SynthProps2 P_SHC2 P_Spectrum P_Spectrum2 P_Spectrum3 P_Unique P_Unique2 Props_Spectrum.
Import ListNotations.
Open Scope R_scope.

Lemma degree_power_scale v w k n : (forall m, (m <= n)%nat -> nth (g_position n m) w 0 = k * nth (g_position n m) v 0) ->
  (forall m, (1 <= m <= n)%nat -> nth (h_position n m) w 0 = k * nth (h_position n m) v 0) -> degree_power w n = k * k * degree_power v n.
Proof.
  intros A B. unfold degree_power. rewrite <- Rsum_map_scal. apply Rsum_map_ext. intros m Hm. apply range_incl_spec in Hm.
  rewrite A by lia. destruct (Nat.eqb_spec m 0); [ring|]. rewrite B by lia. ring.
Qed.

Theorem referred_spectrum s a a' N v w r nmax W W' : 0 < a -> 0 < a' -> 0 < r ->
  List.length v = (N * (N + 2))%nat -> List.length w = (N * (N + 2))%nat ->
  (forall n m, (1 <= n <= N)%nat -> (m <= n)%nat -> nth (g_position n m) w 0 = refer s a a' n * nth (g_position n m) v 0) ->
  (forall n m, (1 <= n <= N)%nat -> (1 <= m <= n)%nat -> nth (h_position n m) w 0 = refer s a a' n * nth (h_position n m) v 0) ->
  power_spectrum a (vec 0 v) (Some r) nmax (Some (src_name s)) None = Ok W ->
  power_spectrum a' (vec 0 w) (Some r) nmax (Some (src_name s)) None = Ok W' ->
  sh W' = sh W /\ forall n, (n < nth 0 (sh W) 0)%nat -> at_ W' [n] = at_ W [n].
Proof.
  intros Ha Ha' Hr Lv Lw A B E E'.
  assert (DP : forall n, (1 <= n <= N)%nat -> degree_power w n = refer s a a' n * refer s a a' n * degree_power v n).
  { intros n Hn. apply degree_power_scale; intros m Hm; [apply A|apply B]; (lia || exact Hm). }
  destruct s; cbn [src_name] in E, E'.
  - destruct (C35_internal_spectrum _ _ _ _ _ _ Ha Hr Lv E) as (K & S1 & S2 & S3).
    destruct (C35_internal_spectrum _ _ _ _ _ _ Ha' Hr Lw E') as (K' & T1 & T2 & T3).
    assert (K' = K) as -> by (apply Nat2Z.inj; rewrite S2, T2; reflexivity).
    split; [congruence|]. intros n Hn. rewrite S1 in Hn. cbn [nth] in Hn.
    assert (HK : (K <= N)%nat) by (destruct nmax; lia).
    specialize (S3 (S n) ltac:(lia)). specialize (T3 (S n) ltac:(lia)). replace (S n - 1)%nat with n in * by lia. rewrite S3, T3, DP by lia.
    cbn [refer]. replace (2 * S n + 4)%nat with ((S n + 2) + (S n + 2))%nat by lia. rewrite !pow_add. unfold Rdiv. rewrite !Rpow_mult_distr, !pow_inv.
    field. repeat split; try apply pow_nonzero; lra.
  - destruct (C35_external_spectrum _ _ _ _ _ _ Ha Hr Lv E) as (K & S1 & S2 & S3).
    destruct (C35_external_spectrum _ _ _ _ _ _ Ha' Hr Lw E') as (K' & T1 & T2 & T3).
    assert (K' = K) as -> by (apply Nat2Z.inj; rewrite S2, T2; reflexivity).
    split; [congruence|]. intros n Hn. rewrite S1 in Hn. cbn [nth] in Hn.
    assert (HK : (K <= N)%nat) by (destruct nmax; lia).
    specialize (S3 (S n) ltac:(lia)). specialize (T3 (S n) ltac:(lia)). replace (S n - 1)%nat with n in * by lia. rewrite S3, T3, DP by lia.
    cbn [refer]. replace (2 * S n - 2)%nat with ((S n - 1) + (S n - 1))%nat by lia. rewrite !pow_add. unfold Rdiv. rewrite !Rpow_mult_distr, !pow_inv.
    field. repeat split; try apply pow_nonzero; lra.
Qed.

(** an axial dipole inside and one outside with the same radial component *)
Lemma dipole_r s a g r t p : clo_r s a 1 1 1 (gl [g; 0; 0]) (hl [g; 0; 0]) r t p = rr s (r / a) 1 * kk s 1 * g * cos t.
Proof.
  unfold clo_r. change (range_incl 1 1) with [1%nat]. cbn [map]. rewrite Rsum_cons. change (Rsum []) with 0. unfold sum_r.
  change (range_incl 0 (Nat.min 1 1)) with [0%nat; 1%nat]. cbn [map]. rewrite !Rsum_cons. change (Rsum []) with 0. unfold ang, gl, hl, g_position, h_position.
  cbn [Nat.eqb Nat.mul Nat.sub Nat.add nth]. change (INR 0) with 0. rewrite !Rmult_0_l, cos_0, sin_0. rewrite ex_schmidt_1_0. ring.
Qed.
Theorem radial_ambiguous oob a r : 0 < a -> 0 < r -> exists q, q <> 0 /\
  let call c s theta phi := synth_values oob a (cvec c) (scalar r) (scalar theta) (scalar phi) (Some 1%Z) (Some 1%Z) (Some 1%Z) (Some (src_name s)) false in
  forall theta phi, 0 <= theta <= 180 -> exists F G, call [1; 0; 0] Internal theta phi = Ok F /\ call [q; 0; 0] External theta phi = Ok G /\ f_r F [] = f_r G [].
Proof.
  intros Ha Hr. exists (- (2 * (a / r) ^ 3)). split.
  { assert (0 < (a / r) ^ 3) by (apply pow_lt, Rdiv_lt_0_compat; assumption). lra. }
  intros call t p B. set (q := - (2 * (a / r) ^ 3)).
  destruct (call_exists oob a [1; 0; 0] 1 Internal r t p ltac:(lia) eq_refl B) as (F & EF).
  destruct (call_exists oob a [q; 0; 0] 1 External r t p ltac:(lia) eq_refl B) as (G & EG).
  exists F, G. split; [exact EF|]. split; [exact EG|].
  destruct (at_point oob a [1; 0; 0] 1 Internal r t p F ltac:(lia) eq_refl B EF) as [-> _]. destruct (at_point oob a [q; 0; 0] 1 External r t p G ltac:(lia) eq_refl B EG) as [-> _].
  rewrite !dipole_r. unfold q. cbn [rr kk INR Nat.add Nat.sub pow]. field. split; lra.
Qed.
