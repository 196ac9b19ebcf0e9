(** Witnesses for the double-precision conversions: correctly rounded library
    functions satisfy the assumptions, and an ordinary point is in range. *)
From Coq Require Import ZArith Reals List Lia Lra Psatz.
From Flocq Require Import Core.
From Verif Require Import Spec_Coord M_Coord P_Coord Spec_Float Spec_Rounding P_Float P_Rounding Spec_CoordF M_CoordF P_CoordF.
Open Scope R_scope.

Lemma rounded_atan2 : accurate_atan2 1 (fun y x => rn (np_arctan2 y x)).
Proof. intros y x a Dy Dx A N. rewrite <- (angle_atan2 _ _ _ A). apply near_rn, N. Qed.

Lemma rounded_trig g : (forall x, Rabs (g x) <= 1) -> accurate_within 1.2e-16 g (fun x => rn (g x)).
Proof.
  intros H x _. eapply Rle_trans; [apply (rn_abs (g x) 1); [|apply H]|rewrite u_val; lra].
  change 1 with (powerRZ 2 0). rewrite !powerRZ_bpow. apply bpow_le. lia.
Qed.

Definition rcos (x : R) : R := rn (cos x).
Definition rsin (x : R) : R := rn (sin x).
Definition ratan2 (y x : R) : R := rn (np_arctan2 y x).

Lemma direction_60_30 : direction 60 30 = V3 (3 / 4) (sqrt 3 / 4) (1 / 2).
Proof.
  unfold direction, deg. replace (60 * (PI / 180)) with (PI / 3) by field. replace (30 * (PI / 180)) with (PI / 6) by field.
  rewrite sin_PI3, cos_PI3, sin_PI6, cos_PI6. f_equal; try field.
  transitivity (sqrt 3 * sqrt 3 / 4); [field|]. rewrite sqrt_sqrt by lra. reflexivity.
Qed.

Lemma between x : 1 <= Rabs x <= 1000000 -> in_range x.
Proof.
  intros [A B]. right. split.
  - eapply Rle_trans; [|exact A]. change 1 with (powerRZ 2 0). rewrite !powerRZ_bpow. apply bpow_le. lia.
  - apply Rle_trans with 1048576; [lra|]. replace 1048576 with (powerRZ 2 20) by (rewrite powerRZ_bpow; reflexivity).
    rewrite !powerRZ_bpow. apply bpow_le. lia.
Qed.

Lemma point_in_range : cart_in_range (spherical_to_cartesian_f rcos rsin 6371 60 30).
Proof.
  pose proof (sph_to_cart_err 1.2e-16 rcos rsin 6371 60 30 (rounded_trig cos cos_1) (rounded_trig sin sin_1)) as W.
  assert (L : large (-1000) 6371).
  { right. rewrite Rabs_pos_eq by lra. apply Rle_trans with 1; [|lra]. change 1 with (powerRZ 2 0). rewrite !powerRZ_bpow. apply bpow_le. lia. }
  assert (H60 : Rabs 60 <= 360) by (rewrite Rabs_pos_eq; lra).
  assert (H30 : Rabs 30 <= 360) by (rewrite Rabs_pos_eq; lra).
  specialize (W ltac:(lra) L H60 H30). rewrite direction_60_30, (Rabs_pos_eq 6371) in W by lra.
  assert (S3 : 1 <= sqrt 3 <= 2).
  { split; [rewrite <- sqrt_1 at 1; apply sqrt_le_1_alt; lra|]. rewrite <- (sqrt_square 2) by lra. apply sqrt_le_1_alt. lra. }
  destruct W as (X & Y & Z). unfold spherical_to_cartesian_f in *. cbn [vx vy vz vscale] in *.
  apply Rabs_le_inv in X, Y, Z.
  split; [|split]; (split; [apply rn_double|apply between; rewrite Rabs_pos_eq; cbn [vx vy vz]; lra]).
Qed.

Lemma spherical_110 : spherical_of (V3 1 1 0) (sqrt 2) 90 45.
Proof.
  split; [|split; [apply sqrt_pos|split; [lra|split; [lra|cbn [vx vy]; lra]]]].
  unfold vscale, direction, deg. cbn [vx vy vz].
  replace (90 * (PI / 180)) with (PI / 2) by field. replace (45 * (PI / 180)) with (PI / 4) by field.
  rewrite sin_PI2, cos_PI2, sin_PI4, cos_PI4. assert (sqrt 2 <> 0) by (apply Rgt_not_eq, sqrt_lt_R0; lra).
  f_equal; field; assumption.
Qed.
Lemma range_110 : cart_in_range (V3 1 1 0).
Proof.
  assert (D1 : double 1) by (apply (double_int 1); lia). assert (D0 : double 0) by (apply (double_int 0); lia).
  assert (I : in_range 1) by (apply between; rewrite Rabs_R1; lra).
  split; [|split]; (split; [assumption|]); try exact I. left. reflexivity.
Qed.
