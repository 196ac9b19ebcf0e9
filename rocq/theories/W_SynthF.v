(** Witness for C131 *)
From Coq Require Import ZArith Reals List Lia Lra Psatz.
From Flocq Require Import Core.
From Coquelicot Require Import Coquelicot.
From Verif Require Import M_Prelude Spec_Legendre Spec_Field Spec_Float Spec_Rounding Spec_SynthF M_Legendre P_Float P_Rounding P_Legendre2 P_LegendreTab P_LegendreProps P_SynthF.
Import ListNotations.
Open Scope R_scope.

Definition w_table (n m : nat) : R :=
  match n, m with
  | 1%nat, 0%nat => / 2 | 1%nat, 1%nat => sqrt 3 / 2
  | 0%nat, 2%nat => - (sqrt 3 / 2) | 1%nat, 2%nat => / 2
  | _, _ => 0
  end.
Definition w_g (n m : nat) : R := match m with 0%nat => -29442 | _ => -1501 end.
Definition w_h (n m : nat) : R := 4797.

Lemma big x e : (e <= -2)%Z -> / 4 <= Rabs x -> large e x.
Proof.
  intros He H. right. rewrite powerRZ_bpow. apply Rle_trans with (2 := H). change (/ 4) with (bpow radix2 (-2)). apply bpow_le, He.
Qed.
Lemma sqrt3 : 1.7 < sqrt 3 < 1.8.
Proof.
  split.
  - rewrite <- (sqrt_square 1.7) by lra. apply sqrt_lt_1; lra.
  - rewrite <- (sqrt_square 1.8) by lra. apply sqrt_lt_1; lra.
Qed.
Lemma cos_1 : / 4 <= Rabs (cos 1).
Proof.
  rewrite Rabs_pos_eq.
  - pose proof PI2_3_2. assert (A : cos (PI / 3) <= cos 1); [|rewrite cos_PI3 in A; lra].
    apply cos_decr_1; pose proof PI_RGT_0; pose proof PI_4; lra.
  - apply cos_ge_0; pose proof PI2_3_2; lra.
Qed.
Lemma sin_1 : / 4 <= Rabs (sin 1).
Proof.
  assert (A : sin (PI / 6) <= sin 1).
  { apply sin_incr_1; pose proof PI2_3_2; pose proof PI_4; pose proof PI_RGT_0; lra. }
  rewrite sin_PI6 in A. rewrite Rabs_pos_eq; lra.
Qed.
Lemma m01 m : (m <= 1)%nat -> m = 0%nat \/ m = 1%nat. Proof. lia. Qed.

Lemma w_applies :
  let P := w_table in let g := w_g in let h := w_h in
  let cs m := cos (rn (INR m * 1)) in let sn m := sin (rn (INR m * 1)) in
  accurate_pow 0 powerRZ /\ cos 0 = 1 /\ sin 0 = 0 /\ INR (2 * 1 + 8 + 0 + (1 + 1) * (1 + 1)) <= 1000000 /\
  sizes_ok Internal 6371.2 1 1 1 false P g h cs sn 6771.2 /\
  (forall n m, (1 <= n <= 1)%nat -> (m <= Nat.min n 1)%nat -> Rabs (P n m - schmidt n m (PI / 3)) <= 0) /\
  (forall n m, (1 <= n <= 1)%nat -> (m <= Nat.min n 1)%nat -> Rabs (P m (n + 1)%nat - Derive (schmidt n m) (PI / 3)) <= 0) /\
  (forall n m, (1 <= n <= 1)%nat -> (1 <= m <= Nat.min n 1)%nat -> Rabs (P n m / P 1%nat 1%nat - schmidt n m (PI / 3) / sin (PI / 3)) <= 0) /\
  (forall m, (m <= Nat.min 1 1)%nat -> Rabs (cs m - cos (INR m * 1)) <= 0 /\ Rabs (sn m - sin (INR m * 1)) <= 0) /\
  gauss_list 1 1 1 g h = [-29442; -1501; 4797].
Proof.
  intros P g h cs sn. pose proof sqrt3 as S3.
  assert (R01 : forall m, (m <= 1)%nat -> rn (INR m * 1) = INR m * 1).
  { intros m Hm. rewrite Rmult_1_r. apply rn_id. rewrite INR_IZR_INZ. apply double_int. lia. }
  assert (Q4 : powerRZ 2 (-200) <= / 4).
  { rewrite powerRZ_bpow. change (/ 4) with (bpow radix2 (-2)). apply bpow_le. lia. }
  split; [intros x k _ _; apply near_refl|]. split; [apply cos_0|]. split; [apply sin_0|]. split; [cbn; lra|]. split; [|split; [|split; [|split; [|split]]]].
  - repeat split.
    + apply Rle_trans with (1 := Q4). lra.
    + intros n Hn. assert (n = 1%nat) by lia. subst n. apply Rle_trans with (1 := Q4). unfold rho. cbn [Nat.add Rpow_def.pow]. lra.
    + destruct (m01 m) as [-> | ->]; [cbn in *; lia| |]; (assert (n = 1%nat) by (destruct H; lia)); subst n; apply big; try lia; cbn; rewrite Rabs_pos_eq; lra.
    + destruct (m01 m) as [-> | ->]; [cbn in *; lia| |]; (assert (n = 1%nat) by (destruct H; lia)); subst n; apply big; try lia; cbn; [rewrite Rabs_Ropp|]; rewrite Rabs_pos_eq; lra.
    + apply big; [lia|]. unfold g, w_g. destruct m; rewrite Rabs_left1; lra.
    + intros _. apply big; [lia|]. unfold h, w_h. rewrite Rabs_pos_eq; lra.
    + unfold cs. rewrite R01 by (cbn in H; lia). apply big; [lia|]. destruct (m01 m H) as [-> | ->]; cbn [INR].
      * rewrite Rmult_0_l, cos_0, Rabs_R1. lra.
      * rewrite Rmult_1_l. apply cos_1.
    + unfold sn. rewrite R01 by (cbn in H; lia). destruct (m01 m H) as [-> | ->]; cbn [INR].
      * left. rewrite Rmult_0_l. apply sin_0.
      * rewrite Rmult_1_l. apply big; [lia|]. apply sin_1.
    + cbn. lra.
    + cbn. lra.
  - intros n m Hn Hm. assert (n = 1%nat) by lia. subst n. destruct (m01 m) as [-> | ->]; [cbn in *; lia| |]; cbn [P w_table].
    + rewrite ex_schmidt_1_0, cos_PI3. replace (/ 2 - 1 / 2) with 0 by field. rewrite Rabs_R0. lra.
    + rewrite ex_schmidt_1_1, sin_PI3, Rminus_eq_0, Rabs_R0. lra.
  - intros n m Hn Hm. assert (n = 1%nat) by lia. subst n. destruct (m01 m) as [-> | ->]; [cbn in *; lia| |]; cbn [P w_table Nat.add].
    + rewrite (Derive_ext _ cos) by (intros; apply ex_schmidt_1_0). rewrite (is_derive_unique cos (PI / 3) (- sin (PI / 3)) ltac:(auto_derive; [exact I|ring])), sin_PI3.
      rewrite Rminus_eq_0, Rabs_R0. lra.
    + rewrite (Derive_ext _ sin) by (intros; apply ex_schmidt_1_1). rewrite (is_derive_unique sin (PI / 3) (cos (PI / 3)) ltac:(auto_derive; [exact I|ring])), cos_PI3.
      replace (/ 2 - 1 / 2) with 0 by field. rewrite Rabs_R0. lra.
  - intros n m Hn Hm. assert (n = 1%nat) by lia. subst n. assert (m = 1%nat) by (cbn in Hm; lia). subst m. cbn [P w_table].
    rewrite ex_schmidt_1_1, sin_PI3, Rminus_eq_0, Rabs_R0. lra.
  - intros m Hm. unfold cs, sn. rewrite R01 by (cbn in Hm; lia). rewrite !Rminus_eq_0, Rabs_R0. lra.
  - reflexivity.
Qed.
