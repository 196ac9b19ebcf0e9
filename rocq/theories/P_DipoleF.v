(** Proofs about the dipole axis in double precision *)
From Coq Require Import ZArith Reals List Lia Lra Psatz.
From Flocq Require Import Core.
From Verif Require Import Spec_Field Spec_Coord M_Coord P_Coord P_Coord2 Spec_Float Spec_Rounding P_Float P_Synth P_Rounding Spec_CoordF M_CoordF P_CoordF P_ZenithF M_DipoleF.
Import ListNotations.
Open Scope R_scope.

(** componentwise up to k roundings *)
Definition vnear (k : nat) (v w : vec3) : Prop := near k (vx v) (vx w) /\ near k (vy v) (vy w) /\ near k (vz v) (vz w).

Lemma in_range_sq_le w : in_range w -> w * w <= powerRZ 2 600.
Proof.
  intros [->|[_ W]]; [rewrite Rmult_0_l; left; apply powerRZ_lt; lra|].
  replace (w * w) with (Rabs w * Rabs w) by (rewrite <- Rabs_mult; apply Rabs_pos_eq, (Rle_0_sqr w)).
  replace 600%Z with (300 + 300)%Z by lia. rewrite powerRZ_add by lra. apply Rmult_le_compat; try apply Rabs_pos; exact W.
Qed.

Lemma squares_sum l s : List.Forall in_range l -> fsum (map (fun x => rn (x * x)) l) s ->
  near (List.length l) (Rsum (map (fun x => x * x) l)) s /\ 0 <= s.
Proof.
  intros H F.
  assert (D : List.Forall double (map (fun x => rn (x * x)) l)) by (apply Forall_forall; intros y Y; apply in_map_iff in Y; destruct Y as (x & <- & _); apply rn_double).
  assert (N : List.Forall (fun x => 0 <= x) (map (fun x => rn (x * x)) l)).
  { apply Forall_forall; intros y Y; apply in_map_iff in Y; destruct Y as (x & <- & _). apply rn_ge; [apply (double_int 0); lia|]. apply (Rle_0_sqr x). }
  destruct (fsum_near _ _ F D N) as (_ & S0 & E & Ne). split; [|exact S0]. rewrite map_length in E.
  destruct l as [|a l]; [cbn in Ne; congruence|]. set (L := a :: l) in *.
  replace (List.length L) with (1 + (List.length L - 1))%nat by (unfold L; cbn; lia).
  eapply near_trans; [|exact E]. clearbody L. clear - H. induction H as [|x l0 H HF IH]; [apply near_refl|].
  unfold Rsum in *. cbn [map fold_right]. apply near_add; [apply (Rle_0_sqr x)| |apply near_rn, range_sqr, H|exact IH].
  clear. induction l0 as [|y l1 IH]; cbn [map fold_right]; [lra|]. pose proof (Rle_0_sqr y) as Y. unfold Rsqr in Y. lra.
Qed.

Lemma unit_coeffs_near g10 g11 h11 v : in_range g10 -> in_range g11 -> in_range h11 -> (g10, g11, h11) <> (0, 0, 0) ->
  unit_of_coeffs_f g10 g11 h11 v -> vnear 4 (unit_of_coeffs g10 g11 h11) v.
Proof.
  intros R0 R1 R2 NZ (s & F & ->).
  destruct (squares_sum [g11; h11; g10] s (List.Forall_cons _ R1 (List.Forall_cons _ R2 (List.Forall_cons _ R0 (List.Forall_nil _)))) F) as [N S0].
  cbn [List.length map Rsum fold_right] in N. unfold Rsum in N. cbn [fold_right] in N.
  replace (g11 * g11 + (h11 * h11 + (g10 * g10 + 0))) with (g11 * g11 + h11 * h11 + g10 * g10) in N by ring.
  set (q := g11 * g11 + h11 * h11 + g10 * g10) in *.
  pose proof (Rle_0_sqr g10) as Q0. pose proof (Rle_0_sqr g11) as Q1. pose proof (Rle_0_sqr h11) as Q2. unfold Rsqr in Q0, Q1, Q2.
  assert (Pq : 0 <= q) by (unfold q; lra).
  assert (Lq : large (-600) q).
  { unfold q. repeat apply large_add; try lra; apply range_sqr_large; assumption. }
  assert (Uq : q <= powerRZ 2 602).
  { pose proof (in_range_sq_le _ R0). pose proof (in_range_sq_le _ R1). pose proof (in_range_sq_le _ R2).
    replace 602%Z with (2 + 600)%Z by lia. rewrite powerRZ_add by lra.
    assert (0 < powerRZ 2 600) by (apply powerRZ_lt; lra). change (powerRZ 2 2) with (2 * (2 * 1)).
    apply Rle_trans with (3 * powerRZ 2 600); [unfold q; lra|]. lra. }
  assert (Nq : q <> 0).
  { intros E. apply NZ. assert (g10 * g10 = 0) by (unfold q in E; lra). assert (g11 * g11 = 0) by (unfold q in E; lra). assert (h11 * h11 = 0) by (unfold q in E; lra).
    f_equal; [f_equal|]; apply Rsqr_0_uniq; assumption. }
  set (n := rn (sqrt s)).
  assert (Nn : near 3 (sqrt q) n).
  { apply (near_trans 2 1 _ (sqrt s)); [apply near_sqrt2; [exact Pq|]; apply (near_mono 3); [lia|exact N]|].
    apply near_rn. apply (large_normal (-301)); [lia|]. apply large_sqrt; [exact S0|].
    apply (large_mono (-600 - 1)); [lia|]. apply (large_near 3 _ q); [cbn; lra|exact N|exact Lq]. }
  assert (Lr : 0 < sqrt q) by (apply sqrt_lt_R0; lra).
  assert (Ur : sqrt q <= powerRZ 2 301).
  { rewrite <- (sqrt_square (powerRZ 2 301)) by (left; apply powerRZ_lt; lra). apply sqrt_le_1_alt. rewrite <- powerRZ_add by lra. exact Uq. }
  assert (Hn : 0 < n <= powerRZ 2 302).
  { destruct (near_half 3 _ _ ltac:(cbn; lra) Nn) as [A B]. pose proof (near_nonneg 3 _ _ (Rlt_le _ _ Lr) Nn) as N0.
    rewrite !Rabs_pos_eq in * by lra. split; [lra|]. replace 302%Z with (1 + 301)%Z by lia. rewrite powerRZ_add by lra.
    change (powerRZ 2 1) with (2 * 1). lra. }
  assert (C : forall g, in_range g -> near 4 (- g / sqrt q) (rn (- g / n))).
  { intros g Rg. apply (near_trans 3 1 _ (- g / n)).
    - apply (near_div 0 3); [apply near_refl|exact Nn].
    - apply near_rn. destruct Rg as [->|[A _]]; [left; unfold Rdiv; ring|].
      apply (normal_range _ (-602)); [lia|]. unfold Rdiv. rewrite Rabs_mult, Rabs_Ropp.
      rewrite (Rabs_pos_eq (/ n)) by (left; apply Rinv_0_lt_compat; lra).
      apply Rmult_le_reg_r with n; [lra|]. rewrite Rmult_assoc, Rinv_l, Rmult_1_r by lra.
      eapply Rle_trans; [|exact A]. apply Rle_trans with (powerRZ 2 (-602) * powerRZ 2 302).
      + apply Rmult_le_compat_l; [left; apply powerRZ_lt; lra|]. lra.
      + rewrite <- powerRZ_add by lra. right. reflexivity. }
  unfold vnear, unit_of_coeffs, np_divs, np_neg, np_norm. cbn [vx vy vz]. fold q.
  split; [|split]; apply C; assumption.
Qed.

(** the computed vector has length 1 up to 4 roundings *)
Lemma length_near g10 g11 h11 v : in_range g10 -> in_range g11 -> in_range h11 -> (g10, g11, h11) <> (0, 0, 0) ->
  unit_of_coeffs_f g10 g11 h11 v -> near 4 1 (vlen v).
Proof.
  intros R0 R1 R2 NZ F. destruct (unit_coeffs_near _ _ _ _ R0 R1 R2 NZ F) as (A & B & C).
  pose proof (proj1 (coeffs_unit _ _ _ NZ)) as U. unfold unit_vec, vdot in U.
  rewrite <- sqrt_1, <- U. unfold vlen, vdot.
  set (w := unit_of_coeffs g10 g11 h11) in *.
  pose proof (Rle_0_sqr (vx w)) as X. pose proof (Rle_0_sqr (vy w)) as Y. pose proof (Rle_0_sqr (vz w)) as Z. unfold Rsqr in X, Y, Z.
  apply near_sqrt2; [lra|].
  apply near_add; [lra|lra| |apply near_mul; assumption]. apply near_add; [lra|lra| |]; apply near_mul; assumption.
Qed.

(** some result always exists *)
Lemma unit_f_exists g10 g11 h11 : exists v, unit_of_coeffs_f g10 g11 h11 v.
Proof.
  eexists. exists (rn (rn (g11 * g11) + rn (rn (h11 * h11) + rn (g10 * g10)))). split; [|reflexivity].
  apply (fsum_add [rn (g11 * g11)] [rn (h11 * h11); rn (g10 * g10)]); [constructor| |apply Permutation.Permutation_refl].
  apply (fsum_add [rn (h11 * h11)] [rn (g10 * g10)]); [constructor|constructor|apply Permutation.Permutation_refl].
Qed.

Lemma unit_pole_err e fcos fsin t p : accurate_within e cos fcos -> accurate_within e sin fsin -> e <= 1e-4 ->
  Rabs t <= 360 -> Rabs p <= 360 -> within (2.1 * e + 8e-15) (unit_of_pole_f fcos fsin t p) (direction t p).
Proof.
  intros Hc Hs He Ht Hp. pose proof (acc_nonneg _ _ _ Hc) as e0.
  pose proof (radians_f_err t Ht) as E1. pose proof (radians_f_err p Hp) as E2.
  unfold unit_of_pole_f, within, direction. cbn [vx vy vz].
  assert (D1 : double (radians_f t)) by apply rn_double. assert (D2 : double (radians_f p)) by apply rn_double.
  set (a := radians_f t) in *. set (b := radians_f p) in *. set (E := e + 3e-15).
  assert (Ca : Rabs (fcos a - cos (deg t)) <= E) by (apply (lib_err e E cos fcos a (deg t) 3e-15 Hc cos_lip D1 E1); unfold E; lra).
  assert (Sa : Rabs (fsin a - sin (deg t)) <= E) by (apply (lib_err e E sin fsin a (deg t) 3e-15 Hs sin_lip D1 E1); unfold E; lra).
  assert (Cb : Rabs (fcos b - cos (deg p)) <= E) by (apply (lib_err e E cos fcos b (deg p) 3e-15 Hc cos_lip D2 E2); unfold E; lra).
  assert (Sb : Rabs (fsin b - sin (deg p)) <= E) by (apply (lib_err e E sin fsin b (deg p) 3e-15 Hs sin_lip D2 E2); unfold E; lra).
  assert (EB : 3e-15 <= E <= 1.1e-4) by (unfold E; lra).
  assert (Na : Rabs (fsin a) <= 1 + E).
  { replace (fsin a) with (fsin a - sin (deg t) + sin (deg t)) by ring. eapply Rle_trans; [apply Rabs_triang|].
    pose proof (sin_1 (deg t)). lra. }
  assert (K : forall g g0, Rabs g0 <= 1 -> Rabs (g - g0) <= E -> Rabs (rn (fsin a * g) - sin (deg t) * g0) <= 2.1 * e + 8e-15).
  { intros g g0 G0 G. pose proof (proj1 (product_err (fsin a) g g0 (1 + E) E (tiny_le (1 + E) ltac:(lra)) Na G0 G ltac:(lra))) as P.
    eapply Rle_trans; [apply (tri _ (fsin a * g0))|]. replace (fsin a * g0 - sin (deg t) * g0) with ((fsin a - sin (deg t)) * g0) by ring. rewrite (Rabs_mult (fsin a - sin (deg t))).
    rewrite u_val in P. pose proof (Rabs_pos (fsin a - sin (deg t))). pose proof (Rabs_pos g0).
    assert (Rabs (fsin a - sin (deg t)) * Rabs g0 <= E) by nra.
    assert ((1 + E) * (E + 2 * / 9007199254740992) <= 1.001 * (E + 2.3e-16)) by (apply Rmult_le_compat; lra).
    unfold E in *. lra. }
  split; [|split].
  - apply K; [apply cos_1|exact Cb].
  - apply K; [apply sin_1|exact Sb].
  - unfold E in Ca. lra.
Qed.
