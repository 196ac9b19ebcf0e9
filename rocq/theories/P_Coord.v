(** Basic facts about the NumPy primitives and vectors of M_Coord. *)
From Coq Require Import Reals List Bool String ZArith Lra Lia Psatz.
From Verif Require Import M_Prelude Spec_Coord M_Coord.
Import ListNotations.
Open Scope R_scope.

Lemma vec3_eq u v : vx u = vx v -> vy u = vy v -> vz u = vz v -> u = v.
Proof. destruct u, v; cbn; intros; subst; reflexivity. Qed.

Lemma floor_bounds x : np_floor x <= x < np_floor x + 1.
Proof. unfold np_floor. destruct (base_Int_part x). lra. Qed.

Lemma floor_unique x (k : Z) : IZR k <= x < IZR k + 1 -> np_floor x = IZR k.
Proof.
  intros [H1 H2]. unfold np_floor. f_equal.
  destruct (base_Int_part x) as [A B].
  assert (IZR (Int_part x) < IZR k + 1) by lra.
  assert (IZR k < IZR (Int_part x) + 1) by lra.
  rewrite <- plus_IZR in H, H0. apply lt_IZR in H. apply lt_IZR in H0. lia.
Qed.

Lemma remainder_bounds x m : 0 < m -> 0 <= np_remainder x m < m.
Proof.
  intros Hm. unfold np_remainder.
  pose proof (floor_bounds (x / m)) as [A B].
  assert (E : x = m * (x / m)) by (field; lra).
  set (q := x / m) in *. set (f := np_floor q) in *. clearbody q f. subst x. nra.
Qed.

Lemma remainder_cong x m : exists k : Z, np_remainder x m = x - m * IZR k.
Proof. exists (Int_part (x / m)). reflexivity. Qed.

Lemma remainder_unique x m (k : Z) : 0 < m -> 0 <= x - m * IZR k < m -> np_remainder x m = x - m * IZR k.
Proof.
  intros Hm H. unfold np_remainder. rewrite (floor_unique (x / m) k); [reflexivity|].
  assert (E : x = m * (x / m)) by (field; lra).
  set (q := x / m) in *. clearbody q. subst x. split; nra.
Qed.

Lemma remainder_shift x m (k : Z) : 0 < m -> np_remainder (x + m * IZR k) m = np_remainder x m.
Proof.
  intros Hm. destruct (remainder_cong x m) as [j Hj].
  rewrite Hj. pose proof (remainder_bounds x m Hm) as B. rewrite Hj in B.
  rewrite (remainder_unique _ m (j + k) Hm); rewrite plus_IZR; lra.
Qed.

(** ** arctan2 *)

Lemma atan2_range y x : - PI < np_arctan2 y x <= PI.
Proof.
  unfold np_arctan2. pose proof PI_RGT_0. pose proof (atan_bound (y / x)).
  destruct (Rlt_dec 0 x); [lra|]. destruct (Rlt_dec x 0).
  - destruct (Rle_dec 0 y).
    + assert (y / x <= 0).
      { unfold Rdiv. assert (/ x < 0) by (apply Rinv_lt_0_compat; lra). nra. }
      assert (atan (y / x) <= 0).
      { rewrite <- atan_0. destruct H1; [left; apply atan_increasing; assumption| right; f_equal; assumption]. }
      lra.
    + assert (y / x > 0).
      { unfold Rdiv. assert (/ x < 0) by (apply Rinv_lt_0_compat; lra). nra. }
      assert (0 < atan (y / x)) by (rewrite <- atan_0; apply atan_increasing; lra).
      lra.
  - destruct (Rlt_dec 0 y); [lra|]. destruct (Rlt_dec y 0); lra.
Qed.

Lemma cos_atan_eq u : cos (atan u) = / sqrt (1 + u²).
Proof. rewrite cos_atan. unfold Rdiv. lra. Qed.

Lemma sin_atan_eq u : sin (atan u) = u / sqrt (1 + u²).
Proof. apply sin_atan. Qed.

Lemma hyp_eq y x : x <> 0 -> sqrt (x ^ 2 + y ^ 2) = Rabs x * sqrt (1 + (y / x)²).
Proof.
  intros Hx. assert (x ^ 2 + y ^ 2 = x² * (1 + (y / x)²)) as ->.
  { unfold Rsqr. field. exact Hx. }
  rewrite sqrt_mult; [| apply Rle_0_sqr | pose proof (Rle_0_sqr (y / x)); lra].
  rewrite sqrt_Rsqr_abs. reflexivity.
Qed.

Lemma one_plus_sqr_pos u : 0 < sqrt (1 + u²).
Proof. apply sqrt_lt_R0. pose proof (Rle_0_sqr u). lra. Qed.

Lemma atan2_polar y x : let r := sqrt (x ^ 2 + y ^ 2) in
  r * cos (np_arctan2 y x) = x /\ r * sin (np_arctan2 y x) = y.
Proof.
  cbv zeta. unfold np_arctan2.
  pose proof (one_plus_sqr_pos (y / x)) as Hs.
  destruct (Rlt_dec 0 x) as [H|H]; [| destruct (Rlt_dec x 0) as [H'|H']].
  - rewrite hyp_eq by lra. rewrite Rabs_right by lra. rewrite cos_atan_eq, sin_atan_eq.
    split; field; lra.
  - rewrite hyp_eq by lra. rewrite Rabs_left by lra.
    destruct (Rle_dec 0 y).
    + rewrite neg_cos, neg_sin, cos_atan_eq, sin_atan_eq. split; field; lra.
    + unfold Rminus. rewrite <- (cos_neg (atan _ + - PI)).
      replace (- (atan (y / x) + - PI)) with (PI - atan (y / x)) by ring.
      replace (atan (y / x) + - PI) with (- (PI - atan (y / x))) by ring.
      rewrite sin_neg, Rtrigo_facts.cos_pi_minus, Rtrigo_facts.sin_pi_minus, cos_atan_eq, sin_atan_eq.
      split; field; lra.
  - assert (x = 0) by lra. subst x. replace (0 ^ 2 + y ^ 2) with (y²) by (unfold Rsqr; ring).
    rewrite sqrt_Rsqr_abs.
    destruct (Rlt_dec 0 y); [| destruct (Rlt_dec y 0)].
    + rewrite Rabs_right by lra. rewrite cos_PI2, sin_PI2. split; ring.
    + rewrite Rabs_left by lra. rewrite cos_neg, sin_neg, cos_PI2, sin_PI2. split; ring.
    + assert (y = 0) by lra. subst. rewrite Rabs_R0. split; ring.
Qed.

(** an angle in (-PI, PI] is determined by its cosine and sine *)
Lemma angle_unique a b : - PI < a <= PI -> - PI < b <= PI -> cos a = cos b -> sin a = sin b -> a = b.
Proof.
  intros Ha Hb Hc Hs.
  assert (C : cos (a - b) = 1).
  { rewrite cos_minus, Hc, Hs. pose proof (sin2_cos2 b). unfold Rsqr in H. lra. }
  assert (S : sin (a - b) = 0).
  { rewrite sin_minus, Hc, Hs. ring. }
  apply sin_eq_0_0 in S. destruct S as [k Hk].
  assert (Hr : -2 * PI < IZR k * PI < 2 * PI) by lra.
  pose proof PI_RGT_0.
  assert (-2 < IZR k < 2) by (split; nra).
  destruct H0 as [A B]. apply lt_IZR in A. apply lt_IZR in B.
  assert (k = 0 \/ k = 1 \/ k = -1)%Z as [ -> | [ -> | -> ] ] by lia.
  - lra.
  - rewrite Hk, Rmult_1_l, cos_PI in C. lra.
  - rewrite Hk in C. replace (-1 * PI) with (- PI) in C by ring. rewrite cos_neg, cos_PI in C. lra.
Qed.

Lemma atan2_unique r a : 0 < r -> - PI < a <= PI -> np_arctan2 (r * sin a) (r * cos a) = a.
Proof.
  intros Hr Ha.
  pose proof (atan2_polar (r * sin a) (r * cos a)) as [C S]. cbv zeta in *.
  assert (E : sqrt ((r * cos a) ^ 2 + (r * sin a) ^ 2) = r).
  { replace ((r * cos a) ^ 2 + (r * sin a) ^ 2) with (r²).
    - apply sqrt_Rsqr. lra.
    - pose proof (sin2_cos2 a). unfold Rsqr in *.
      replace ((r * cos a) ^ 2 + (r * sin a) ^ 2) with (r * r * (sin a * sin a + cos a * cos a)) by ring.
      rewrite H. ring. }
  rewrite E in C, S. apply angle_unique; [apply atan2_range | exact Ha | |].
  - apply Rmult_eq_reg_l with r; lra.
  - apply Rmult_eq_reg_l with r; lra.
Qed.

Lemma atan2_eq y x r a : 0 < r -> - PI < a <= PI -> y = r * sin a -> x = r * cos a -> np_arctan2 y x = a.
Proof. intros Hr Ha -> ->. apply atan2_unique; assumption. Qed.

Lemma atan2_nonneg y x : 0 <= y -> 0 <= np_arctan2 y x.
Proof.
  intros Hy. pose proof (atan2_range y x) as Hr. pose proof (atan2_polar y x) as [C S]. cbv zeta in *.
  destruct (Rle_dec 0 (np_arctan2 y x)) as [|N]; [assumption|exfalso].
  set (a := np_arctan2 y x) in *.
  assert (Hs : sin a < 0) by (apply sin_lt_0_var; lra).
  pose proof (sqrt_pos (x ^ 2 + y ^ 2)).
  assert (Hz : sqrt (x ^ 2 + y ^ 2) = 0) by nra.
  apply sqrt_eq_0 in Hz; [| nra]. assert (x = 0 /\ y = 0) as [-> ->] by (split; nra).
  unfold a, np_arctan2 in N.
  destruct (Rlt_dec 0 0); [lra|]. lra.
Qed.

(** ** degrees *)

Lemma radians_deg x : np_radians x = deg x.
Proof. reflexivity. Qed.
Lemma radians_degrees x : np_radians (np_degrees x) = x.
Proof. unfold np_radians, np_degrees. field. apply PI_neq0. Qed.
Lemma degrees_radians x : np_degrees (np_radians x) = x.
Proof. unfold np_radians, np_degrees. field. apply PI_neq0. Qed.
Lemma radians_le x y : x <= y -> np_radians x <= np_radians y.
Proof. pose proof PI_RGT_0. unfold np_radians. nra. Qed.
Lemma radians_lt x y : x < y -> np_radians x < np_radians y.
Proof. pose proof PI_RGT_0. unfold np_radians. nra. Qed.
Lemma degrees_pos : 0 < 180 / PI.
Proof. pose proof PI_RGT_0. apply Rdiv_lt_0_compat; lra. Qed.
Lemma degrees_le x y : x <= y -> np_degrees x <= np_degrees y.
Proof. pose proof degrees_pos. unfold np_degrees. nra. Qed.
Lemma degrees_lt x y : x < y -> np_degrees x < np_degrees y.
Proof. pose proof degrees_pos. unfold np_degrees. nra. Qed.
Lemma degrees_PI : np_degrees PI = 180.
Proof. unfold np_degrees. field. apply PI_neq0. Qed.
Lemma degrees_0 : np_degrees 0 = 0.
Proof. unfold np_degrees. ring. Qed.
Lemma degrees_mPI : np_degrees (- PI) = -180.
Proof. unfold np_degrees. field. apply PI_neq0. Qed.
Lemma radians_180 : np_radians 180 = PI.
Proof. unfold np_radians. field. Qed.
Lemma radians_0 : np_radians 0 = 0.
Proof. unfold np_radians. field. Qed.
Lemma radians_m180 : np_radians (-180) = - PI.
Proof. unfold np_radians. field. Qed.
Lemma radians_90 : np_radians 90 = PI / 2.
Proof. unfold np_radians. field. Qed.
Lemma radians_minus x y : np_radians (x - y) = np_radians x - np_radians y.
Proof. unfold np_radians. field. Qed.

Lemma rad_theta_in t : 0 < t < 180 -> 0 < np_radians t < PI.
Proof. intros [A B]. apply radians_lt in A. apply radians_lt in B. rewrite radians_0, radians_180 in *. lra. Qed.
Lemma rad_phi_in t : -180 < t <= 180 -> - PI < np_radians t <= PI.
Proof. intros [A B]. apply radians_lt in A. apply radians_le in B. rewrite radians_m180, radians_180 in *. lra. Qed.

(** ** vectors *)

Lemma sc1 x : sin x * sin x + cos x * cos x = 1.
Proof. pose proof (sin2_cos2 x). exact H. Qed.

Lemma cross_prod u v : np_cross u v = vprod u v.
Proof. reflexivity. Qed.

Lemma norm_len v : np_norm v = vlen v.
Proof. reflexivity. Qed.

Lemma spherical_direction t p : spherical_to_cartesian 1 t p = direction t p.
Proof. unfold spherical_to_cartesian, direction, np_radians, deg. apply vec3_eq; cbn; ring. Qed.

Lemma spherical_scale r t p : spherical_to_cartesian r t p = vscale r (direction t p).
Proof. unfold spherical_to_cartesian, direction, np_radians, deg. apply vec3_eq; cbn; ring. Qed.

Lemma pole_direction t p : unit_of_pole t p = direction t p.
Proof. unfold unit_of_pole, direction, np_radians, deg. apply vec3_eq; cbn; ring. Qed.

Lemma direction_unit t p : unit_vec (direction t p).
Proof.
  unfold unit_vec, vdot, direction; cbn.
  pose proof (sc1 (deg t)). pose proof (sc1 (deg p)). nra.
Qed.

Lemma vdot_self_nonneg v : 0 <= vdot v v.
Proof. unfold vdot. nra. Qed.

Lemma vdot_self_zero v : vdot v v = 0 -> v = vzero.
Proof. unfold vdot. intros H. apply vec3_eq; cbn; nra. Qed.

Lemma len_sq v : vlen v * vlen v = vdot v v.
Proof. unfold vlen. apply sqrt_sqrt. apply vdot_self_nonneg. Qed.

Lemma len_pos v : v <> vzero -> 0 < vlen v.
Proof.
  intros H. unfold vlen. apply sqrt_lt_R0.
  destruct (vdot_self_nonneg v) as [A|A]; [exact A|]. exfalso. apply H. apply vdot_self_zero. symmetry. exact A.
Qed.

Lemma divs_unit v : v <> vzero -> unit_vec (np_divs v (np_norm v)).
Proof.
  intros H. apply len_pos in H. rewrite norm_len. pose proof (len_sq v) as E.
  unfold unit_vec, vdot, np_divs in *; cbn.
  set (k := vlen v) in *. clearbody k.
  replace (vx v / k * (vx v / k) + vy v / k * (vy v / k) + vz v / k * (vz v / k))
    with ((vx v * vx v + vy v * vy v + vz v * vz v) / (k * k)) by (field; lra).
  rewrite <- E. field. lra.
Qed.
