(** C49-C55: azimuth, local time, spherical/Cartesian, zenith angle, dipole,
    base vectors, rotation of points. *)
From Coq Require Import Reals List Bool String ZArith Lra Lia Psatz.
From Verif Require Import M_Prelude Spec_Coord M_Coord P_Coord.
Import ListNotations.
Open Scope R_scope.

(** ** C49, C50 *)
Lemma azimuth_spec phi :
  -180 < center_azimuth phi <= 180 /\ congruent_mod 360 (center_azimuth phi) phi.
Proof.
  unfold center_azimuth. pose proof (remainder_bounds phi 360 ltac:(lra)) as B.
  destruct (remainder_cong phi 360) as [k Hk].
  destruct (Rlt_dec 180 (np_remainder phi 360)) as [H|H].
  - split; [lra|]. exists (- k - 1)%Z. rewrite Hk. rewrite minus_IZR, opp_IZR. ring.
  - split; [lra|]. exists (- k)%Z. rewrite Hk. rewrite opp_IZR. ring.
Qed.

Lemma azimuth_unique phi x : -180 < x <= 180 -> congruent_mod 360 x phi -> x = center_azimuth phi.
Proof.
  intros Hx [k Hk]. destruct (azimuth_spec phi) as [Ha [j Hj]].
  assert (E : x - center_azimuth phi = 360 * IZR (k - j)) by (rewrite minus_IZR; lra).
  assert (-1 < IZR (k - j) < 1) as [A B] by lra.
  apply lt_IZR in A. apply lt_IZR in B. assert (k - j = 0)%Z as Z0 by lia. rewrite Z0 in E. lra.
Qed.

Lemma azimuth_fix phi : -180 < phi <= 180 -> center_azimuth phi = phi.
Proof. intros H. symmetry. apply azimuth_unique; [exact H|]. exists 0%Z. ring. Qed.

Lemma local_time_spec time phi :
  0 <= local_time time phi < 24 /\
  congruent_mod 24 (local_time time phi) (24 * time + phi / 15).
Proof.
  unfold local_time. pose proof (remainder_bounds (time + phi / 360) 1 ltac:(lra)) as B.
  split; [lra|]. destruct (remainder_cong (time + phi / 360) 1) as [k Hk].
  exists (- k)%Z. rewrite Hk, opp_IZR. field.
Qed.

Lemma local_time_unique time phi x : 0 <= x < 24 -> congruent_mod 24 x (24 * time + phi / 15) ->
  x = local_time time phi.
Proof.
  intros Hx [k Hk]. destruct (local_time_spec time phi) as [Ha [j Hj]].
  assert (E : x - local_time time phi = 24 * IZR (k - j)) by (rewrite minus_IZR; lra).
  assert (-1 < IZR (k - j) < 1) as [A B] by lra.
  apply lt_IZR in A. apply lt_IZR in B. assert (k - j = 0)%Z as Z0 by lia. rewrite Z0 in E. lra.
Qed.

(** ** C51 *)
Lemma pow2 x : x ^ 2 = x * x. Proof. ring. Qed.

Lemma cart_radius v : fst (fst (cartesian_to_spherical v)) = vlen v.
Proof. unfold cartesian_to_spherical, vlen, vdot; cbn. f_equal. ring. Qed.

Lemma theta_range v : 0 <= snd (fst (cartesian_to_spherical v)) <= 180.
Proof.
  unfold cartesian_to_spherical; cbn [fst snd].
  pose proof (atan2_range (sqrt (vx v ^ 2 + vy v ^ 2)) (vz v)) as [_ B].
  pose proof (atan2_nonneg (sqrt (vx v ^ 2 + vy v ^ 2)) (vz v) (sqrt_pos _)) as A.
  apply degrees_le in A. apply degrees_le in B. rewrite degrees_0, degrees_PI in *. lra.
Qed.

Lemma phi_range v : -180 < snd (cartesian_to_spherical v) <= 180.
Proof.
  unfold cartesian_to_spherical; cbn [fst snd].
  pose proof (atan2_range (vy v) (vx v)) as [A B].
  apply degrees_lt in A. apply degrees_le in B. rewrite degrees_mPI, degrees_PI in *. lra.
Qed.

(** spherical_to_cartesian undoes cartesian_to_spherical everywhere *)
Lemma sph_cart v : let '(r, t, p) := cartesian_to_spherical v in spherical_to_cartesian r t p = v.
Proof.
  unfold cartesian_to_spherical, spherical_to_cartesian. rewrite !radians_degrees.
  set (rho := sqrt (vx v ^ 2 + vy v ^ 2)).
  pose proof (atan2_polar rho (vz v)) as [C S]. pose proof (atan2_polar (vy v) (vx v)) as [C' S'].
  cbv zeta in *. fold rho in C', S'.
  assert (E : sqrt (vz v ^ 2 + rho ^ 2) = sqrt (vx v ^ 2 + vy v ^ 2 + vz v ^ 2)).
  { f_equal. rewrite (pow2 rho). unfold rho. rewrite sqrt_sqrt by nra. ring. }
  rewrite E in C, S. set (r := sqrt (vx v ^ 2 + vy v ^ 2 + vz v ^ 2)) in *.
  apply vec3_eq; cbn [vx vy vz].
  - rewrite <- S in C' at 1. etransitivity; [| exact C']. ring.
  - rewrite <- S in S' at 1. etransitivity; [| exact S']. ring.
  - exact C.
Qed.

Lemma cart_sph r t p : 0 < r -> 0 < t < 180 -> -180 < p <= 180 ->
  cartesian_to_spherical (spherical_to_cartesian r t p) = (r, t, p).
Proof.
  intros Hr Ht Hp. pose proof (rad_theta_in t Ht) as Ht'. pose proof (rad_phi_in p Hp) as Hp'.
  unfold cartesian_to_spherical, spherical_to_cartesian. cbn [vx vy vz].
  set (a := np_radians t) in *. set (b := np_radians p) in *.
  assert (Hs : 0 < sin a) by (apply sin_gt_0; lra).
  assert (E1 : (r * cos b * sin a) ^ 2 + (r * sin b * sin a) ^ 2 = (r * sin a)²).
  { unfold Rsqr. pose proof (sc1 b).
    transitivity (r * sin a * (r * sin a) * (sin b * sin b + cos b * cos b)); [ring|]. rewrite H. ring. }
  assert (E2 : (r * cos b * sin a) ^ 2 + (r * sin b * sin a) ^ 2 + (r * cos a) ^ 2 = r²).
  { rewrite E1. unfold Rsqr. pose proof (sc1 a).
    transitivity (r * r * (sin a * sin a + cos a * cos a)); [ring|]. rewrite H. ring. }
  rewrite E2, E1, sqrt_Rsqr by lra. rewrite sqrt_Rsqr by nra.
  rewrite (atan2_eq (r * sin a) (r * cos a) r a) by (try reflexivity; lra).
  rewrite (atan2_eq (r * sin b * sin a) (r * cos b * sin a) (r * sin a) b) by (try ring; nra).
  unfold a, b. rewrite !degrees_radians. reflexivity.
Qed.

(** A unit vector is the direction of its angles. *)
Lemma direction_of_unit v : unit_vec v -> let '(_, t, p) := cartesian_to_spherical v in direction t p = v.
Proof.
  intros H. pose proof (sph_cart v) as E. pose proof (cart_radius v) as Er.
  destruct (cartesian_to_spherical v) as [[r t] p]. cbn in Er.
  rewrite <- E, <- spherical_direction. f_equal. rewrite Er. unfold vlen. rewrite H. symmetry. apply sqrt_1.
Qed.

Lemma direction_inj t p t' p' : 0 < t < 180 -> -180 < p <= 180 -> 0 < t' < 180 -> -180 < p' <= 180 ->
  direction t p = direction t' p' -> (t, p) = (t', p').
Proof.
  intros Ht Hp Ht' Hp' E. rewrite <- !spherical_direction in E.
  pose proof (cart_sph 1 t p ltac:(lra) Ht Hp) as A. rewrite E in A.
  rewrite (cart_sph 1 t' p' ltac:(lra) Ht' Hp') in A. congruence.
Qed.

(** ** C52 *)
Lemma zenith_cos ts ps t p :
  zenith_point ts ps t p = np_degrees (acos (vdot (direction t p) (direction ts ps))).
Proof.
  unfold zenith_point; cbv zeta. apply f_equal. apply f_equal. rewrite cos_minus.
  unfold vdot, direction; cbn [vx vy vz]. change np_radians with deg. ring.
Qed.

Lemma unit_dot_bound u v : unit_vec u -> unit_vec v -> -1 <= vdot u v <= 1.
Proof.
  unfold unit_vec, vdot. intros.
  pose proof (Rle_0_sqr (vx u + vx v)). pose proof (Rle_0_sqr (vy u + vy v)). pose proof (Rle_0_sqr (vz u + vz v)).
  pose proof (Rle_0_sqr (vx u - vx v)). pose proof (Rle_0_sqr (vy u - vy v)). pose proof (Rle_0_sqr (vz u - vz v)).
  unfold Rsqr in *. split; lra.
Qed.

Lemma zenith_range ts ps t p : 0 <= zenith_point ts ps t p <= 180.
Proof.
  rewrite zenith_cos. pose proof (acos_bound (vdot (direction t p) (direction ts ps))) as [A B].
  apply degrees_le in A. apply degrees_le in B. rewrite degrees_0, degrees_PI in *. lra.
Qed.

Lemma zenith_cos_spec ts ps t p :
  cos (deg (zenith_point ts ps t p)) = vdot (direction t p) (direction ts ps).
Proof.
  rewrite zenith_cos, <- radians_deg, radians_degrees, cos_acos; [reflexivity|].
  apply unit_dot_bound; apply direction_unit.
Qed.

Lemma cos_deg_inj x y : 0 <= x <= 180 -> 0 <= y <= 180 -> cos (deg x) = cos (deg y) -> x = y.
Proof.
  intros Hx Hy H. change deg with np_radians in H.
  rewrite <- (degrees_radians x), <- (degrees_radians y). f_equal.
  assert (0 <= np_radians x <= PI /\ 0 <= np_radians y <= PI) as [A B].
  { rewrite <- radians_0, <- radians_180. repeat split; apply radians_le; lra. }
  rewrite <- (acos_cos _ A), <- (acos_cos _ B), H. reflexivity.
Qed.

Lemma deg_0 : deg 0 = 0. Proof. unfold deg; ring. Qed.
Lemma deg_180 : deg 180 = PI. Proof. unfold deg; field. Qed.
Lemma deg_plus x y : deg (x + y) = deg x + deg y. Proof. unfold deg; ring. Qed.
Lemma deg_minus x y : deg (x - y) = deg x - deg y. Proof. unfold deg; ring. Qed.

Lemma direction_antipode t p : direction (180 - t) (p + 180) = vscale (-1) (direction t p).
Proof.
  unfold direction, vscale; cbn [vx vy vz]. rewrite deg_minus, deg_plus, deg_180.
  rewrite Rtrigo_facts.sin_pi_minus, Rtrigo_facts.cos_pi_minus, neg_cos, neg_sin.
  apply vec3_eq; cbn; ring.
Qed.

Lemma zenith_subsolar ts ps : zenith_point ts ps ts ps = 0.
Proof.
  apply cos_deg_inj; [apply zenith_range | lra |].
  rewrite zenith_cos_spec, deg_0, cos_0. apply direction_unit.
Qed.

Lemma zenith_only_subsolar ts ps t p : zenith_point ts ps t p = 0 -> direction t p = direction ts ps.
Proof.
  intros H. pose proof (zenith_cos_spec ts ps t p) as E. rewrite H, deg_0, cos_0 in E.
  pose proof (direction_unit t p) as U. pose proof (direction_unit ts ps) as U'.
  set (u := direction t p) in *. set (v := direction ts ps) in *. clearbody u v.
  unfold unit_vec, vdot in *.
  assert (Q : (vx u - vx v) * (vx u - vx v) + (vy u - vy v) * (vy u - vy v) + (vz u - vz v) * (vz u - vz v) = 0) by lra.
  assert (sq0 : forall a b c : R, a * a + b * b + c * c = 0 -> a = 0) by (intros; nra).
  apply vec3_eq; apply Rminus_diag_uniq.
  - exact (sq0 _ _ _ Q).
  - apply (sq0 _ (vx u - vx v) (vz u - vz v)). lra.
  - apply (sq0 _ (vx u - vx v) (vy u - vy v)). lra.
Qed.

Lemma zenith_antipode ts ps t p :
  zenith_point ts ps (180 - t) (p + 180) = 180 - zenith_point ts ps t p.
Proof.
  pose proof (zenith_range ts ps t p).
  apply cos_deg_inj; [apply zenith_range | lra |].
  rewrite deg_minus, deg_180, Rtrigo_facts.cos_pi_minus, !zenith_cos_spec, direction_antipode.
  unfold vdot, vscale; cbn. ring.
Qed.

(** ** C53 *)
Lemma coeffs_unit g10 g11 h11 : (g10, g11, h11) <> (0, 0, 0) ->
  unit_vec (unit_of_coeffs g10 g11 h11) /\
  exists k, 0 < k /\ V3 g11 h11 g10 = vscale (- k) (unit_of_coeffs g10 g11 h11).
Proof.
  intros H. set (w := V3 g11 h11 g10).
  assert (Hw : w <> vzero) by (intros E; apply H; injection E; intros; subst; reflexivity).
  pose proof (len_pos w Hw) as Hp. pose proof (divs_unit w Hw) as U.
  unfold unit_of_coeffs. fold w. split.
  - unfold unit_vec, vdot, np_divs, np_neg in *; cbn [vx vy vz] in *. rewrite <- U. field.
    rewrite norm_len. lra.
  - exists (np_norm w). rewrite norm_len. split; [exact Hp|].
    apply vec3_eq; cbn [vx vy vz vscale np_divs np_neg w]; field; lra.
Qed.

Lemma pole_of_coeffs_agree k t p : 0 < k ->
  unit_of_coeffs (- k * cos (deg t)) (- k * (sin (deg t) * cos (deg p))) (- k * (sin (deg t) * sin (deg p)))
  = direction t p.
Proof.
  intros Hk. unfold unit_of_coeffs. rewrite norm_len.
  assert (L : vlen (V3 (- k * (sin (deg t) * cos (deg p))) (- k * (sin (deg t) * sin (deg p))) (- k * cos (deg t))) = k).
  { unfold vlen. replace (vdot _ _) with (k² * vdot (direction t p) (direction t p)).
    - rewrite (direction_unit t p), Rmult_1_r. apply sqrt_Rsqr. lra.
    - unfold vdot, direction, Rsqr; cbn. ring. }
  rewrite L. apply vec3_eq; cbn; field; lra.
Qed.

(** ** C54 *)
Lemma rho_from u w : unit_vec u -> unit_vec w -> vdot u w = 0 ->
  right_handed_orthonormal u w (vprod u w).
Proof.
  intros Hu Hw Hd. unfold right_handed_orthonormal. repeat split; auto.
  - unfold unit_vec. transitivity (vdot u u * vdot w w - vdot u w * vdot u w); [unfold vdot, vprod; cbn; ring|].
    rewrite Hu, Hw, Hd. ring.
  - unfold vdot, vprod; cbn; ring.
  - unfold vdot, vprod; cbn; ring.
Qed.

Lemma vprod_comm u v : vprod u v = vscale (-1) (vprod v u).
Proof. apply vec3_eq; cbn; ring. Qed.

Lemma vdot_comm u v : vdot u v = vdot v u.
Proof. unfold vdot; ring. Qed.

Lemma lagrange u v w : vprod (vprod u v) w = vadd (vscale (vdot u w) v) (vscale (- vdot v w) u).
Proof. unfold vdot; apply vec3_eq; cbn; ring. Qed.

Lemma rho_to v w : unit_vec v -> unit_vec w -> vdot v w = 0 ->
  right_handed_orthonormal (vprod v w) v w.
Proof.
  intros Hv Hw Hd. destruct (rho_from v w Hv Hw Hd) as (_ & _ & U & _ & A & B & _).
  unfold right_handed_orthonormal. repeat split; auto.
  rewrite lagrange, Hv, (vdot_comm w v), Hd. apply vec3_eq; cbn; ring.
Qed.

Lemma divs_dot v k u : k <> 0 -> vdot (np_divs v k) u = vdot v u / k.
Proof. intros. unfold vdot, np_divs; cbn. field; assumption. Qed.

Lemma prod_dot_l u v : vdot (vprod u v) u = 0.
Proof. unfold vdot, vprod; cbn; ring. Qed.
Lemma prod_dot_r u v : vdot (vprod u v) v = 0.
Proof. unfold vdot, vprod; cbn; ring. Qed.

(** The normalised cross product of two non-parallel vectors. *)
Lemma ncross u v : ~ parallel u v ->
  let n := np_divs (np_cross u v) (np_norm (np_cross u v)) in
  unit_vec n /\ vdot n u = 0 /\ vdot n v = 0 /\ exists k, 0 < k /\ vprod u v = vscale k n.
Proof.
  intros H n. assert (Hk : 0 < np_norm (np_cross u v)) by (rewrite norm_len, cross_prod; apply len_pos; exact H).
  repeat split.
  - apply divs_unit. exact H.
  - unfold n. rewrite divs_dot by lra. rewrite cross_prod, prod_dot_l. unfold Rdiv; ring.
  - unfold n. rewrite divs_dot by lra. rewrite cross_prod, prod_dot_r. unfold Rdiv; ring.
  - exists (np_norm (np_cross u v)). split; [exact Hk|]. unfold n. rewrite <- cross_prod.
    apply vec3_eq; cbn [vx vy vz vscale np_divs]; field; lra.
Qed.

Lemma gsm_ok vec sun : unit_vec vec -> ~ parallel vec (direction (fst sun) (snd sun)) ->
  let '(e1, e2, e3) := gsm_base vec sun in
  right_handed_orthonormal e1 e2 e3 /\ e1 = direction (fst sun) (snd sun) /\
  vdot vec e2 = 0 /\ 0 < vdot vec e3.
Proof.
  intros Hv Hp. unfold gsm_base. rewrite spherical_direction.
  set (s := direction (fst sun) (snd sun)) in *.
  pose proof (direction_unit (fst sun) (snd sun)) as Hs. fold s in Hs. clearbody s.
  destruct (ncross vec s Hp) as (U & A & B & k & Hk & E).
  set (n := np_divs (np_cross vec s) (np_norm (np_cross vec s))) in *. clearbody n.
  split; [| split; [reflexivity | split]].
  - rewrite cross_prod. apply (rho_from s n); auto. rewrite vdot_comm. exact B.
  - rewrite vdot_comm. exact A.
  - rewrite cross_prod.
    assert (T : vdot vec (vprod s n) = vdot (vprod vec s) n) by (unfold vdot, vprod; cbn; ring).
    rewrite T, E. replace (vdot (vscale k n) n) with (k * vdot n n) by (unfold vdot, vscale; cbn; ring).
    rewrite U. lra.
Qed.

Lemma sm_ok vec sun : unit_vec vec -> ~ parallel vec (direction (fst sun) (snd sun)) ->
  let '(e1, e2, e3) := sm_base vec sun in
  right_handed_orthonormal e1 e2 e3 /\ e3 = vec /\
  vdot (direction (fst sun) (snd sun)) e2 = 0 /\ 0 < vdot (direction (fst sun) (snd sun)) e1.
Proof.
  intros Hv Hp. unfold sm_base. rewrite spherical_direction.
  set (s := direction (fst sun) (snd sun)) in *.
  pose proof (direction_unit (fst sun) (snd sun)) as Hs. fold s in Hs. clearbody s.
  destruct (ncross vec s Hp) as (U & A & B & k & Hk & E).
  set (n := np_divs (np_cross vec s) (np_norm (np_cross vec s))) in *. clearbody n.
  split; [| split; [reflexivity | split]].
  - rewrite cross_prod. apply rho_to; auto.
  - rewrite vdot_comm. exact B.
  - rewrite cross_prod.
    assert (T : vdot s (vprod n vec) = vdot (vprod vec s) n) by (unfold vdot, vprod; cbn; ring).
    rewrite T, E. replace (vdot (vscale k n) n) with (k * vdot n n) by (unfold vdot, vscale; cbn; ring).
    rewrite U. lra.
Qed.

Lemma mag_ok vec : unit_vec vec -> ~ parallel zhat vec ->
  let e2 := np_divs (np_cross (V3 0 0 1) vec) (np_norm (np_cross (V3 0 0 1) vec)) in
  right_handed_orthonormal (np_cross e2 vec) e2 vec /\ vdot zhat e2 = 0 /\ vdot zhat (np_cross e2 vec) < 0.
Proof.
  intros Hv Hp. fold zhat. destruct (ncross zhat vec Hp) as (U & A & B & k & Hk & E).
  cbv zeta. set (n := np_divs (np_cross zhat vec) (np_norm (np_cross zhat vec))) in *. clearbody n.
  split; [| split].
  - rewrite cross_prod. apply rho_to; auto.
  - rewrite vdot_comm. exact A.
  - rewrite cross_prod.
    assert (T : vdot zhat (vprod n vec) = - vdot (vprod zhat vec) n) by (unfold vdot, vprod; cbn; ring).
    rewrite T, E. replace (vdot (vscale k n) n) with (k * vdot n n) by (unfold vdot, vscale; cbn; ring).
    rewrite U. lra.
Qed.

Lemma use_eq t p : use_base t p = (direction t p, south t p, east p).
Proof. reflexivity. Qed.

Lemma use_rho t p : right_handed_orthonormal (direction t p) (south t p) (east p).
Proof.
  pose proof (sc1 (deg t)). pose proof (sc1 (deg p)).
  assert (Hd : unit_vec (direction t p)) by apply direction_unit.
  assert (Hs : unit_vec (south t p)).
  { unfold unit_vec, vdot, south; cbn. nra. }
  assert (D : vdot (direction t p) (south t p) = 0).
  { unfold vdot, direction, south; cbn.
    transitivity (sin (deg t) * cos (deg t) * (sin (deg p) * sin (deg p) + cos (deg p) * cos (deg p) - 1)); [ring|].
    rewrite H0; ring. }
  assert (E : vprod (direction t p) (south t p) = east p).
  { apply vec3_eq; cbn [vx vy vz vprod direction south east].
    - transitivity (- sin (deg p) * (sin (deg t) * sin (deg t) + cos (deg t) * cos (deg t))); [ring|]. rewrite H; ring.
    - transitivity (cos (deg p) * (sin (deg t) * sin (deg t) + cos (deg t) * cos (deg t))); [ring|]. rewrite H; ring.
    - ring. }
  rewrite <- E. apply rho_from; assumption.
Qed.
