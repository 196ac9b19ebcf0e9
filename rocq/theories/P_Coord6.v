(** C57, C59, C80: sun position, geodetic to geocentric. *)
From Coq Require Import Reals List Bool String Ascii ZArith Lra Lia Psatz.
From Verif Require Import M_Prelude Spec_Coord M_Coord P_Coord P_Coord2 P_Coord3.
Import ListNotations.
Open Scope R_scope.

(** ** The assertion *)
Lemma sun_check_spec t : sun_check t = true <-> t < 36159.75.
Proof.
  unfold sun_check. pose proof (floor_bounds (t / 365.25)) as [A B].
  set (q := np_floor (t / 365.25)) in *.
  assert (Q : 2000 + q < 2099 <-> t < 36159.75).
  { unfold q, np_floor in *. split; intros H.
    - assert (IZR (Int_part (t / 365.25)) < 99) as H' by lra. apply lt_IZR in H'.
      assert (Int_part (t / 365.25) + 1 <= 99)%Z as H2 by lia. apply IZR_le in H2. rewrite plus_IZR in H2. lra.
    - assert (t / 365.25 < 99) by lra. lra. }
  destruct (Rlt_dec (2000 + q) 2099); destruct (Rlt_dec 1901 (2000 - q)); cbn; split; intros; try reflexivity; try tauto; try lra; try discriminate.
  all: exfalso; apply Q in H; lra.
Qed.

Lemma sun_ok_iff times : (forall t, In t times -> t < 36159.75) -> sun_position times = Ok (map sun_point times).
Proof.
  intros H. unfold sun_position.
  assert (E : forallb sun_check times = true) by (apply forallb_forall; intros; apply sun_check_spec; auto).
  rewrite E. reflexivity.
Qed.

Lemma sun_err_iff times : (exists t, In t times /\ 36159.75 <= t) -> sun_position times = Err AssertionError.
Proof.
  intros (t & Hi & Ht). unfold sun_position.
  destruct (forallb sun_check times) eqn:E; [|reflexivity].
  pose proof (proj1 (forallb_forall _ _) E t Hi) as C. apply sun_check_spec in C. lra.
Qed.

Lemma sun_ranges t : 0 < fst (sun_point t) < 180 /\ -180 < snd (sun_point t) <= 180.
Proof.
  unfold sun_point, sun_decl_ra. cbv zeta. set (u := atan _). cbn [fst snd].
  assert (Hu : - PI / 2 < u < PI / 2) by apply atan_bound.
  split; [|apply azimuth_spec].
  assert (0 < PI / 2 - u) as A by lra. assert (PI / 2 - u < PI) as B by lra.
  apply degrees_lt in A. apply degrees_lt in B. rewrite degrees_0, degrees_PI in *. lra.
Qed.

(** ** The direction *)
Lemma cos_period_Z x (k : Z) : cos (x + 2 * PI * IZR k) = cos x.
Proof.
  destruct (Z_le_gt_dec 0 k) as [H|H].
  - rewrite <- (Z2Nat.id k) by lia. rewrite <- INR_IZR_INZ.
    replace (x + 2 * PI * INR (Z.to_nat k)) with (x + 2 * INR (Z.to_nat k) * PI) by ring. apply cos_period.
  - set (n := Z.to_nat (- k)). assert (E : IZR k = - INR n).
    { unfold n. rewrite INR_IZR_INZ, Z2Nat.id by lia. rewrite opp_IZR. ring. }
    rewrite E. rewrite <- (cos_period (x + 2 * PI * - INR n) n). f_equal. ring.
Qed.
Lemma sin_period_Z x (k : Z) : sin (x + 2 * PI * IZR k) = sin x.
Proof.
  rewrite <- !cos_shift. replace (PI / 2 - (x + 2 * PI * IZR k)) with (PI / 2 - x + 2 * PI * IZR (- k)).
  - apply cos_period_Z.
  - rewrite opp_IZR. ring.
Qed.

Lemma deg_mod x y : congruent_mod 360 x y -> cos (deg x) = cos (deg y) /\ sin (deg x) = sin (deg y).
Proof.
  intros [k ->]. unfold deg.
  replace ((y + 360 * IZR k) * (PI / 180)) with (y * (PI / 180) + 2 * PI * IZR k) by field.
  split; [apply cos_period_Z | apply sin_period_Z].
Qed.

Lemma rem360_cong x : congruent_mod 360 (np_remainder x 360) x.
Proof. destruct (remainder_cong x 360) as [k ->]. exists (- k)%Z. rewrite opp_IZR. ring. Qed.

Lemma jd_eq t : julian_date t = sun_days_1900 t.
Proof. unfold julian_date, sun_days_1900. lra. Qed.

Lemma cong_plus p x y d : congruent_mod p x y -> congruent_mod p (x + d) (y + d).
Proof. intros [k ->]. exists k. ring. Qed.

Lemma slp_cong t : congruent_mod 360 (sun_slp t) (sun_ecliptic_longitude t).
Proof.
  unfold sun_slp, sun_ecliptic_longitude. cbv zeta. rewrite jd_eq.
  fold (sun_mean_anomaly t). fold (sun_mean_longitude t).
  set (g := np_remainder (sun_mean_anomaly t) 360).
  assert (Cg : congruent_mod 360 g (sun_mean_anomaly t)) by apply rem360_cong.
  destruct (deg_mod _ _ Cg) as [_ S]. fold (deg g).
  assert (C2 : congruent_mod 360 (2 * g) (2 * sun_mean_anomaly t)).
  { destruct Cg as [k ->]. exists (2 * k)%Z. rewrite mult_IZR. ring. }
  destruct (deg_mod _ _ C2) as [_ S2]. fold (deg (2 * g)). rewrite S, S2.
  destruct (rem360_cong (sun_mean_longitude t)) as [k Hk]. exists k. rewrite Hk. ring.
Qed.

Lemma obliq_eq t : sun_obliq t = sun_obliquity t.
Proof. unfold sun_obliq, sun_obliquity. rewrite jd_eq. reflexivity. Qed.

Lemma gmst_cong t : exists x, sun_gmst t = deg x /\ congruent_mod 360 x (sidereal_angle t).
Proof.
  unfold sun_gmst. cbv zeta. eexists; split; [reflexivity|].
  rewrite jd_eq. set (y := 279.690983 + 0.9856473354 * sun_days_1900 t + 360 * np_remainder t 1 + 180).
  destruct (rem360_cong y) as [k ->]. unfold y, sidereal_angle.
  destruct (remainder_cong t 1) as [j ->]. exists (k - j)%Z. rewrite minus_IZR. ring.
Qed.

Lemma obliq_bounds t : -10 ^ 8 <= t <= 10 ^ 8 -> -20 < sun_obliquity t < 90.
Proof. intros H. unfold sun_obliquity, sun_days_1900. lra. Qed.

(** The right ascension and declination are the polar angles of the
    equatorial direction. *)
Lemma decl_ra_spec slp eps : 0 < eps < 90 ->
  let '(dl, ra) := sun_decl_ra slp eps in
  V3 (cos dl * cos ra) (cos dl * sin ra) (sin dl) = sun_equatorial slp eps.
Proof.
  intros He. unfold sun_decl_ra, sun_equatorial. cbv zeta.
  change (eps * (PI / 180)) with (deg eps). change (slp * (PI / 180)) with (deg slp).
  assert (Hd : 0 < deg eps < PI / 2).
  { unfold deg. pose proof PI_RGT_0. split; [nra|].
    replace (PI / 2) with (90 * (PI / 180)) by field. nra. }
  assert (Hs : 0 < sin (deg eps)) by (apply sin_gt_0; lra).
  assert (Hc : 0 < cos (deg eps)) by (apply cos_gt_0; lra).
  set (sl := sin (deg slp)). set (cl := cos (deg slp)).
  assert (L : sl * sl + cl * cl = 1) by apply sc1.
  assert (Ee : sin (deg eps) * sin (deg eps) + cos (deg eps) * cos (deg eps) = 1) by apply sc1.
  unfold tan. set (se := sin (deg eps)) in *. set (ce := cos (deg eps)) in *.
  clearbody sl cl se ce.
  set (sind := se * sl).
  assert (P1 : 1 - sind ^ 2 = cl * cl + ce * sl * (ce * sl)).
  { unfold sind. replace ((se * sl) ^ 2) with (se * se * (sl * sl)) by ring.
    replace (se * se) with (1 - ce * ce) by lra. replace (cl * cl) with (1 - sl * sl) by lra. ring. }
  assert (P0 : 0 < 1 - sind ^ 2).
  { rewrite P1. destruct (Req_dec cl 0) as [Z|Z].
    - rewrite Z in *. assert (sl * sl = 1) by lra. replace (ce * sl * (ce * sl)) with (ce * ce * (sl * sl)) by ring.
      rewrite H. nra.
    - nra. }
  set (cosd := sqrt (1 - sind ^ 2)).
  assert (Pc : 0 < cosd) by (apply sqrt_lt_R0; exact P0).
  assert (Sq : cosd * cosd = 1 - sind ^ 2) by (apply sqrt_sqrt; lra).
  assert (HY : sind / (cosd * (se / ce)) = ce * sl / cosd) by (unfold sind; field; repeat split; lra).
  rewrite HY.
  pose proof (atan2_polar (ce * sl / cosd) (- cl / cosd)) as [C S]. cbv zeta in C, S.
  assert (One : (- cl / cosd) ^ 2 + (ce * sl / cosd) ^ 2 = 1).
  { replace ((- cl / cosd) ^ 2 + (ce * sl / cosd) ^ 2) with ((cl * cl + ce * sl * (ce * sl)) / (cosd * cosd)) by (field; lra).
    rewrite Sq, <- P1. field. lra. }
  rewrite One, sqrt_1, !Rmult_1_l in C, S.
  rewrite Rtrigo_facts.cos_pi_minus, Rtrigo_facts.sin_pi_minus, C, S.
  assert (Sd : sqrt (1 + (sind / cosd)²) = / cosd).
  { replace (1 + (sind / cosd)²) with ((/ cosd)²).
    - apply sqrt_Rsqr. left. apply Rinv_0_lt_compat. exact Pc.
    - unfold Rsqr. replace (sind / cosd * (sind / cosd)) with (sind ^ 2 / (cosd * cosd)) by (field; lra).
      replace (/ cosd * / cosd) with (1 / (cosd * cosd)) by (field; lra). rewrite Sq.
      field. lra. }
  rewrite cos_atan_eq, sin_atan_eq, Sd, Rinv_inv.
  apply vec3_eq; cbn [vx vy vz].
  - field. lra.
  - field. lra.
  - unfold sind. field. lra.
Qed.

Lemma cos_deg_minus_deg x y : cos (deg (x - y)) = cos (deg x - deg y).
Proof. rewrite deg_minus. reflexivity. Qed.

Lemma sun_point_direction t : 0 < sun_obliquity t < 90 ->
  direction (fst (sun_point t)) (snd (sun_point t)) = sun_direction t.
Proof.
  intros He. unfold sun_point.
  pose proof (decl_ra_spec (sun_slp t) (sun_obliq t)) as D. rewrite obliq_eq in *. specialize (D He).
  destruct (sun_decl_ra (sun_slp t) (sun_obliquity t)) as [dl ra]. cbn [fst snd].
  destruct (gmst_cong t) as (x & Hx & Cx). rewrite Hx.
  destruct (deg_mod _ _ (slp_cong t)) as [Cl Sl].
  destruct (deg_mod _ _ Cx) as [Cg Sg].
  set (phi := center_azimuth _).
  assert (Cp : cos (deg phi) = cos (ra - deg x) /\ sin (deg phi) = sin (ra - deg x)).
  { destruct (deg_mod phi (np_degrees (ra - deg x)) (proj2 (azimuth_spec _))) as [A B].
    rewrite A, B. replace (deg (np_degrees (ra - deg x))) with (ra - deg x) by (symmetry; apply radians_degrees). auto. }
  destruct Cp as [Cp Sp].
  assert (T : sin (deg (np_degrees (PI / 2 - dl))) = cos dl /\ cos (deg (np_degrees (PI / 2 - dl))) = sin dl).
  { change deg with np_radians. rewrite radians_degrees. rewrite sin_shift, cos_shift. auto. }
  destruct T as [T1 T2].
  unfold direction. rewrite T1, T2, Cp, Sp.
  unfold sun_direction, sun_equatorial, rotate_z. cbn [vx vy vz].
  rewrite <- Cl, <- Sl, <- Cg, <- Sg.
  unfold sun_equatorial in D.
  pose proof (f_equal vx D) as D1. pose proof (f_equal vy D) as D2. pose proof (f_equal vz D) as D3.
  cbn [vx vy vz] in D1, D2, D3.
  rewrite cos_minus, sin_minus.
  apply vec3_eq; cbn [vx vy vz].
  - rewrite <- D1, <- D2. ring.
  - rewrite <- D1, <- D2. ring.
  - exact D3.
Qed.

(** ** C57 *)
Lemma W_pos a b c s : 0 < a -> 0 < b -> s * s + c * c = 1 -> 0 < a ^ 2 * c ^ 2 + b ^ 2 * s ^ 2.
Proof.
  intros Ha Hb H.
  assert (0 < a * a) by nra. assert (0 < b * b) by nra.
  destruct (Req_dec c 0) as [->|Hc].
  - assert (s * s = 1) by lra. replace (b ^ 2 * s ^ 2) with (b * b * (s * s)) by ring. rewrite H2. nra.
  - assert (0 < c * c) by nra. assert (0 <= s * s) by nra.
    replace (a ^ 2 * c ^ 2 + b ^ 2 * s ^ 2) with (a * a * (c * c) + b * b * (s * s)) by ring. nra.
Qed.

(** The closed form of gg_to_geo in the meridian plane. *)
Lemma gg_to_geo_polar a b h beta : 0 < a -> 0 < b -> 0 < beta < 180 ->
  let c := cos (deg (90 - beta)) in let s := sin (deg (90 - beta)) in
  let W := sqrt (a ^ 2 * c ^ 2 + b ^ 2 * s ^ 2) in
  0 < h * W + a ^ 2 ->
  let '(radius, theta) := gg_to_geo a b h beta in
  radius * sin (deg theta) = (a ^ 2 / W + h) * c /\
  radius * cos (deg theta) = (b ^ 2 / W + h) * s /\ 0 <= radius /\ 0 < theta < 180.
Proof.
  intros Ha Hb Hbe c s W HW. unfold gg_to_geo. cbv zeta.
  change np_radians with deg. fold c s. fold W.
  assert (CS : s * s + c * c = 1) by apply sc1.
  assert (Hal : - PI / 2 < deg (90 - beta) < PI / 2).
  { unfold deg. pose proof PI_RGT_0. replace (- PI / 2) with (-90 * (PI / 180)) by field.
    replace (PI / 2) with (90 * (PI / 180)) by field. split; apply Rmult_lt_compat_r; lra. }
  assert (Hc : 0 < c) by (apply cos_gt_0; lra).
  pose proof (W_pos a b c s Ha Hb CS) as PW.
  assert (HWp : 0 < W) by (apply sqrt_lt_R0; exact PW).
  assert (WW : W * W = a ^ 2 * c ^ 2 + b ^ 2 * s ^ 2) by (apply sqrt_sqrt; lra).
  unfold tan. fold s c. clearbody c s W. clear Hal.
  set (x := h * W + a ^ 2) in *. set (y := (h * W + b ^ 2) * (s / c)).
  pose proof (atan2_polar y x) as [C S]. cbv zeta in C, S.
  assert (Hg : - (PI / 2) < np_arctan2 y x < PI / 2).
  { unfold np_arctan2. destruct (Rlt_dec 0 x); [|contradiction]. pose proof (atan_bound (y / x)). lra. }
  set (g := np_arctan2 y x) in *. clearbody g.
  set (rad := sqrt (h ^ 2 + _ + _)).
  assert (Er : rad = sqrt (x ^ 2 + y ^ 2) * (c / W)).
  { unfold rad. replace (c / W) with (sqrt ((c / W)²)).
    - rewrite <- sqrt_mult.
      + f_equal. unfold x, y, Rsqr.
        replace (a ^ 2 * (1 - (1 - (b / a) ^ 4) * s ^ 2) / (1 - (1 - (b / a) ^ 2) * s ^ 2))
          with ((a ^ 4 * c ^ 2 + b ^ 4 * s ^ 2) / (W * W)).
        * replace (((h * W + a ^ 2) ^ 2 + ((h * W + b ^ 2) * (s / c)) ^ 2) * (c / W * (c / W)))
            with (((h * W + a ^ 2) ^ 2 * (c * c) + (h * W + b ^ 2) ^ 2 * (s * s)) / (W * W)) by (field; lra).
          apply (Rmult_eq_reg_r (W * W)); [|nra].
          replace ((h ^ 2 + 2 * (h * W) + (a ^ 4 * c ^ 2 + b ^ 4 * s ^ 2) / (W * W)) * (W * W))
            with (h ^ 2 * (W * W) + 2 * (h * W) * (W * W) + (a ^ 4 * c ^ 2 + b ^ 4 * s ^ 2)) by (field; lra).
          replace (((h * W + a ^ 2) ^ 2 * (c * c) + (h * W + b ^ 2) ^ 2 * (s * s)) / (W * W) * (W * W))
            with ((h * W) ^ 2 * (s * s + c * c) + 2 * (h * W) * (a ^ 2 * c ^ 2 + b ^ 2 * s ^ 2)
                  + (a ^ 4 * c ^ 2 + b ^ 4 * s ^ 2)) by (field; lra).
          rewrite CS, <- WW. ring.
        * assert (N1 : 1 - (1 - (b / a) ^ 2) * s ^ 2 = W * W / a ^ 2).
          { rewrite WW. replace (c ^ 2) with (1 - s * s) by (replace (c ^ 2) with (c * c) by ring; lra). field. lra. }
          rewrite N1. replace (c ^ 2) with (1 - s * s) by (replace (c ^ 2) with (c * c) by ring; lra).
          field. split; lra.
      + nra.
      + apply Rle_0_sqr.
    - apply sqrt_Rsqr. left. apply Rdiv_lt_0_compat; assumption. }
  assert (Ecs : sin (deg (90 - np_degrees g)) = cos g /\ cos (deg (90 - np_degrees g)) = sin g).
  { rewrite deg_minus. change deg with np_radians. rewrite radians_degrees, radians_90, sin_shift, cos_shift. auto. }
  destruct Ecs as [Es Ec]. rewrite Es, Ec.
  split; [| split; [| split]].
  - rewrite Er. replace (sqrt (x ^ 2 + y ^ 2) * (c / W) * cos g) with (c / W * (sqrt (x ^ 2 + y ^ 2) * cos g)) by ring.
    rewrite C. unfold x. field. lra.
  - rewrite Er. replace (sqrt (x ^ 2 + y ^ 2) * (c / W) * sin g) with (c / W * (sqrt (x ^ 2 + y ^ 2) * sin g)) by ring.
    rewrite S. unfold y. field. lra.
  - apply sqrt_pos.
  - destruct Hg as [A B]. apply degrees_lt in A. apply degrees_lt in B.
    assert (np_degrees (PI / 2) = 90) by (unfold np_degrees; field; apply PI_neq0).
    assert (np_degrees (- (PI / 2)) = -90) by (unfold np_degrees; field; apply PI_neq0). lra.
Qed.

Lemma gg_is_geodetic a b h alpha : 0 < a -> 0 < b -> 
  let c := cos (deg alpha) in let s := sin (deg alpha) in
  let W := sqrt (a ^ 2 * c ^ 2 + b ^ 2 * s ^ 2) in
  geodetic_point a b h alpha ((a ^ 2 / W + h) * c) ((b ^ 2 / W + h) * s).
Proof.
  intros Ha Hb c s W.
  assert (CS : s * s + c * c = 1) by apply sc1.
  pose proof (W_pos a b c s Ha Hb CS) as PW.
  assert (HWp : 0 < W) by (apply sqrt_lt_R0; exact PW).
  assert (WW : W * W = a ^ 2 * c ^ 2 + b ^ 2 * s ^ 2) by (apply sqrt_sqrt; lra).
  exists (a ^ 2 / W * c), (b ^ 2 / W * s). fold c s. clearbody c s W. repeat split.
  - unfold on_ellipse. apply (Rmult_eq_reg_r (W * W)); [|nra].
    transitivity (a ^ 2 * c ^ 2 + b ^ 2 * s ^ 2); [field; repeat split; lra | lra].
  - lra.
  - exists (/ W). split; [apply Rinv_0_lt_compat; exact HWp|]. split; field; lra.
  - ring.
  - ring.
Qed.

(** The closed form is the only one: normal and ellipse determine the foot. *)
Lemma geodetic_closed a b h alpha rho z : 0 < a -> 0 < b -> geodetic_point a b h alpha rho z ->
  let c := cos (deg alpha) in let s := sin (deg alpha) in
  let W := sqrt (a ^ 2 * c ^ 2 + b ^ 2 * s ^ 2) in
  rho = (a ^ 2 / W + h) * c /\ z = (b ^ 2 / W + h) * s.
Proof.
  intros Ha Hb (r0 & z0 & E & (_ & k & Hk & Hr & Hz) & -> & ->) c s W. fold c s in Hr, Hz |- *.
  assert (CS : s * s + c * c = 1) by apply sc1.
  pose proof (W_pos a b c s Ha Hb CS) as PW.
  assert (HWp : 0 < W) by (apply sqrt_lt_R0; exact PW).
  assert (WW : W * W = a ^ 2 * c ^ 2 + b ^ 2 * s ^ 2) by (apply sqrt_sqrt; lra).
  clearbody c s W.
  assert (Er : r0 = a ^ 2 * (k * c)) by (rewrite <- Hr; field; lra).
  assert (Ez : z0 = b ^ 2 * (k * s)) by (rewrite <- Hz; field; lra).
  unfold on_ellipse in E. rewrite Er, Ez in E.
  assert (K : k * k * (W * W) = 1).
  { rewrite WW. rewrite <- E. field. split; lra. }
  assert (KW : k * W = 1).
  { assert (Z : (k * W - 1) * (k * W + 1) = 0) by (replace ((k * W - 1) * (k * W + 1)) with (k * k * (W * W) - 1) by ring; lra).
    apply Rmult_integral in Z. destruct Z; [lra | nra]. }
  assert (k = / W) by (apply (Rmult_eq_reg_r W); [|lra]; rewrite KW; field; lra).
  rewrite Er, Ez. rewrite H. split; field; lra.
Qed.

(** Vector components in the meridian plane. *)
Lemma gg_vectors theta beta X Z :
  let '(g1, g2, g3) := basevectors_gg theta beta in
  let Br := vx g1 * X + vx g3 * Z in let Bt := vy g1 * X + vy g3 * Z in
  let al := deg (90 - beta) in
  Br * sin (deg theta) + Bt * cos (deg theta) = X * (- sin al) - Z * cos al /\
  Br * cos (deg theta) - Bt * sin (deg theta) = X * cos al - Z * sin al.
Proof.
  unfold basevectors_gg. cbn [vx vy vz]. change np_radians with deg.
  rewrite !deg_minus. replace (deg 90) with (PI / 2) by (unfold deg; field).
  rewrite sin_shift, cos_shift, sin_minus, cos_minus.
  pose proof (sc1 (deg theta)) as H.
  set (st := sin (deg theta)) in *. set (ct := cos (deg theta)) in *.
  set (sb := sin (deg beta)). set (cb := cos (deg beta)). clearbody st ct sb cb. cbv zeta.
  split.
  - transitivity (X * (- cb) * (st * st + ct * ct) - Z * sb * (st * st + ct * ct)); [ring | rewrite H; ring].
  - transitivity (X * sb * (st * st + ct * ct) - Z * cb * (st * st + ct * ct)); [ring | rewrite H; ring].
Qed.

Lemma gg_vectors_inv theta beta Br Bt :
  let '(g1, g2, g3) := basevectors_gg theta beta in
  let X := vx g1 * Br + vy g1 * Bt in let Z := vx g3 * Br + vy g3 * Bt in
  (vx g1 * X + vx g3 * Z, vy g1 * X + vy g3 * Z) = (Br, Bt).
Proof.
  unfold basevectors_gg. cbn [vx vy vz]. cbv zeta.
  pose proof (sc1 (np_radians (theta - beta))) as H.
  set (s := sin (np_radians (theta - beta))) in *. set (c := cos (np_radians (theta - beta))) in *. clearbody s c.
  f_equal.
  - transitivity (Br * (s * s + c * c)); [ring | rewrite H; ring].
  - transitivity (Bt * (s * s + c * c)); [ring | rewrite H; ring].
Qed.

Lemma gg_vectors_inv' theta beta X Z :
  let '(g1, g2, g3) := basevectors_gg theta beta in
  let Br := vx g1 * X + vx g3 * Z in let Bt := vy g1 * X + vy g3 * Z in
  (vx g1 * Br + vy g1 * Bt, vx g3 * Br + vy g3 * Bt) = (X, Z).
Proof.
  unfold basevectors_gg. cbn [vx vy vz]. cbv zeta.
  pose proof (sc1 (np_radians (theta - beta))) as H.
  set (s := sin (np_radians (theta - beta))) in *. set (c := cos (np_radians (theta - beta))) in *. clearbody s c.
  f_equal.
  - transitivity (X * (s * s + c * c)); [ring | rewrite H; ring].
  - transitivity (Z * (s * s + c * c)); [ring | rewrite H; ring].
Qed.
