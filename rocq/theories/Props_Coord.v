(** Theorems about coordinate_utils.py (C49-C59, C80).
    Angles are in degrees, [direction theta phi] etc. are in Spec_Coord. *)
From Coq Require Import Reals List Bool String ZArith Lra Lia.
From Verif Require Import M_Prelude Spec_Coord M_Coord Spec_CoordApi P_Coord P_Coord2 P_Coord3 P_Coord4 P_Coord5 P_Coord6 P_Coord7 P_Coord8 P_Coord9 W_Coord.
Import ListNotations.
Open Scope R_scope.

(** ** C49 *)
Theorem C49_azimuth_is_the_representative_in_range : forall phi x,
  x = center_azimuth phi <-> (-180 < x <= 180 /\ congruent_mod 360 x phi).
Proof.
  intros phi x. split; [intros ->; apply azimuth_spec | intros [A B]; apply azimuth_unique; assumption].
Qed.

Theorem C49_idempotent : forall phi, center_azimuth (center_azimuth phi) = center_azimuth phi.
Proof. intros. apply azimuth_fix. apply azimuth_spec. Qed.

(** 190 degrees east is 170 degrees west; -180 is reported as 180. *)
Example C49_values : center_azimuth 190 = -170 /\ center_azimuth (-180) = 180 /\ center_azimuth 3610 = 10.
Proof.
  repeat split; symmetry; apply C49_azimuth_is_the_representative_in_range; (split; [lra|]).
  - exists (-1)%Z. lra.
  - exists 1%Z. lra.
  - exists (-10)%Z. lra.
Qed.

(** ** C50 *)
Theorem C50_local_time_is_shifted_universal_time : forall time phi x,
  x = local_time time phi <-> (0 <= x < 24 /\ congruent_mod 24 x (24 * time + phi / 15)).
Proof.
  intros t phi x. split; [intros ->; apply local_time_spec | intros [A B]; apply local_time_unique; assumption].
Qed.

(** Noon UT on 1 January 2000, 45 degrees west: 9 o'clock. *)
Example C50_value : local_time 0.5 (-45) = 9.
Proof. symmetry. apply C50_local_time_is_shifted_universal_time. split; [lra|]. exists 0%Z. lra. Qed.

(** ** C51 *)
Theorem C51_radius_is_the_norm_and_angles_in_range : forall v,
  let '(r, t, p) := cartesian_to_spherical v in r = vlen v /\ 0 <= t <= 180 /\ -180 < p <= 180.
Proof.
  intros v. pose proof (cart_radius v). pose proof (theta_range v). pose proof (phi_range v).
  destruct (cartesian_to_spherical v) as [[r t] p]. auto.
Qed.

Theorem C51_spherical_undoes_cartesian : forall v,
  let '(r, t, p) := cartesian_to_spherical v in spherical_to_cartesian r t p = v.
Proof. exact sph_cart. Qed.

Theorem C51_cartesian_undoes_spherical : forall r t p, 0 < r -> 0 < t < 180 -> -180 < p <= 180 ->
  cartesian_to_spherical (spherical_to_cartesian r t p) = (r, t, p).
Proof. exact cart_sph. Qed.

Theorem C51_meaning : forall r t p, spherical_to_cartesian r t p = vscale r (direction t p).
Proof. exact spherical_scale. Qed.

Example C51_case : 0 < 6371.2 /\ 0 < 30 < 180 /\ -180 < 180 <= 180.
Proof. lra. Qed.

(** ** C52 *)
Theorem C52_zenith_angle_is_the_angle_to_the_sun : forall pts out, zenith_angle pts = Ok out ->
  exists suns, sun_position (map (fun p => fst (fst p)) pts) = Ok suns /\ List.length suns = List.length pts /\
  List.length out = List.length pts /\
  forall i t th ph ts ps z, nth_error pts i = Some (t, th, ph) -> nth_error suns i = Some (ts, ps) ->
    nth_error out i = Some z ->
    0 <= z <= 180 /\ cos (deg z) = vdot (direction th ph) (direction ts ps) /\
    (z = 0 <-> direction th ph = direction ts ps).
Proof. exact zenith_list. Qed.

Theorem C52_antipodes_are_supplementary : forall t th ph z z',
  zenith_angle [(t, th, ph)] = Ok [z] -> zenith_angle [(t, 180 - th, ph + 180)] = Ok [z'] -> z + z' = 180.
Proof. exact zenith_antipode_api. Qed.

Example C52_case : exists z, zenith_angle [(0, 45, 10); (7305, 120, -60)] = Ok z /\ List.length z = 2%nat.
Proof. exact zenith_case. Qed.

(** ** C53 *)
Theorem C53_axis_is_a_unit_vector_opposite_to_the_dipole : forall cfg g10 g11 h11,
  (g10, g11, h11) <> (0, 0, 0) ->
  exists axis, dipole_to_vec cfg (DArray g10 g11 h11) = Ok axis /\
    dipole_to_vec cfg (DTuple [g10; g11; h11]) = Ok axis /\
    dipole_to_vec (g10, g11, h11) DNone = Ok axis /\
    unit_vec axis /\ exists k, 0 < k /\ V3 g11 h11 g10 = vscale (- k) axis.
Proof.
  intros cfg g10 g11 h11 H. exists (unit_of_coeffs g10 g11 h11).
  split; [reflexivity|]. split; [reflexivity|]. split; [reflexivity|]. apply coeffs_unit. exact H.
Qed.

Theorem C53_pole_position_gives_the_same_axis : forall cfg k t p, 0 < k ->
  dipole_to_vec cfg (DTuple [t; p]) = Ok (direction t p) /\
  dipole_to_vec cfg (DArray (- k * cos (deg t)) (- k * (sin (deg t) * cos (deg p))) (- k * (sin (deg t) * sin (deg p))))
    = Ok (direction t p).
Proof.
  intros cfg k t p H. split.
  - cbn. rewrite pole_direction. reflexivity.
  - cbn. rewrite pole_of_coeffs_agree by exact H. reflexivity.
Qed.

Theorem C53_other_counts_raise : forall cfg l, List.length l <> 2%nat -> List.length l <> 3%nat ->
  dipole_to_vec cfg (DTuple l) = Err ValueError.
Proof.
  intros cfg l H2 H3. cbn. destruct l as [|a [|b [|c [|d l]]]]; cbn in *; try reflexivity; exfalso; auto.
Qed.

Theorem C53_igrf_dipole : forall cfg e,
  igrf_dipole None = igrf_dipole (Some "2015"%string) /\
  igrf_dipole (Some "2015"%string) = dipole_to_vec cfg (DArray (-29442) (-1501) 4797.1) /\
  igrf_dipole (Some "2010"%string) = dipole_to_vec cfg (DTuple [11.32; 289.59]) /\
  (e = "2015"%string \/ e = "2010"%string <-> exists axis, igrf_dipole (Some e) = Ok axis /\ unit_vec axis) /\
  (e <> "2015"%string -> e <> "2010"%string -> igrf_dipole (Some e) = Err ValueError).
Proof. exact igrf_props. Qed.

Example C53_case : (-29442, -1501, 4797.1) <> (0, 0, 0) /\ 0 < 29868.8.
Proof. split; [intros E; injection E; intros; lra | lra]. Qed.

(** ** C54 *)
Theorem C54_gsm : forall cfg times dip axis suns bs,
  dipole_to_vec cfg dip = Ok axis -> unit_vec axis -> sun_position times = Ok suns ->
  (forall s, In s suns -> ~ parallel axis (direction (fst s) (snd s))) ->
  basevectors_gsm cfg times dip = Ok bs ->
  Forall2 (fun s b => let '(e1, e2, e3) := b in gsm_frame axis (direction (fst s) (snd s)) e1 e2 e3) suns bs.
Proof. exact gsm_frames. Qed.

Theorem C54_sm : forall cfg times dip axis suns bs,
  dipole_to_vec cfg dip = Ok axis -> unit_vec axis -> sun_position times = Ok suns ->
  (forall s, In s suns -> ~ parallel axis (direction (fst s) (snd s))) ->
  basevectors_sm cfg times dip = Ok bs ->
  Forall2 (fun s b => let '(e1, e2, e3) := b in sm_frame axis (direction (fst s) (snd s)) e1 e2 e3) suns bs.
Proof. exact sm_frames. Qed.

Theorem C54_mag : forall cfg dip axis,
  dipole_to_vec cfg dip = Ok axis -> unit_vec axis -> ~ parallel zhat axis ->
  exists e1 e2 e3, basevectors_mag cfg dip = Ok (e1, e2, e3) /\ mag_frame axis e1 e2 e3.
Proof. exact mag_frames. Qed.

(** For a dipole less than 60 degrees from the rotation axis, GSM and SM are
    defined at every accepted time of the last 27000 years. *)
Theorem C54_gsm_and_sm_always_defined : forall cfg times dip axis,
  (forall t, In t times -> -10 ^ 7 <= t < 36159.75) ->
  dipole_to_vec cfg dip = Ok axis -> unit_vec axis -> 1 / 4 <= vz axis ^ 2 ->
  exists bg bs, basevectors_gsm cfg times dip = Ok bg /\ basevectors_sm cfg times dip = Ok bs /\
    Forall2 (fun t b => let '(e1, e2, e3) := b in gsm_frame axis (sun_direction t) e1 e2 e3) times bg /\
    Forall2 (fun t b => let '(e1, e2, e3) := b in sm_frame axis (sun_direction t) e1 e2 e3) times bs.
Proof. exact gsm_sm_always. Qed.

(** The three definitions leave no freedom. *)
Theorem C54_frames_are_unique : forall k axis sun e1 e2 e3 f1 f2 f3,
  frame_of k axis sun e1 e2 e3 -> frame_of k axis sun f1 f2 f3 -> e1 = f1 /\ e2 = f2 /\ e3 = f3.
Proof. exact frame_unique. Qed.

Theorem C54_use : forall pts us, basevectors_use pts = Ok us ->
  us = map (fun p => (direction (fst p) (snd p), south (fst p) (snd p), east (snd p))) pts /\
  Forall (fun u => let '(e1, e2, e3) := u in right_handed_orthonormal e1 e2 e3) us.
Proof. exact use_frames. Qed.

Theorem C54_use_raises_exactly_at_poles : forall pts, pts <> [] -> (forall p, In p pts -> 0 <= fst p <= 180) ->
  (basevectors_use pts = Err ValueError <-> exists p, In p pts /\ (fst p = 0 \/ fst p = 180)) /\
  ((forall p, In p pts -> fst p <> 0 /\ fst p <> 180) -> exists us, basevectors_use pts = Ok us).
Proof. exact use_exactly. Qed.

Example C54_case : exists axis, dipole_to_vec default_dipole DNone = Ok axis /\ unit_vec axis /\
  1 / 4 <= vz axis ^ 2 /\ ~ parallel zhat axis.
Proof. exact default_axis. Qed.

(** ** C55 *)
Theorem C55_geo_to_base_resolves : forall e1 e2 e3 t p, right_handed_orthonormal e1 e2 e3 ->
  (let '(t', p') := geo_to_base t p (e1, e2, e3) false in
   direction t' p' = resolve e1 e2 e3 (direction t p) /\ 0 <= t' <= 180 /\ -180 < p' <= 180) /\
  (let '(t', p') := geo_to_base t p (e1, e2, e3) true in
   direction t p = resolve e1 e2 e3 (direction t' p') /\ 0 <= t' <= 180 /\ -180 < p' <= 180).
Proof. exact geo_to_base_both. Qed.

Theorem C55_round_trip : forall t p e1 e2 e3 (i : bool), right_handed_orthonormal e1 e2 e3 ->
  let '(t', p') := geo_to_base t p (e1, e2, e3) i in
  let '(t'', p'') := geo_to_base t' p' (e1, e2, e3) (negb i) in
  direction t'' p'' = direction t p /\ (0 < t < 180 -> -180 < p <= 180 -> (t'', p'') = (t, p)).
Proof. exact geo_roundtrip. Qed.

Theorem C55_angles_preserved : forall e1 e2 e3 t p u q, right_handed_orthonormal e1 e2 e3 -> forall i : bool,
  let '(t', p') := geo_to_base t p (e1, e2, e3) i in
  let '(u', q') := geo_to_base u q (e1, e2, e3) i in
  vdot (direction t' p') (direction u' q') = vdot (direction t p) (direction u q).
Proof. exact geo_to_base_angle. Qed.

Theorem C55_transform_points : forall k r cfg dip axis time suns,
  In r (spellings k) -> dipole_to_vec cfg dip = Ok axis -> unit_vec axis ->
  (forall s, In s suns -> nondegenerate k axis (direction (fst s) (snd s))) ->
  forall pts inverse, suns_for k time (List.length pts) suns ->
  exists out, transform_points cfg pts time (Some r) inverse dip = Ok out /\
  List.length out = List.length pts /\
  forall i t p t' p' s, nth_error pts i = Some (t, p) -> nth_error out i = Some (t', p') -> nth_error suns i = Some s ->
  exists e1 e2 e3, frame_of k axis (direction (fst s) (snd s)) e1 e2 e3 /\
    0 <= t' <= 180 /\ -180 < p' <= 180 /\
    if inv_of inverse then resolve e1 e2 e3 (direction t' p') = direction t p
    else direction t' p' = resolve e1 e2 e3 (direction t p).
Proof. exact tp_meaning. Qed.

Theorem C55_transform_points_round_trip : forall k r cfg dip axis time suns,
  In r (spellings k) -> dipole_to_vec cfg dip = Ok axis -> unit_vec axis ->
  (forall s, In s suns -> nondegenerate k axis (direction (fst s) (snd s))) ->
  forall pts i, suns_for k time (List.length pts) suns ->
  (forall p, In p pts -> 0 < fst p < 180 /\ -180 < snd p <= 180) ->
  exists out, transform_points cfg pts time (Some r) (Some i) dip = Ok out /\
    transform_points cfg out time (Some r) (Some (negb i)) dip = Ok pts.
Proof. exact tp_round. Qed.

Example C55_case : right_handed_orthonormal (V3 0 1 0) (V3 0 0 1) (V3 1 0 0).
Proof.
  repeat split; unfold unit_vec, vdot, vprod; cbn [vx vy vz]; try ring. f_equal; ring.
Qed.

(** ** C56 *)
Theorem C56_vectors_rotate_with_the_frame : forall k r cfg dip axis time suns,
  In r (spellings k) -> dipole_to_vec cfg dip = Ok axis -> unit_vec axis ->
  (forall s, In s suns -> nondegenerate k axis (direction (fst s) (snd s))) ->
  forall pts inverse out, suns_for k time (List.length pts) suns ->
  transform_vectors cfg pts time (Some r) inverse dip = Ok out ->
  List.length out = List.length pts /\
  forall i t p bt bp t' p' bt' bp' s,
    nth_error pts i = Some ((t, p), (bt, bp)) -> nth_error out i = Some ((t', p'), (bt', bp')) ->
    nth_error suns i = Some s ->
  exists e1 e2 e3, frame_of k axis (direction (fst s) (snd s)) e1 e2 e3 /\
    0 <= t' <= 180 /\ -180 < p' <= 180 /\
    if inv_of inverse then
      resolve e1 e2 e3 (direction t' p') = direction t p /\
      resolve e1 e2 e3 (tangent t' p' bt' bp') = tangent t p bt bp
    else
      direction t' p' = resolve e1 e2 e3 (direction t p) /\
      tangent t' p' bt' bp' = resolve e1 e2 e3 (tangent t p bt bp).
Proof. exact tv_meaning. Qed.

Theorem C56_horizontal_length_preserved : forall k r cfg dip axis time suns,
  In r (spellings k) -> dipole_to_vec cfg dip = Ok axis -> unit_vec axis ->
  (forall s, In s suns -> nondegenerate k axis (direction (fst s) (snd s))) ->
  forall pts inverse out, suns_for k time (List.length pts) suns ->
  transform_vectors cfg pts time (Some r) inverse dip = Ok out ->
  Forall2 (fun x y => fst (snd y) ^ 2 + snd (snd y) ^ 2 = fst (snd x) ^ 2 + snd (snd x) ^ 2) pts out.
Proof. exact tv_lengths. Qed.

Theorem C56_round_trip : forall k r cfg dip axis time suns,
  In r (spellings k) -> dipole_to_vec cfg dip = Ok axis -> unit_vec axis ->
  (forall s, In s suns -> nondegenerate k axis (direction (fst s) (snd s))) ->
  forall pts i out, suns_for k time (List.length pts) suns ->
  (forall p, In p pts -> 0 < fst (fst p) < 180 /\ -180 < snd (fst p) <= 180) ->
  transform_vectors cfg pts time (Some r) (Some i) dip = Ok out ->
  transform_vectors cfg out time (Some r) (Some (negb i)) dip = Ok pts.
Proof. exact tv_round. Qed.

(** Success and failure: exactly the poles of either system fail, and the
    locations are those of transform_points. *)
Theorem C56_fails_exactly_at_poles : forall k r cfg dip axis time suns,
  In r (spellings k) -> dipole_to_vec cfg dip = Ok axis -> unit_vec axis ->
  (forall s, In s suns -> nondegenerate k axis (direction (fst s) (snd s))) ->
  forall pts inverse, suns_for k time (List.length pts) suns -> pts <> [] ->
  (forall p, In p pts -> 0 <= fst (fst p) <= 180) ->
  exists locs', transform_points cfg (map fst pts) time (Some r) inverse dip = Ok locs' /\
  let pole := fun q : R * R => fst q = 0 \/ fst q = 180 in
  ((exists q, In q (map fst pts ++ locs')%list /\ pole q) ->
     transform_vectors cfg pts time (Some r) inverse dip = Err ValueError) /\
  ((forall q, In q (map fst pts ++ locs')%list -> ~ pole q) ->
     exists out, transform_vectors cfg pts time (Some r) inverse dip = Ok out /\ map fst out = locs').
Proof. exact tv_when. Qed.

Theorem C56_unknown_reference_raises : forall cfg pts vpts time r inverse dip,
  (forall k, ~ In r (spellings k)) ->
  transform_points cfg pts time (Some r) inverse dip = Err ValueError /\
  transform_vectors cfg vpts time (Some r) inverse dip = Err ValueError.
Proof. exact unknown_reference. Qed.

Theorem C56_missing_reference_raises : forall cfg pts vpts time inverse dip,
  transform_points cfg pts time None inverse dip = Err ValueError /\
  transform_vectors cfg vpts time None inverse dip = Err ValueError.
Proof. exact no_reference. Qed.

Example C56_case : exists axis, dipole_to_vec default_dipole DNone = Ok axis /\ unit_vec axis /\
  suns_for GSM (Some [0; 7305.5]) 2 (map sun_point [0; 7305.5]) /\
  (forall s, In s (map sun_point [0; 7305.5]) -> nondegenerate GSM axis (direction (fst s) (snd s))) /\
  suns_for MAG None 2 [(0, 0); (0, 0)] /\ nondegenerate MAG axis (direction 0 0).
Proof. exact transform_case. Qed.

(** ** C57 *)
Theorem C57_point_on_the_normal : forall a b h beta, 0 < a -> 0 < b -> 0 < beta < 180 ->
  0 < h * sqrt (a ^ 2 * cos (deg (90 - beta)) ^ 2 + b ^ 2 * sin (deg (90 - beta)) ^ 2) + a ^ 2 ->
  let '(radius, theta) := gg_to_geo a b h beta in
  geodetic_point a b h (90 - beta) (radius * sin (deg theta)) (radius * cos (deg theta)) /\
  0 <= radius /\ 0 < theta < 180.
Proof. exact gg_to_geo_geodetic. Qed.

(** There is only one such point. *)
Theorem C57_unique : forall a b h alpha rho z rho' z', 0 < a -> 0 < b ->
  geodetic_point a b h alpha rho z -> geodetic_point a b h alpha rho' z' -> rho = rho' /\ z = z'.
Proof. exact geodetic_unique. Qed.

(** Components: northward X and downward Z along the geodetic normal, in the
    meridian plane. *)
Theorem C57_components : forall a b h beta X Z,
  let '(radius, theta, Br, Bt) := gg_to_geo_vec a b h beta X Z in
  (radius, theta) = gg_to_geo a b h beta /\
  Br * sin (deg theta) + Bt * cos (deg theta) = X * (- sin (deg (90 - beta))) - Z * cos (deg (90 - beta)) /\
  Br * cos (deg theta) - Bt * sin (deg theta) = X * cos (deg (90 - beta)) - Z * sin (deg (90 - beta)) /\
  Br ^ 2 + Bt ^ 2 = X ^ 2 + Z ^ 2.
Proof. exact gg_vec_meaning. Qed.

Example C57_case : 0 < 6378.137 /\ 0 < 6356.752 /\ 0 < 40 < 180 /\
  0 < 450 * sqrt (6378.137 ^ 2 * cos (deg (90 - 40)) ^ 2 + 6356.752 ^ 2 * sin (deg (90 - 40)) ^ 2) + 6378.137 ^ 2.
Proof. exact gg_case. Qed.

(** ** C58 *)
Theorem C58_round_trip_above_the_ellipsoid : forall a b h beta,
  0 < b -> b <= a -> a ^ 2 < 2 * b ^ 2 -> 0 <= h -> 0 < beta < 180 ->
  let '(radius, theta) := gg_to_geo a b h beta in geo_to_gg a b radius theta = (h, beta).
Proof. exact geo_gg_above. Qed.

(** Also below: as long as the point lies on the outer side of the centre of
    curvature and outside the singular region near the centre. *)
Theorem C58_round_trip_general : forall a b h beta, 0 < b -> b <= a -> 0 < beta < 180 ->
  let c := cos (deg (90 - beta)) in let s := sin (deg (90 - beta)) in
  let W := sqrt (a ^ 2 * c ^ 2 + b ^ 2 * s ^ 2) in
  let r := (a ^ 2 / W + h) * c in let z := (b ^ 2 / W + h) * s in
  0 < b ^ 2 / W + h -> a ^ 2 * r ^ 2 + b ^ 2 * z ^ 2 > (a ^ 2 - b ^ 2) ^ 2 ->
  let '(radius, theta) := gg_to_geo a b h beta in geo_to_gg a b radius theta = (h, beta).
Proof. exact geo_gg_inverse. Qed.

Theorem C58_geodetic_coordinates_of_any_point : forall a b radius theta,
  0 < b -> b <= a -> 0 < radius -> 0 < theta < 180 ->
  let r := radius * sin (deg theta) in let z := radius * cos (deg theta) in
  a ^ 2 * r ^ 2 + b ^ 2 * z ^ 2 > (a ^ 2 - b ^ 2) ^ 2 ->
  let '(h, beta) := geo_to_gg a b radius theta in
  0 < beta < 180 /\ geodetic_point a b h (90 - beta) r z /\ gg_to_geo a b h beta = (radius, theta).
Proof. exact geo_to_gg_full. Qed.

Theorem C58_components_round_trip : forall a b h beta X Z,
  0 < b -> b <= a -> a ^ 2 < 2 * b ^ 2 -> 0 <= h -> 0 < beta < 180 ->
  let '(radius, theta, Br, Bt) := gg_to_geo_vec a b h beta X Z in
  geo_to_gg_vec a b radius theta Br Bt = (h, beta, X, Z).
Proof. exact gg_vec_round. Qed.

Example C58_case : 0 < 6356.752 /\ 6356.752 <= 6378.137 /\ 6378.137 ^ 2 < 2 * 6356.752 ^ 2.
Proof. exact wgs84_case. Qed.

(** ** C59 *)
Theorem C59_accepted_times : forall times,
  (sun_position times = Ok (map sun_point times) <-> forall t, In t times -> t < 36159.75) /\
  (sun_position times = Err AssertionError <-> exists t, In t times /\ 36159.75 <= t).
Proof. exact sun_accepts. Qed.

Theorem C59_ranges_partial : forall times out, sun_position times = Ok out ->
  List.length out = List.length times /\
  Forall (fun s => 0 <= fst s <= 180 /\ -180 < snd s <= 180) out.
Proof. exact sun_out_ranges. Qed.

(** Times before 1901-01-01 (mjd2000 = -36159) are never rejected, although
    the assertion message and the documentation say so. *)
Theorem C59_early_times_are_accepted_refuted : forall t, t < -36159 ->
  exists s, sun_position [t] = Ok [s].
Proof. exact sun_early. Qed.

Example C59_case : -1000000 < -36159. Proof. lra. Qed.

(** ** C80 *)
Theorem C80_sun_direction : forall times out, sun_position times = Ok out ->
  (forall t, In t times -> 0 < sun_obliquity t < 90) ->
  map (fun s => direction (fst s) (snd s)) out = map sun_direction times.
Proof. exact sun_dirs. Qed.

Theorem C80_obliquity_is_acute_at_all_modern_times : forall t, -10 ^ 7 <= t <= 10 ^ 5 -> 0 < sun_obliquity t < 90.
Proof. exact obliq_modern. Qed.

Example C80_case : sun_position [0; 7305.5] = Ok (map sun_point [0; 7305.5]) /\ forall t, In t [0; 7305.5] -> 0 < sun_obliquity t < 90.
Proof.
  split; [apply C59_accepted_times|]; intros t [<- |[<- |[]]]; [lra|lra|apply C80_obliquity_is_acute_at_all_modern_times; lra..].
Qed.

Print Assumptions C49_azimuth_is_the_representative_in_range.
Print Assumptions C50_local_time_is_shifted_universal_time.
Print Assumptions C51_cartesian_undoes_spherical.
Print Assumptions C52_zenith_angle_is_the_angle_to_the_sun.
Print Assumptions C53_pole_position_gives_the_same_axis.
Print Assumptions C54_gsm_and_sm_always_defined.
Print Assumptions C55_transform_points_round_trip.
Print Assumptions C56_vectors_rotate_with_the_frame.
Print Assumptions C56_round_trip.
Print Assumptions C57_point_on_the_normal.
Print Assumptions C58_geodetic_coordinates_of_any_point.
Print Assumptions C59_accepted_times.
Print Assumptions C80_sun_direction.
Print Assumptions C49_idempotent.
Print Assumptions C51_radius_is_the_norm_and_angles_in_range.
Print Assumptions C51_spherical_undoes_cartesian.
Print Assumptions C51_meaning.
Print Assumptions C52_antipodes_are_supplementary.
Print Assumptions C53_axis_is_a_unit_vector_opposite_to_the_dipole.
Print Assumptions C53_other_counts_raise.
Print Assumptions C53_igrf_dipole.
Print Assumptions C54_gsm.
Print Assumptions C54_sm.
Print Assumptions C54_mag.
Print Assumptions C54_frames_are_unique.
Print Assumptions C54_use.
Print Assumptions C54_use_raises_exactly_at_poles.
Print Assumptions C55_geo_to_base_resolves.
Print Assumptions C55_round_trip.
Print Assumptions C55_angles_preserved.
Print Assumptions C55_transform_points.
Print Assumptions C56_horizontal_length_preserved.
Print Assumptions C56_fails_exactly_at_poles.
Print Assumptions C56_unknown_reference_raises.
Print Assumptions C56_missing_reference_raises.
Print Assumptions C57_unique.
Print Assumptions C57_components.
Print Assumptions C58_round_trip_above_the_ellipsoid.
Print Assumptions C58_round_trip_general.
Print Assumptions C58_components_round_trip.
Print Assumptions C59_ranges_partial.
Print Assumptions C59_early_times_are_accepted_refuted.
Print Assumptions C80_obliquity_is_acute_at_all_modern_times.
