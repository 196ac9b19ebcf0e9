(** Concrete cases for Props_Coord. *)
From Coq Require Import Reals List Bool String ZArith Lra Lia Psatz.
From Verif Require Import M_Prelude Spec_Coord M_Coord Spec_CoordApi P_Coord P_Coord2 P_Coord3 P_Coord4 P_Coord5 P_Coord6 P_Coord7 P_Coord8 P_Coord9.
Import ListNotations.
Open Scope R_scope.

(** The default dipole of the configuration: 'params.dipole'. *)
Definition default_dipole : R * R * R := (-29442, -1501, 4797.1).

Lemma default_axis : exists axis, dipole_to_vec default_dipole DNone = Ok axis /\ unit_vec axis /\
  1 / 4 <= vz axis ^ 2 /\ ~ parallel zhat axis.
Proof.
  eexists. split; [reflexivity|].
  assert (N : (-29442, -1501, 4797.1) <> (0, 0, 0)) by (intros E; injection E; intros; lra).
  destruct (coeffs_unit _ _ _ N) as [U (k & Hk & E)].
  split; [exact U|].
  set (u := unit_of_coeffs (-29442) (-1501) 4797.1) in *.
  pose proof (f_equal vx E) as E1. pose proof (f_equal vy E) as E2. pose proof (f_equal vz E) as E3.
  cbn [vx vy vz vscale] in E1, E2, E3.
  assert (K2 : k * k = 29442 * 29442 + 1501 * 1501 + 4797.1 * 4797.1).
  { unfold unit_vec, vdot in U.
    transitivity (k * k * (vx u * vx u + vy u * vy u + vz u * vz u)); [rewrite U; ring|].
    transitivity ((- k * vx u) * (- k * vx u) + (- k * vy u) * (- k * vy u) + (- k * vz u) * (- k * vz u)); [ring|].
    rewrite <- E1, <- E2, <- E3. lra. }
  split.
  - apply (Rmult_le_reg_l (k * k)); [apply Rmult_lt_0_compat; assumption|].
    replace (k * k * vz u ^ 2) with ((- k * vz u) * (- k * vz u)) by ring. rewrite <- E3, K2. clear. lra.
  - intros P. unfold parallel in P. apply (f_equal vx) in P. unfold vprod, zhat, vzero in P. cbn [vx vy vz] in P.
    assert (H : vy u = 0) by lra. rewrite H in E2. lra.
Qed.

Lemma wgs84_case : 0 < 6356.752 /\ 6356.752 <= 6378.137 /\ 6378.137 ^ 2 < 2 * 6356.752 ^ 2.
Proof. repeat split; lra. Qed.

Lemma zenith_success pts out : zenith_angle pts = Ok out ->
  sun_position (map (fun p => fst (fst p)) pts) = Ok (map sun_point (map (fun p => fst (fst p)) pts)) /\
  out = map (fun sp => let '((ts, ps), ((_, th), ph)) := sp in zenith_point ts ps th ph)
            (combine (map sun_point (map (fun p => fst (fst p)) pts)) pts).
Proof.
  unfold zenith_angle, sun_position. destruct (forallb _ _); cbn [bind]; [|discriminate].
  intros H; injection H; intros <-. auto.
Qed.

Lemma zenith_list : forall pts out, zenith_angle pts = Ok out ->
  exists suns, sun_position (map (fun p => fst (fst p)) pts) = Ok suns /\ List.length suns = List.length pts /\
  List.length out = List.length pts /\
  forall i t th ph ts ps z, nth_error pts i = Some (t, th, ph) -> nth_error suns i = Some (ts, ps) ->
    nth_error out i = Some z ->
    0 <= z <= 180 /\ cos (deg z) = vdot (direction th ph) (direction ts ps) /\
    (z = 0 <-> direction th ph = direction ts ps).
Proof.
  intros pts out H. apply zenith_success in H. destruct H as [Hs ->].
  eexists. split; [exact Hs|]. split; [rewrite !map_length; reflexivity|].
  split; [rewrite map_length, combine_length, !map_length; lia|].
  intros i t th ph ts ps z H1 H2 H3. rewrite nth_error_map in H3.
  assert (E : nth_error (combine (map sun_point (map (fun p => fst (fst p)) pts)) pts) i = Some ((ts, ps), (t, th, ph)))
    by (apply nth_error_combine; auto).
  rewrite E in H3. cbn in H3. injection H3 as <-.
  split; [apply zenith_range|]. split; [apply zenith_cos_spec|].
  split; [apply zenith_only_subsolar|]. intros D.
  apply cos_deg_inj; [apply zenith_range | lra |]. rewrite zenith_cos_spec, D, deg_0, cos_0. apply direction_unit.
Qed.

Lemma zenith_antipode_api : forall t th ph z z',
  zenith_angle [(t, th, ph)] = Ok [z] -> zenith_angle [(t, 180 - th, ph + 180)] = Ok [z'] -> z + z' = 180.
Proof.
  intros t th ph z z' H H'. apply zenith_success in H. apply zenith_success in H'.
  destruct H as [_ H], H' as [_ H']. cbn in H, H'. destruct (sun_point t) as [ts ps].
  injection H; injection H'; intros -> ->. rewrite zenith_antipode. ring.
Qed.

Lemma zenith_case : exists z, zenith_angle [(0, 45, 10); (7305, 120, -60)] = Ok z /\ List.length z = 2%nat.
Proof.
  unfold zenith_angle. rewrite sun_ok_iff.
  - eexists. split; [reflexivity|]. rewrite map_length. reflexivity.
  - cbn. intros t [<-|[<-|[]]]; lra.
Qed.

Lemma use_frames : forall pts us, basevectors_use pts = Ok us ->
  us = map (fun p => (direction (fst p) (snd p), south (fst p) (snd p), east (snd p))) pts /\
  Forall (fun u => let '(e1, e2, e3) := u in right_handed_orthonormal e1 e2 e3) us.
Proof.
  intros pts us H. apply use_success in H. split; [exact H|]. subst us.
  apply Forall_forall. intros u Hu. apply in_map_iff in Hu. destruct Hu as (p & <- & _). apply use_rho.
Qed.

Lemma use_exactly : forall pts, pts <> [] -> (forall p, In p pts -> 0 <= fst p <= 180) ->
  (basevectors_use pts = Err ValueError <-> exists p, In p pts /\ (fst p = 0 \/ fst p = 180)) /\
  ((forall p, In p pts -> fst p <> 0 /\ fst p <> 180) -> exists us, basevectors_use pts = Ok us).
Proof.
  intros pts Hn Hp.
  assert (T : (forall p, In p pts -> fst p <> 0 /\ fst p <> 180) -> exists us, basevectors_use pts = Ok us).
  { intros H. apply use_total; [exact Hn|]. intros p Hi. pose proof (H p Hi). pose proof (Hp p Hi). lra. }
  split; [|exact T]. split.
  - intros E.
    destruct (Exists_dec (fun p => fst p = 0 \/ fst p = 180) pts) as [X|X].
    + intros p. destruct (Req_EM_T (fst p) 0); [left; auto|]. destruct (Req_EM_T (fst p) 180); [left; auto | right; tauto].
    + apply Exists_exists in X. exact X.
    + exfalso. destruct T as [us Eu]; [|congruence].
      intros p Hi. split; intros Z; apply X; apply Exists_exists; exists p; auto.
  - intros H. apply use_raises; [exact Hp | right; exact H].
Qed.

Lemma geo_to_base_both : forall e1 e2 e3 t p, right_handed_orthonormal e1 e2 e3 ->
  (let '(t', p') := geo_to_base t p (e1, e2, e3) false in
   direction t' p' = resolve e1 e2 e3 (direction t p) /\ 0 <= t' <= 180 /\ -180 < p' <= 180) /\
  (let '(t', p') := geo_to_base t p (e1, e2, e3) true in
   direction t p = resolve e1 e2 e3 (direction t' p') /\ 0 <= t' <= 180 /\ -180 < p' <= 180).
Proof.
  intros e1 e2 e3 t p H. split; [apply geo_to_base_fwd; exact H|].
  pose proof (geo_to_base_inv t p e1 e2 e3 H) as A.
  destruct (geo_to_base t p (e1, e2, e3) true). destruct A as (D & A & B).
  split; [rewrite D, resolve_compose by exact H; reflexivity | auto].
Qed.

Lemma transform_case : exists axis, dipole_to_vec default_dipole DNone = Ok axis /\ unit_vec axis /\
  suns_for GSM (Some [0; 7305.5]) 2 (map sun_point [0; 7305.5]) /\
  (forall s, In s (map sun_point [0; 7305.5]) -> nondegenerate GSM axis (direction (fst s) (snd s))) /\
  suns_for MAG None 2 [(0, 0); (0, 0)] /\ nondegenerate MAG axis (direction 0 0).
Proof.
  destruct default_axis as (axis & E & U & Z & N). exists axis. split; [exact E|]. split; [exact U|].
  split; [|split; [|split]].
  - split; [reflexivity|]. exists [0; 7305.5]. split; [reflexivity|]. apply sun_ok_iff.
    cbn. intros t [<-|[<-|[]]]; lra.
  - cbn [nondegenerate]. intros s Hs. apply in_map_iff in Hs. destruct Hs as (t & <- & Ht).
    apply sun_not_parallel; auto. cbn in Ht. destruct Ht as [<-|[<-|[]]]; lra.
  - split; reflexivity.
  - exact N.
Qed.

Lemma gg_to_geo_geodetic : forall a b h beta, 0 < a -> 0 < b -> 0 < beta < 180 ->
  0 < h * sqrt (a ^ 2 * cos (deg (90 - beta)) ^ 2 + b ^ 2 * sin (deg (90 - beta)) ^ 2) + a ^ 2 ->
  let '(radius, theta) := gg_to_geo a b h beta in
  geodetic_point a b h (90 - beta) (radius * sin (deg theta)) (radius * cos (deg theta)) /\
  0 <= radius /\ 0 < theta < 180.
Proof.
  intros a b h beta Ha Hb Hbe HW. pose proof (gg_to_geo_polar a b h beta Ha Hb Hbe HW) as E.
  destruct (gg_to_geo a b h beta) as [R t]. destruct E as (E1 & E2 & E3 & E4).
  rewrite E1, E2. split; [apply gg_is_geodetic; assumption | auto].
Qed.

Lemma geodetic_unique : forall a b h alpha rho z rho' z', 0 < a -> 0 < b ->
  geodetic_point a b h alpha rho z -> geodetic_point a b h alpha rho' z' -> rho = rho' /\ z = z'.
Proof.
  intros a b h al rho z rho' z' Ha Hb H H'.
  destruct (geodetic_closed a b h al rho z Ha Hb H) as [-> ->].
  destruct (geodetic_closed a b h al rho' z' Ha Hb H') as [-> ->]. auto.
Qed.

Lemma gg_vec_meaning : forall a b h beta X Z,
  let '(radius, theta, Br, Bt) := gg_to_geo_vec a b h beta X Z in
  (radius, theta) = gg_to_geo a b h beta /\
  Br * sin (deg theta) + Bt * cos (deg theta) = X * (- sin (deg (90 - beta))) - Z * cos (deg (90 - beta)) /\
  Br * cos (deg theta) - Bt * sin (deg theta) = X * cos (deg (90 - beta)) - Z * sin (deg (90 - beta)) /\
  Br ^ 2 + Bt ^ 2 = X ^ 2 + Z ^ 2.
Proof.
  intros a b h beta X Z. unfold gg_to_geo_vec. destruct (gg_to_geo a b h beta) as [R t].
  pose proof (gg_vectors t beta X Z) as G. destruct (basevectors_gg t beta) as [[g1 g2] g3]. cbv zeta in G.
  destruct G as [G1 G2]. split; [reflexivity|]. split; [exact G1|]. split; [exact G2|].
  set (Br := vx g1 * X + vx g3 * Z) in *. set (Bt := vy g1 * X + vy g3 * Z) in *.
  pose proof (sc1 (deg t)) as S1. pose proof (sc1 (deg (90 - beta))) as S2.
  transitivity ((Br * sin (deg t) + Bt * cos (deg t)) ^ 2 + (Br * cos (deg t) - Bt * sin (deg t)) ^ 2).
  - transitivity ((Br ^ 2 + Bt ^ 2) * (sin (deg t) * sin (deg t) + cos (deg t) * cos (deg t))); [rewrite S1; ring | ring].
  - rewrite G1, G2.
    transitivity ((X ^ 2 + Z ^ 2) * (sin (deg (90 - beta)) * sin (deg (90 - beta)) + cos (deg (90 - beta)) * cos (deg (90 - beta)))); [ring | rewrite S2; ring].
Qed.

Lemma gg_case : 0 < 6378.137 /\ 0 < 6356.752 /\ 0 < 40 < 180 /\
  0 < 450 * sqrt (6378.137 ^ 2 * cos (deg (90 - 40)) ^ 2 + 6356.752 ^ 2 * sin (deg (90 - 40)) ^ 2) + 6378.137 ^ 2.
Proof. repeat split; try lra. match goal with |- context[sqrt ?x] => pose proof (sqrt_pos x) end. lra. Qed.

Lemma geo_gg_above : forall a b h beta,
  0 < b -> b <= a -> a ^ 2 < 2 * b ^ 2 -> 0 <= h -> 0 < beta < 180 ->
  let '(radius, theta) := gg_to_geo a b h beta in geo_to_gg a b radius theta = (h, beta).
Proof.
  intros a b h beta Hb Hab Hf Hh Hbe.
  destruct (above_ok a b h (cos (deg (90 - beta))) (sin (deg (90 - beta))) Hb Hab Hf Hh (sc1 _)) as [A B].
  exact (geo_gg_inverse a b h beta Hb Hab Hbe A B).
Qed.

Lemma geo_to_gg_full : forall a b radius theta,
  0 < b -> b <= a -> 0 < radius -> 0 < theta < 180 ->
  let r := radius * sin (deg theta) in let z := radius * cos (deg theta) in
  a ^ 2 * r ^ 2 + b ^ 2 * z ^ 2 > (a ^ 2 - b ^ 2) ^ 2 ->
  let '(h, beta) := geo_to_gg a b radius theta in
  0 < beta < 180 /\ geodetic_point a b h (90 - beta) r z /\ gg_to_geo a b h beta = (radius, theta).
Proof.
  intros a b R t Hb Hab HR Ht r z HG.
  pose proof (geo_to_gg_geodetic a b R t Hb Hab HR Ht HG) as A.
  pose proof (gg_geo_inverse a b R t Hb Hab HR Ht HG) as B.
  destruct (geo_to_gg a b R t) as [h beta]. destruct A as (A1 & A2 & _). auto.
Qed.

Lemma gg_vec_round : forall a b h beta X Z,
  0 < b -> b <= a -> a ^ 2 < 2 * b ^ 2 -> 0 <= h -> 0 < beta < 180 ->
  let '(radius, theta, Br, Bt) := gg_to_geo_vec a b h beta X Z in
  geo_to_gg_vec a b radius theta Br Bt = (h, beta, X, Z).
Proof.
  intros a b h beta X Z Hb Hab Hf Hh Hbe. pose proof (geo_gg_above a b h beta Hb Hab Hf Hh Hbe) as E.
  unfold gg_to_geo_vec. destruct (gg_to_geo a b h beta) as [R t].
  pose proof (gg_vectors_inv' t beta X Z) as G.
  destruct (basevectors_gg t beta) as [[g1 g2] g3] eqn:Eg. cbv zeta in G.
  unfold geo_to_gg_vec. rewrite E, Eg. injection G; intros G2 G1. rewrite G1, G2. reflexivity.
Qed.

Lemma sun_accepts : forall times,
  (sun_position times = Ok (map sun_point times) <-> forall t, In t times -> t < 36159.75) /\
  (sun_position times = Err AssertionError <-> exists t, In t times /\ 36159.75 <= t).
Proof.
  intros times. split; split.
  - unfold sun_position. destruct (forallb sun_check times) eqn:E; [|discriminate].
    intros _ t Hi. apply sun_check_spec. exact (proj1 (forallb_forall _ _) E t Hi).
  - apply sun_ok_iff.
  - intros H. destruct (Exists_dec (fun t => 36159.75 <= t) times) as [X|X].
    + intros t. destruct (Rle_dec 36159.75 t); [left | right]; assumption.
    + apply Exists_exists in X. exact X.
    + exfalso. rewrite sun_ok_iff in H; [discriminate|].
      intros t Hi. apply Rnot_le_lt. intros L. apply X. apply Exists_exists. exists t. auto.
  - apply sun_err_iff.
Qed.

Lemma sun_out_ranges : forall times out, sun_position times = Ok out ->
  List.length out = List.length times /\
  Forall (fun s => 0 <= fst s <= 180 /\ -180 < snd s <= 180) out.
Proof.
  intros times out H. unfold sun_position in H. destruct (forallb sun_check times); [|discriminate].
  injection H; intros <-. split; [apply map_length|]. apply Forall_forall. intros s Hs.
  apply in_map_iff in Hs. destruct Hs as (t & <- & _). pose proof (sun_ranges t). lra.
Qed.

Lemma sun_early : forall t, t < -36159 -> exists s, sun_position [t] = Ok [s].
Proof.
  intros t H. exists (sun_point t). apply (sun_ok_iff [t]). cbn. intros u [<-|[]]. lra.
Qed.

Lemma sun_dirs : forall times out, sun_position times = Ok out ->
  (forall t, In t times -> 0 < sun_obliquity t < 90) ->
  map (fun s => direction (fst s) (snd s)) out = map sun_direction times.
Proof.
  intros times out H Ht. unfold sun_position in H. destruct (forallb sun_check times); [|discriminate].
  injection H; intros <-. rewrite map_map. apply map_ext_in. intros t Hi. apply sun_point_direction. apply Ht. exact Hi.
Qed.

Lemma obliq_modern : forall t, -10 ^ 7 <= t <= 10 ^ 5 -> 0 < sun_obliquity t < 90.
Proof. intros t H. pose proof (sun_z_bound t H). lra. Qed.

Lemma igrf_props : forall cfg e,
  igrf_dipole None = igrf_dipole (Some "2015"%string) /\
  igrf_dipole (Some "2015"%string) = dipole_to_vec cfg (DArray (-29442) (-1501) 4797.1) /\
  igrf_dipole (Some "2010"%string) = dipole_to_vec cfg (DTuple [11.32; 289.59]) /\
  (e = "2015"%string \/ e = "2010"%string <-> exists axis, igrf_dipole (Some e) = Ok axis /\ unit_vec axis) /\
  (e <> "2015"%string -> e <> "2010"%string -> igrf_dipole (Some e) = Err ValueError).
Proof.
  intros cfg e. split; [reflexivity|].
  assert (A : igrf_dipole (Some "2015"%string) = dipole_to_vec cfg (DArray (-29442) (-1501) 4797.1)).
  { cbn. replace 4797.1 with (47971 / 10) by lra. reflexivity. }
  assert (B : igrf_dipole (Some "2010"%string) = dipole_to_vec cfg (DTuple [11.32; 289.59])).
  { cbn. replace 11.32 with (1132 / 100) by lra. replace 289.59 with (28959 / 100) by lra. reflexivity. }
  assert (C : e <> "2015"%string -> e <> "2010"%string -> igrf_dipole (Some e) = Err ValueError).
  { intros H1 H2. unfold igrf_dipole. apply String.eqb_neq in H1. apply String.eqb_neq in H2. rewrite H1, H2. reflexivity. }
  split; [exact A|]. split; [exact B|]. split; [|exact C]. split.
  - intros [-> | ->].
    + rewrite A. eexists. split; [reflexivity|].
      apply coeffs_unit. intros E; injection E; intros; lra.
    + rewrite B. eexists. split; [reflexivity|]. rewrite pole_direction. apply direction_unit.
  - intros (axis & E & _).
    destruct (string_dec e "2015"); [auto|]. destruct (string_dec e "2010"); [auto|].
    rewrite C in E by assumption. discriminate.
Qed.
