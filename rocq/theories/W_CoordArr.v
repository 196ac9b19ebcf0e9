(** Witnesses and refutations for the array behaviour of the coordinate transformations *)
From Coq Require Import Reals List Bool String Arith Lia Lra.
From Verif Require Import M_Prelude M_ND Spec_Coord M_Coord P_ND P_Bcast P_Coord P_Coord2 P_Coord3 P_Coord4 P_Coord5 W_Coord P_CoordArr M_CoordArr Spec_CoordArr P_CoordArr2 P_CoordArr3 P_CoordArr4 P_CoordArr5.
Import ListNotations.
Open Scope nat_scope.

Lemma vectors_elementwise : forall k r cfg dip ds time theta phi inverse s t p B_theta B_phi,
  In r (spellings k) -> dipole_shape dip ds -> times_accepted k time -> dipole_within_times k time ds ->
  broadcast (sh theta :: sh phi :: frame_shapes k time ds) = Ok s ->
  transform_points_nd cfg theta phi time (Some r) inverse dip = Ok (t, p) ->
  (exists i, valid s i) -> poles_unnoticed (elems theta) -> (forall x, In x (elems t) -> ~ at_pole x) ->
  match broadcast (sh B_theta :: sh B_phi :: sh theta :: sh phi :: frame_shapes k time ds) with
  | Ok s2 => exists bt bp, transform_vectors_nd cfg theta phi B_theta B_phi time (Some r) inverse dip = Ok (t, p, bt, bp) /\ sh bt = s2 /\ sh bp = s2 /\
      forall i, valid s2 i ->
        let single := transform_vectors cfg [((bread theta i, bread phi i), (bread B_theta i, bread B_phi i))] (time_at time i) (Some r) inverse (dipole_at dip i) in
        (~ at_pole (bread theta i) -> single = Ok [((bread t i, bread p i), (at_ bt i, at_ bp i))]) /\
        (at_pole (bread theta i) -> single = Err ValueError)
  | Err _ => transform_vectors_nd cfg theta phi B_theta B_phi time (Some r) inverse dip = Err ValueError
  end.
Proof.
  intros k r cfg dip ds time theta phi inverse s t p B_theta B_phi Hr Hd Ht Hw Es E Hne H1 H2.
  pose proof (vectors_elementwise_aux k r cfg dip ds time theta phi inverse s t p Hr Hd Ht Hw Es E Hne H1 (t_poles _ _ _ _ _ _ _ _ _ _ _ Hr Hd Ht E H2) B_theta B_phi) as V.
  destruct (locs_spec k r cfg dip ds time theta phi inverse s t p Hr Hd Ht Hw Es E) as (_ & _ & _ & _ & _ & _ & _ & _ & St & _).
  destruct (broadcast (sh B_theta :: _)) as [s2|e] eqn:E2; [|exact V].
  destruct V as (bt & bp & Ev & S1 & S2 & V). exists bt, bp. split; [exact Ev|]. split; [exact S1|]. split; [exact S2|]. intros i Vi. specialize (V i Vi). cbv zeta in *.
  destruct V as [V1 V2].
  assert (Nt : ~ at_pole (bread t i)).
  { apply H2, (bread_in t s2 i); [|exact Vi]. rewrite (spec_shape _ _ _ _ St Es). apply bfits_fits.
    apply (broadcast_least _ _ _ Es). apply Forall_forall. intros u Hu. pose proof (broadcast_bfits _ _ E2) as F. rewrite Forall_forall in F. apply F. right. right. exact Hu. }
  split; [intros N; apply V1; assumption | intros P; apply V2; left; exact P].
Qed.

(** A pole given by one colatitude and several longitudes *)
Lemma pole_tuple : forall k r cfg c lon time theta phi B_theta B_phi inverse,
  In r (spellings k) -> times_accepted k time -> sh lon <> [] ->
  broadcast [[]; sh lon] = Ok (sh lon) /\
  transform_points_nd cfg theta phi time (Some r) inverse (NPole (scalar c) lon) = Err ValueError /\
  transform_vectors_nd cfg theta phi B_theta B_phi time (Some r) inverse (NPole (scalar c) lon) = Err ValueError.
Proof.
  intros k r cfg c lon time theta phi B_theta B_phi inverse Hr Ht N. split.
  - rewrite broadcast_2, bshape_nil. reflexivity.
  - apply (bad_dipole k); [exact Hr | exact Ht|]. intros ds [Hs E]. cbn [sh scalar] in Hs, E. subst ds. rewrite broadcast_2, bshape_nil in E. congruence.
Qed.
(** Coefficients of different shapes *)
Lemma coefficient_tuple : forall k r cfg g11 h11 c time theta phi B_theta B_phi inverse,
  In r (spellings k) -> times_accepted k time -> sh g11 <> [] -> sh h11 = sh g11 ->
  broadcast [[]; sh g11; sh h11] = Ok (sh g11) /\
  transform_points_nd cfg theta phi time (Some r) inverse (NCoeffs (scalar c) g11 h11) = Err ValueError /\
  transform_vectors_nd cfg theta phi B_theta B_phi time (Some r) inverse (NCoeffs (scalar c) g11 h11) = Err ValueError.
Proof.
  intros k r cfg g11 h11 c time theta phi B_theta B_phi inverse Hr Ht N E. split.
  - rewrite E. rewrite (broadcast_sets _ ([[]] ++ [sh g11])) by (intros x; cbn; tauto). rewrite broadcast_app, !broadcast_1. cbn [bind]. rewrite bshape_nil. reflexivity.
  - apply (bad_dipole k); [exact Hr | exact Ht|]. intros ds (Hs & Eg & _). cbn in Hs. congruence.
Qed.

(** One location on the equator, a dipole axis in the equatorial plane *)
Definition w_dip := NPole (scalar 90%R) (scalar 0%R).
Lemma w_axis : unit_of_pole 90 0 = V3 1 0 0.
Proof.
  unfold unit_of_pole. rewrite radians_90, radians_0, sin_PI2, cos_PI2, cos_0, sin_0. f_equal; ring.
Qed.
Lemma w_base : frame_at MAG (0, 0, 0)%R w_dip None [] = (V3 0 0 (-1), V3 0 1 0, V3 1 0 0).
Proof.
  unfold frame_at, w_dip. assert (E : axis_at (0, 0, 0)%R (NPole (scalar 90%R) (scalar 0%R)) [] = V3 1 0 0).
  { exact w_axis. }
  rewrite E. unfold mag_base, np_cross, np_norm, np_divs. cbn [vx vy vz].
  replace (0 * 0 - 1 * 0)%R with 0%R by ring. replace (1 * 1 - 0 * 0)%R with 1%R by ring. replace (0 * 0 - 0 * 1)%R with 0%R by ring.
  replace (0 * 0 + 1 * 1 + 0 * 0)%R with 1%R by ring. rewrite sqrt_1.
  assert (H0 : (0 / 1 = 0)%R) by field. assert (H1 : (1 / 1 = 1)%R) by field. rewrite H0, H1. f_equal. f_equal. apply vec3_eq; cbn; ring.
Qed.
Lemma w_points a b : let theta := vec 0%R [a; b] in let phi := scalar 90%R in
  exists t p, In "mag"%string (spellings MAG) /\ dipole_shape w_dip [] /\ times_accepted MAG None /\ dipole_within_times MAG None [] /\
    broadcast (sh theta :: sh phi :: frame_shapes MAG None []) = Ok [2] /\
    transform_points_nd (0, 0, 0)%R theta phi None (Some "mag"%string) None w_dip = Ok (t, p) /\
    (exists i, valid [2] i) /\ (forall x, In x (elems t) -> (0 < x < 180)%R).
Proof.
  intros theta phi.
  assert (Hr : In "mag"%string (spellings MAG)) by (left; reflexivity).
  assert (Hd : dipole_shape w_dip []) by (split; reflexivity).
  pose proof (points_elementwise MAG "mag"%string (0, 0, 0)%R w_dip [] None theta phi None Hr Hd I I) as P.
  assert (Eb : broadcast (sh theta :: sh phi :: frame_shapes MAG None []) = Ok [2]) by reflexivity. rewrite Eb in P.
  destruct P as (t & p & E & Es & Ep & H). exists t, p. split; [exact Hr|]. split; [exact Hd|]. split; [exact I|]. split; [exact I|]. split; [exact Eb|]. split; [exact E|].
  split; [exists [0]; repeat constructor|].
  intros x Hx. apply elems_at in Hx. destruct Hx as (i & V & ->). rewrite Es in V. specialize (H i V).
  unfold transform_points in H. cbn [List.length] in H.
  rewrite (ref_single MAG "mag"%string (0, 0, 0)%R None w_dip [] [2] i Hr I) in H;
    [|intros u [<-|[]]; apply bfits_fits; reflexivity | exact V].
  assert (Ef : frame_at MAG (0, 0, 0)%R w_dip None i = (V3 0 0 (-1), V3 0 1 0, V3 1 0 0)) by (rewrite <- w_base; reflexivity).
  rewrite Ef in H. cbn [bind combine map fst snd] in H.
  assert (Rho : right_handed_orthonormal (V3 0 0 (-1)) (V3 0 1 0) (V3 1 0 0)).
  { unfold right_handed_orthonormal, unit_vec, vdot, vprod. cbn. repeat split; try lra. f_equal; lra. }
  pose proof (geo_to_base_fwd (bread theta i) (bread phi i) _ _ _ Rho) as G.
  destruct (geo_to_base (bread theta i) (bread phi i) (V3 0 0 (-1), V3 0 1 0, V3 1 0 0) false) as [t' p'] eqn:Eg.
  injection H as -> ->. destruct G as (G & G1 & G2).
  assert (Gz : cos (deg (at_ t i)) = 0%R).
  { apply (f_equal vz) in G. cbn [vz direction resolve] in G. unfold vdot in G. cbn [vx vy vz direction] in G.
    replace (bread phi i) with 90%R in G by (symmetry; apply bread_scalar). unfold deg in G at 3. replace (90 * (PI / 180))%R with (PI / 2)%R in G by field. rewrite cos_PI2 in G.
    rewrite G. ring. }
  assert (N0 : at_ t i <> 0%R) by (intros Q; rewrite Q, deg_0, cos_0 in Gz; lra).
  assert (N1 : at_ t i <> 180%R) by (intros Q; rewrite Q, deg_180, cos_PI in Gz; lra).
  lra.
Qed.
Lemma w_case : let theta := vec 0%R [90%R; 45%R] in let phi := scalar 90%R in
  exists t p, In "mag"%string (spellings MAG) /\ dipole_shape w_dip [] /\ times_accepted MAG None /\ dipole_within_times MAG None [] /\
    broadcast (sh theta :: sh phi :: frame_shapes MAG None []) = Ok [2] /\
    transform_points_nd (0, 0, 0)%R theta phi None (Some "mag"%string) None w_dip = Ok (t, p) /\
    (exists i, valid [2] i) /\ poles_unnoticed (elems theta) /\ (forall x, In x (elems t) -> ~ at_pole x).
Proof.
  intros theta phi. destruct (w_points 90 45) as (t & p & H1 & H2 & H3 & H4 & H5 & H6 & H7 & H8).
  exists t, p. repeat (split; [assumption|]). split.
  - split; intros [Hx _]; change (elems theta) with [90%R; 45%R] in Hx; destruct Hx as [E|[E|[]]]; lra.
  - intros x Hx [E|E]; specialize (H8 x Hx); lra.
Qed.
(** poles between colatitudes outside [0, 180] *)
Lemma within_range : forall l, (forall x, In x l -> (0 <= x <= 180)%R) -> (exists x, In x l /\ at_pole x) -> least 0 l \/ greatest 180 l.
Proof.
  intros l H (x & Hx & [-> | ->]); [left | right]; (split; [exact Hx|]; intros y Hy; apply H, Hy).
Qed.
Lemma unnoticed_pole : exists theta phi t p bt bp,
  transform_vectors_nd (0, 0, 0)%R theta phi (scalar 1%R) (scalar 0%R) None (Some "mag"%string) None w_dip = Ok (t, p, bt, bp) /\
  bread theta [1] = 0%R /\
  forall B_theta B_phi, transform_vectors_nd (0, 0, 0)%R (scalar 0%R) (scalar (bread phi [1])) B_theta B_phi None (Some "mag"%string) None w_dip = Err ValueError.
Proof.
  destruct (w_points (-10) 0) as (t & p & H1 & H2 & H3 & H4 & H5 & H6 & H7 & H8).
  pose proof (vectors_elementwise MAG "mag"%string (0, 0, 0)%R w_dip [] None (vec 0%R [(-10)%R; 0%R]) (scalar 90%R) None [2] t p (scalar 1%R) (scalar 0%R) H1 H2 H3 H4 H5 H6 H7) as V.
  destruct V as (bt & bp & E & _).
  - split; intros [Hx L]; change (elems (vec 0%R [(-10)%R; 0%R])) with [(-10)%R; 0%R] in *; [specialize (L (-10)%R (or_introl eq_refl)); lra|].
    destruct Hx as [E|[E|[]]]; lra.
  - intros x Hx [E|E]; specialize (H8 x Hx); lra.
  - exists (vec 0%R [(-10)%R; 0%R]), (scalar 90%R), t, p, bt, bp. split; [exact E|]. split; [reflexivity|]. intros B_theta B_phi.
    rewrite bread_scalar.
    pose proof (points_elementwise MAG "mag"%string (0, 0, 0)%R w_dip [] None (scalar 0%R) (scalar 90%R) None H1 H2 I I) as P.
    assert (Eb : broadcast (sh (scalar 0%R) :: sh (scalar 90%R) :: frame_shapes MAG None []) = Ok []) by reflexivity. rewrite Eb in P.
    destruct P as (t' & p' & E' & _). eapply one_pole_rejects_all; [exact H1 | exact I | exact E'|].
    left. change (elems (scalar 0%R)) with [0%R]. split; [left; reflexivity | intros y [<-|[]]; lra].
Qed.
