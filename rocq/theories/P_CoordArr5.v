(** Which calls fail; zenith angles *)
From Coq Require Import Reals List Bool String Arith Lia Lra.
From Verif Require Import M_Prelude M_ND Spec_Coord M_Coord P_ND P_Bcast P_Coord2 P_Coord4 W_Coord P_CoordArr M_CoordArr Spec_CoordArr P_CoordArr2 P_CoordArr3 P_CoordArr4.
Import ListNotations.
Open Scope nat_scope.

Definition ve {A} (r : result A) : Prop := forall e, r = Err e -> e = ValueError.
Lemma ve_bind {A B} (r : result A) (c : A -> result B) : ve r -> (forall a, r = Ok a -> ve (c a)) -> ve (bind r c).
Proof. intros H K e. destruct r as [a|e']; cbn [bind]; [apply (K a eq_refl) | intros E; apply H; congruence]. Qed.
Lemma ve_ok {A} (a : A) : ve (Ok a). Proof. intros e. discriminate. Qed.
Lemma ve_err {A} : ve (@Err A ValueError). Proof. intros e E. congruence. Qed.
Lemma ve_broadcast l : ve (broadcast l). Proof. intros e. apply broadcast_err. Qed.
Lemma ve_op2 {A B C} (h : A -> B -> C) a b : ve (op2 h a b).
Proof. apply ve_bind; [apply ve_broadcast | intros; apply ve_ok]. Qed.
Lemma ve_rop2 {A B C} (h : A -> B -> C) a b : ve a -> ve b -> ve (rop2 h a b).
Proof. intros Ha Hb. apply ve_bind; [exact Ha|]. intros. apply ve_bind; [exact Hb|]. intros. apply ve_op2. Qed.
Lemma ve_stack {A B} (h : A -> A -> A -> B) a b c : ve (stack3 h a b c).
Proof. unfold stack3. destruct (_ && _); [apply ve_ok | apply ve_err]. Qed.
Lemma ve_lin3 a x b y c z : ve x -> ve y -> ve z -> ve (lin3 a x b y c z).
Proof. intros. unfold lin3. repeat apply ve_rop2; first [apply ve_ok | assumption]. Qed.
Lemma ve_geo theta phi b inv : ve (geo_to_base_nd theta phi b inv).
Proof.
  destruct b as [[b1 b2] b3]. unfold geo_to_base_nd.
  apply ve_bind; [|intros; apply ve_bind; [|intros; apply ve_ok]].
  - apply ve_rop2; [apply ve_rop2|]; destruct inv; apply ve_lin3; apply ve_op2 || apply ve_ok.
  - apply ve_rop2; destruct inv; apply ve_lin3; apply ve_op2 || apply ve_ok.
Qed.
Lemma ve_use theta phi : ve (basevectors_use_nd theta phi).
Proof.
  unfold basevectors_use_nd. apply ve_bind.
  - intros e. destruct (map np_radians (elems theta)); cbn; congruence.
  - intros mn _. destruct (Req_EM_T mn 0); [apply ve_err|]. apply ve_bind.
    + intros e. destruct (map np_radians (elems theta)); cbn; congruence.
    + intros mx _. destruct (Req_EM_T mx PI); [apply ve_err | apply ve_op2].
Qed.
Lemma ve_matrix theta phi b inv : ve (matrix_geo_to_base_nd theta phi b inv).
Proof.
  unfold matrix_geo_to_base_nd. apply ve_bind; [apply ve_geo|]. intros other _. apply ve_bind; [apply ve_use|]. intros u _. destruct b as [[b1 b2] b3].
  apply ve_bind; [apply ve_stack|]. intros rows _. apply ve_bind; [apply ve_op2|]. intros m _. apply ve_bind; [apply ve_use|]. intros u2 _.
  apply ve_bind; [apply ve_op2|]. intros m2 _. destruct inv; apply ve_ok.
Qed.
Lemma ve_dipole cfg d : ve (dipole_to_vec_nd cfg d).
Proof.
  destruct d; cbn; try apply ve_ok.
  - apply ve_bind; [apply ve_op2|]. intros. apply ve_bind; [apply ve_op2|]. intros. apply ve_stack.
  - apply ve_bind; [apply ve_stack|]. intros. apply ve_ok.
Qed.
Lemma ve_assign {A} s (a : nd A) : ve (assign s a).
Proof. unfold assign. destruct (bshape _ _); [destruct (same_shape _ _)|]; apply ve_ok || apply ve_err. Qed.
Lemma ve_ref k r cfg time d : In r (spellings k) -> times_accepted k time -> ve (reference_bases_nd cfg time (Some r) d).
Proof.
  intros Hr Ht. pose proof (lower_spelling _ _ Hr) as Hl. unfold reference_bases_nd. cbn [str_opt]. rewrite Hl.
  destruct k; cbn [times_accepted String.eqb Ascii.eqb Bool.eqb andb] in *.
  - destruct time as [t|]; [|contradiction]. unfold basevectors_gsm_nd. apply ve_bind; [apply ve_dipole|]. intros. rewrite (sun_nd _ Ht). cbn [bind].
    apply ve_bind; [apply ve_op2|]. intros. apply ve_bind; [apply ve_op2|]. intros. apply ve_ok.
  - destruct time as [t|]; [|contradiction]. unfold basevectors_sm_nd. apply ve_bind; [apply ve_dipole|]. intros. rewrite (sun_nd _ Ht). cbn [bind].
    apply ve_bind; [apply ve_assign|]. intros. apply ve_bind; [apply ve_op2|]. intros. apply ve_bind; [apply ve_op2|]. intros. apply ve_ok.
  - unfold basevectors_mag_nd. apply ve_bind; [apply ve_dipole|]. intros. apply ve_bind; [apply ve_op2|]. intros. apply ve_bind; [apply ve_op2|]. intros. apply ve_ok.
Qed.
Lemma ve_points k r cfg theta phi time inverse d : In r (spellings k) -> times_accepted k time -> ve (transform_points_nd cfg theta phi time (Some r) inverse d).
Proof. intros. apply ve_bind; [eapply ve_ref; eassumption|]. intros. apply ve_geo. Qed.
Lemma ve_vectors k r cfg theta phi bt bp time inverse d : In r (spellings k) -> times_accepted k time -> ve (transform_vectors_nd cfg theta phi bt bp time (Some r) inverse d).
Proof.
  intros. apply ve_bind; [eapply ve_ref; eassumption|]. intros b _. apply ve_bind; [apply ve_matrix|]. intros [[t p] m] _.
  apply ve_bind; [apply ve_rop2; apply ve_op2|]. intros. apply ve_bind; [apply ve_rop2; apply ve_op2|]. intros. apply ve_ok.
Qed.
Lemma bind_ok {A B} (r : result A) (c : A -> result B) b : bind r c = Ok b -> exists a, r = Ok a /\ c a = Ok b.
Proof. destruct r as [a|]; cbn; [eauto | discriminate]. Qed.

(** The colatitudes of transform_points *)
Lemma geo_theta_range theta phi b inv t p i : geo_to_base_nd theta phi b inv = Ok (t, p) -> (0 <= at_ t i <= 180)%R.
Proof.
  destruct b as [[b1 b2] b3]. unfold geo_to_base_nd. intros E. apply bind_ok in E. destruct E as (t' & Et & E). apply bind_ok in E. destruct E as (p' & _ & E).
  injection E as -> _. apply bind_ok in Et. destruct Et as (h & _ & Et). apply bind_ok in Et. destruct Et as (z & _ & Et). apply bind_ok in Et.
  destruct Et as (s & _ & Et). injection Et as <-. cbn [at_].
  rewrite <- P_Coord.degrees_0 at 1. rewrite <- P_Coord.degrees_PI. pose proof (P_Coord.atan2_range (sqrt (bread h i)) (bread z i)) as [_ A].
  pose proof (P_Coord.atan2_nonneg (sqrt (bread h i)) (bread z i) (sqrt_pos _)) as B. split; apply P_Coord.degrees_le; assumption.
Qed.
(** Success of transform_vectors *)
Lemma vectors_ok_inv cfg theta phi bt bp time r inverse d out : transform_vectors_nd cfg theta phi bt bp time (Some r) inverse d = Ok out ->
  exists b1 b2 b3 t p u1 u2 rows, reference_bases_nd cfg time (Some r) d = Ok (b1, b2, b3) /\
    transform_points_nd cfg theta phi time (Some r) inverse d = Ok (t, p) /\
    basevectors_use_nd theta phi = Ok u1 /\ basevectors_use_nd t p = Ok u2 /\ stack3 (fun u v w => (u, v, w)) b1 b2 b3 = Ok rows.
Proof.
  intros E. unfold transform_vectors_nd in E. apply bind_ok in E. destruct E as ([[b1 b2] b3] & Eb & E). apply bind_ok in E. destruct E as (tpr & E & _).
  unfold matrix_geo_to_base_nd in E. apply bind_ok in E. destruct E as ([t p] & Eg & E). apply bind_ok in E. destruct E as (u1 & E1 & E).
  apply bind_ok in E. destruct E as (rows & Er & E). apply bind_ok in E. destruct E as (m & _ & E). apply bind_ok in E. destruct E as (u2 & E2 & _).
  assert (Ep : transform_points_nd cfg theta phi time (Some r) inverse d = Ok (t, p)) by (unfold transform_points_nd; rewrite Eb; exact Eg).
  destruct (match inverse with Some i => i | None => false end); cbn [fst snd] in *; [exists b1, b2, b3, t, p, u2, u1, rows | exists b1, b2, b3, t, p, u1, u2, rows]; auto 6.
Qed.
Lemma err_of_not_ok {A} (r : result A) : ve r -> (forall a, r = Ok a -> False) -> r = Err ValueError.
Proof. intros V H. destruct r as [a|e]; [exfalso; exact (H a eq_refl) | rewrite (V e eq_refl); reflexivity]. Qed.

Lemma one_pole_rejects_all : forall k r cfg dip time theta phi B_theta B_phi inverse t p,
  In r (spellings k) -> times_accepted k time ->
  transform_points_nd cfg theta phi time (Some r) inverse dip = Ok (t, p) ->
  least 0 (elems theta) \/ greatest 180 (elems theta) \/ (exists x, In x (elems t) /\ at_pole x) ->
  transform_vectors_nd cfg theta phi B_theta B_phi time (Some r) inverse dip = Err ValueError.
Proof.
  intros k r cfg dip time theta phi B_theta B_phi inverse t p Hr Ht E Hp. apply err_of_not_ok; [eapply ve_vectors; eassumption|].
  intros out Eo. destruct (vectors_ok_inv _ _ _ _ _ _ _ _ _ _ Eo) as (b1 & b2 & b3 & t' & p' & u1 & u2 & rows & Eb & Ep & E1 & E2 & _).
  rewrite E in Ep. injection Ep as <- <-.
  assert (T : forall y, In y (elems t) -> (0 <= y <= 180)%R).
  { intros y Hy. apply elems_at in Hy. destruct Hy as (i & _ & ->).
    unfold transform_points_nd in E. rewrite Eb in E. cbn [bind] in E. exact (geo_theta_range _ _ _ _ _ _ _ E). }
  destruct Hp as [Hp|[Hp|(x & Hx & Hp)]].
  - rewrite use_nd_pole in E1; [discriminate | left; exact Hp].
  - rewrite use_nd_pole in E1; [discriminate | right; exact Hp].
  - rewrite use_nd_pole in E2; [discriminate|]. destruct Hp as [-> | ->]; [left | right]; (split; [exact Hx|]; intros y Hy; apply T, Hy).
Qed.
(** the colatitudes of the other system *)
Lemma t_poles k r cfg dip ds time theta phi inverse t p : In r (spellings k) -> dipole_shape dip ds -> times_accepted k time ->
  transform_points_nd cfg theta phi time (Some r) inverse dip = Ok (t, p) -> (forall x, In x (elems t) -> ~ at_pole x) -> poles_unnoticed (elems t).
Proof.
  intros _ _ _ _ H. split; intros [Hx _]; [apply (H _ Hx); left | apply (H _ Hx); right]; reflexivity.
Qed.
Lemma points_fail : forall k r cfg dip time theta phi B_theta B_phi inverse, In r (spellings k) -> times_accepted k time ->
  transform_points_nd cfg theta phi time (Some r) inverse dip = Err ValueError ->
  transform_vectors_nd cfg theta phi B_theta B_phi time (Some r) inverse dip = Err ValueError.
Proof.
  intros k r cfg dip time theta phi B_theta B_phi inverse Hr Ht E. apply err_of_not_ok; [eapply ve_vectors; eassumption|].
  intros out Eo. destruct (vectors_ok_inv _ _ _ _ _ _ _ _ _ _ Eo) as (b1 & b2 & b3 & t' & p' & u1 & u2 & rows & Eb & Ep & _). congruence.
Qed.
Lemma empty_fails : forall k r cfg dip time theta phi B_theta B_phi inverse, In r (spellings k) -> times_accepted k time ->
  elems theta = [] ->
  transform_vectors_nd cfg theta phi B_theta B_phi time (Some r) inverse dip = Err ValueError.
Proof.
  intros k r cfg dip time theta phi B_theta B_phi inverse Hr Ht E. apply err_of_not_ok; [eapply ve_vectors; eassumption|].
  intros out Eo. destruct (vectors_ok_inv _ _ _ _ _ _ _ _ _ _ Eo) as (b1 & b2 & b3 & t' & p' & u1 & u2 & rows & _ & _ & E1 & _).
  unfold basevectors_use_nd in E1. rewrite E in E1. discriminate.
Qed.
(** Dipoles that do not fit to the times *)
Lemma gsm_more_dipoles : forall r cfg dip ds time theta phi B_theta B_phi inverse,
  In r (spellings GSM) -> dipole_shape dip ds -> times_accepted GSM (Some time) -> broadcast [sh time; ds] <> Ok (sh time) ->
  transform_vectors_nd cfg theta phi B_theta B_phi (Some time) (Some r) inverse dip = Err ValueError.
Proof.
  intros r cfg dip ds time theta phi B_theta B_phi inverse Hr Hd Ht N. apply err_of_not_ok; [eapply ve_vectors; eassumption|].
  intros out Eo. destruct (vectors_ok_inv _ _ _ _ _ _ _ _ _ _ Eo) as (b1 & b2 & b3 & t' & p' & u1 & u2 & rows & Eb & _ & _ & _ & Es).
  unfold reference_bases_nd in Eb. cbn [str_opt] in Eb. rewrite (lower_spelling _ _ Hr) in Eb. cbn [String.eqb Ascii.eqb Bool.eqb] in Eb.
  destruct (dipole_spec cfg dip ds Hd) as (v & Ev & Sv). unfold basevectors_gsm_nd in Eb. rewrite Ev in Eb. cbn [bind] in Eb. rewrite (sun_nd _ Ht) in Eb. cbn [bind] in Eb.
  apply bind_ok in Eb. destruct Eb as (g2 & E2 & Eb). apply bind_ok in Eb. destruct Eb as (g3 & E3 & Eb). injection Eb as <- <- <-.
  unfold stack3 in Es. destruct (same_shape (sh (map1 unit g2)) (sh (map1 sun_vec (map1 sun_point time)))) eqn:Q; [|discriminate]. apply same_shape_eq in Q. cbn in Q.
  assert (Ev' : sh v = ds) by (pose proof (spec_bfits _ _ _ Sv) as X; rewrite broadcast_1 in X; congruence).
  unfold op2 in E2. cbn [sh map1] in E2. rewrite Ev' in E2. apply bind_ok in E2. destruct E2 as (u & Eu & E2). injection E2 as <-. cbn in Q. subst u.
  apply N. rewrite <- Eu. apply broadcast_sets. intros x; cbn; tauto.
Qed.
Lemma sm_more_dipoles : forall r cfg dip ds time theta phi B_theta B_phi inverse,
  In r (spellings SM) -> dipole_shape dip ds -> times_accepted SM (Some time) -> broadcast [sh time; ds] <> Ok (sh time) -> hd 0 ds <> 1 ->
  transform_points_nd cfg theta phi (Some time) (Some r) inverse dip = Err ValueError /\
  transform_vectors_nd cfg theta phi B_theta B_phi (Some time) (Some r) inverse dip = Err ValueError.
Proof.
  intros r cfg dip ds time theta phi B_theta B_phi inverse Hr Hd Ht N H1.
  assert (E : transform_points_nd cfg theta phi (Some time) (Some r) inverse dip = Err ValueError); [|split; [exact E | apply (points_fail SM); assumption]].
  unfold transform_points_nd, reference_bases_nd. cbn [str_opt]. rewrite (lower_spelling _ _ Hr). cbn [String.eqb Ascii.eqb Bool.eqb].
  destruct (dipole_spec cfg dip ds Hd) as (v & Ev & Sv). unfold basevectors_sm_nd. rewrite Ev. cbn [bind]. rewrite (sun_nd _ Ht). cbn [bind].
  assert (Ev' : sh v = ds) by (pose proof (spec_bfits _ _ _ Sv) as X; rewrite broadcast_1 in X; congruence).
  unfold assign. rewrite Ev'. cbn [sh map1]. assert (Est : strip (List.length (sh time)) ds = ds).
  { destruct ds as [|d ds']; [reflexivity|]. cbn in H1 |- *. destruct (Nat.eqb_spec d 1); [contradiction|]. rewrite andb_false_r. reflexivity. }
  rewrite Est. rewrite broadcast_2 in N. destruct (bshape (sh time) ds) as [u|]; [|reflexivity].
  unfold same_shape. destruct (list_eq_dec Nat.eq_dec u (sh time)) as [->|]; [contradiction N; reflexivity | reflexivity].
Qed.
(** Unusable dipole arguments *)
Lemma bad_dipole : forall k r cfg dip time theta phi B_theta B_phi inverse,
  In r (spellings k) -> times_accepted k time -> (forall ds, ~ dipole_shape dip ds) ->
  transform_points_nd cfg theta phi time (Some r) inverse dip = Err ValueError /\
  transform_vectors_nd cfg theta phi B_theta B_phi time (Some r) inverse dip = Err ValueError.
Proof.
  intros k r cfg dip time theta phi B_theta B_phi inverse Hr Ht N.
  assert (Ed : dipole_to_vec_nd cfg dip = Err ValueError).
  { apply err_of_not_ok; [apply ve_dipole|]. intros v Ev. destruct dip as [|a|t p|a b c].
    - apply (N []). reflexivity.
    - apply (N (sh a)). reflexivity.
    - cbn [dipole_to_vec_nd] in Ev. apply bind_ok in Ev. destruct Ev as (x & Ex & Ev). apply bind_ok in Ev. destruct Ev as (y & Ey & Ev).
      unfold stack3 in Ev. destruct (same_shape (sh y) (sh x)); [|discriminate]. cbn [andb] in Ev.
      destruct (same_shape (sh (map1 (fun t => cos (np_radians t)) t)) (sh x)) eqn:Q; [|discriminate]. apply same_shape_eq in Q. cbn in Q.
      unfold op2 in Ex. apply bind_ok in Ex. destruct Ex as (u & Eu & Ex). injection Ex as <-. cbn in Q. subst u. apply (N (sh t)). split; [reflexivity | exact Eu].
    - cbn [dipole_to_vec_nd] in Ev. apply bind_ok in Ev. destruct Ev as (x & Ex & Ev).
      unfold stack3 in Ex. destruct (same_shape (sh c) (sh b)) eqn:Q1; [|discriminate]. destruct (same_shape (sh a) (sh b)) eqn:Q2; [|discriminate].
      apply same_shape_eq in Q1. apply same_shape_eq in Q2. apply (N (sh a)). cbn. rewrite Q1, Q2. auto. }
  assert (E : transform_points_nd cfg theta phi time (Some r) inverse dip = Err ValueError); [|split; [exact E | apply (points_fail k); assumption]].
  unfold transform_points_nd, reference_bases_nd. cbn [str_opt]. rewrite (lower_spelling _ _ Hr).
  destruct k; cbn [String.eqb Ascii.eqb Bool.eqb times_accepted] in *.
  - destruct time as [tm|]; [|contradiction]. unfold basevectors_gsm_nd. rewrite Ed. reflexivity.
  - destruct time as [tm|]; [|contradiction]. unfold basevectors_sm_nd. rewrite Ed. reflexivity.
  - unfold basevectors_mag_nd. rewrite Ed. reflexivity.
Qed.

(** zenith_angle *)
Lemma zenith_elementwise : forall time theta phi,
  ((exists x, In x (elems time) /\ (36159.75 <= x)%R) -> zenith_angle_nd time theta phi = Err AssertionError) /\
  ((forall x, In x (elems time) -> (x < 36159.75)%R) ->
   match broadcast [sh time; sh theta; sh phi] with
   | Ok s => exists z, zenith_angle_nd time theta phi = Ok z /\ sh z = s /\
       forall i, valid s i -> zenith_angle [((bread time i, bread theta i), bread phi i)] = Ok [at_ z i]
   | Err _ => zenith_angle_nd time theta phi = Err ValueError
   end).
Proof.
  intros time theta phi. split.
  - intros H. apply (proj2 (sun_accepts (elems time))) in H. unfold zenith_angle_nd, sun_position_nd. unfold sun_position in H.
    destruct (forallb sun_check (elems time)); [discriminate | reflexivity].
  - intros H. unfold zenith_angle_nd. rewrite (sun_nd _ H). cbn [bind].
    set (sun := map1 sun_point time). set (colat := map1 (fun s => np_radians (fst s)) sun). set (azim := map1 (fun s => np_radians (snd s)) sun).
    pose proof (spec_map' (fun t => np_radians (fst (sun_point t))) _ _ _ (spec_in time)) as Sc.
    pose proof (spec_map' (fun t => np_radians (snd (sun_point t))) _ _ _ (spec_in time)) as Sa.
    pose proof (spec_map' np_radians _ _ _ (spec_in theta)) as St. pose proof (spec_map' np_radians _ _ _ (spec_in phi)) as Sp.
    pose proof (spec_rop2' (fun t c => cos t * cos c)%R _ _ _ _ _ _ St Sc) as A.
    pose proof (spec_rop2 (fun u d => u * cos d)%R _ _ _ _ _ _ (spec_rop2' (fun t c => sin t * sin c)%R _ _ _ _ _ _ St Sc) (spec_rop2' (fun z p => z - p)%R _ _ _ _ _ _ Sa Sp)) as B.
    pose proof (spec_map (fun c => np_degrees (acos c)) _ _ _ (spec_rop2 Rplus _ _ _ _ _ _ A B)) as C.
    change (map1 (fun t => np_radians (fst (sun_point t))) time) with colat in C.
    change (map1 (fun t => np_radians (snd (sun_point t))) time) with azim in C.
    eapply spec_perm with (l' := [sh time; sh theta; sh phi]) in C; [|intros x; rewrite ?in_app_iff; cbn [In]; tauto].
    destruct C as [_ C]. destruct (broadcast [sh time; sh theta; sh phi]) as [s|e] eqn:E; [|exact C].
    destruct C as (z & Ez & Es & Hz). exists z. split; [exact Ez|]. split; [exact Es|]. intros i V. rewrite (Hz i V).
    unfold zenith_angle. cbn [map fst snd]. pose proof (broadcast_bfits _ _ E) as F. inversion F as [|? ? F1 _]; subst.
    rewrite (proj2 (proj1 (sun_accepts [bread time i]))); [|intros x [<-|[]]; apply H, (bread_in time (sh z) i); [apply bfits_fits; exact F1 | exact V]].
    cbn [bind map combine]. destruct (sun_point (bread time i)) as [ts ps]. reflexivity.
Qed.
