(** Base vectors and points, element by element *)
From Coq Require Import Reals List Bool String Arith Lia Lra.
From Verif Require Import M_Prelude M_ND Spec_Coord M_Coord P_ND P_Bcast P_Coord4 W_Coord P_CoordArr M_CoordArr Spec_CoordArr.
Import ListNotations.
Open Scope nat_scope.

Definition axis_at (cfg : R * R * R) (d : dipole_nd) (i : list nat) : vec3 :=
  match d with
  | NNone => unit3 cfg
  | NArray a => unit3 (bread a i)
  | NPole theta phi => unit_of_pole (bread theta i) (bread phi i)
  | NCoeffs g10 g11 h11 => unit3 (bread g10 i, bread g11 i, bread h11 i)
  end.
Lemma axis_at_ok cfg d i : dipole_to_vec cfg (dipole_at d i) = Ok (axis_at cfg d i).
Proof.
  destruct d as [|a|t p|a b c]; cbn.
  - destruct cfg as [[g h] k]. reflexivity.
  - destruct (bread a i) as [[g h] k]. reflexivity.
  - reflexivity.
  - reflexivity.
Qed.
Lemma same_shape_true s : same_shape s s = true.
Proof. unfold same_shape. destruct (list_eq_dec Nat.eq_dec s s); congruence. Qed.
Lemma same_shape_eq s t : same_shape s t = true -> s = t.
Proof. unfold same_shape. destruct (list_eq_dec Nat.eq_dec s t); congruence. Qed.
Lemma spec_one {A} (s : list nat) (f : list nat -> A) a : over [s] f -> sh a = s -> (forall i, valid s i -> at_ a i = f i) -> spec [s] f (Ok a).
Proof. intros O Es Ha. split; [exact O|]. rewrite broadcast_1. exists a. auto. Qed.
Lemma over_bread {A B} (h : A -> B) (a : nd A) s : bfits (sh a) s -> over [s] (fun i => h (bread a i)).
Proof. intros F t i E. rewrite broadcast_1 in E. injection E as <-. rewrite bread_trans by exact F. reflexivity. Qed.
Lemma broadcast_2_fits s t u : broadcast [s; t] = Ok u -> bfits s u /\ bfits t u.
Proof. intros E. pose proof (broadcast_bfits _ _ E) as F. inversion F as [|? ? F1 F2]; subst. inversion F2; subst. auto. Qed.
Lemma bread_eq {A} (a : nd A) i : valid (sh a) i -> bread a i = at_ a i.
Proof. intros V. unfold bread. rewrite bidx_same by exact V. reflexivity. Qed.

Lemma dipole_spec cfg d ds : dipole_shape d ds -> exists v, dipole_to_vec_nd cfg d = Ok v /\ spec [ds] (axis_at cfg d) (Ok v).
Proof.
  destruct d as [|a|t p|a b c]; cbn [dipole_shape]; intros H.
  - subst ds. eexists. split; [reflexivity|]. apply spec_one; [intros s i _; reflexivity | reflexivity | reflexivity].
  - subst ds. eexists. split; [reflexivity|]. apply spec_one.
    + apply (over_bread unit3), bfits_refl.
    + reflexivity.
    + intros i V. cbn. rewrite bread_eq by exact V. reflexivity.
  - destruct H as [Hs E]. destruct (broadcast_2_fits _ _ _ E) as [Ft Fp]. unfold dipole_to_vec_nd, op2. rewrite E. cbn [bind].
    unfold stack3. cbn [sh at_ map1]. rewrite Hs, !same_shape_true. cbn [andb]. eexists. split; [reflexivity|]. subst ds. apply spec_one.
    + intros s i Es. rewrite broadcast_1 in Es. injection Es as <-. cbn. rewrite !bread_trans by assumption. reflexivity.
    + reflexivity.
    + intros i V. cbn [at_ axis_at]. unfold unit_of_pole. rewrite (bread_eq t i V). reflexivity.
  - destruct H as (Hs & Hb & Hc). unfold dipole_to_vec_nd, stack3. rewrite Hb, Hc, <- Hs, !same_shape_true. cbn [andb bind]. eexists. split; [reflexivity|].
    apply spec_one.
    + intros s i Es. rewrite broadcast_1 in Es. injection Es as <-. cbn. rewrite !bread_trans by (rewrite ?Hb, ?Hc, <- ?Hs; apply bfits_refl). reflexivity.
    + reflexivity.
    + intros i V. cbn. rewrite !bread_eq by (rewrite ?Hb, ?Hc, <- ?Hs; exact V). reflexivity.
Qed.

Lemma sun_nd (time : nd R) : (forall x, In x (elems time) -> (x < 36159.75)%R) -> sun_position_nd time = Ok (map1 sun_point time).
Proof.
  intros H. unfold sun_position_nd. pose proof (proj2 (proj1 (sun_accepts (elems time))) H) as E. unfold sun_position in E.
  destruct (forallb sun_check (elems time)); [reflexivity | discriminate].
Qed.
Lemma sun_spec (time : nd R) : spec [sh time] (fun i => sun_vec (sun_point (bread time i))) (Ok (map1 sun_vec (map1 sun_point time))).
Proof.
  apply spec_one.
  - apply (over_bread (fun t => sun_vec (sun_point t))), bfits_refl.
  - reflexivity.
  - intros i V. cbn. rewrite bread_eq by exact V. reflexivity.
Qed.

Definition frame_at (k : ref_system) cfg (d : dipole_nd) (time : option (nd R)) (i : list nat) : base :=
  let v := axis_at cfg d i in
  let s := match time with Some t => sun_point (bread t i) | None => (0, 0)%R end in
  match k with
  | GSM => gsm_base v s
  | SM => sm_base v s
  | MAG => mag_base v
  end.
Definition frames_spec (k : ref_system) cfg d time ds (b : bases) : Prop :=
  let '(b1, b2, b3) := b in
  exists l1 l2 l3,
    spec l1 (fun i => fst (fst (frame_at k cfg d time i))) (Ok b1) /\
    spec l2 (fun i => snd (fst (frame_at k cfg d time i))) (Ok b2) /\
    spec l3 (fun i => snd (frame_at k cfg d time i)) (Ok b3) /\
    (forall s, In s (l1 ++ l2) <-> In s (frame_shapes k time ds)) /\ (forall s, In s l3 -> In s (frame_shapes k time ds)) /\
    (dipole_within_times k time ds -> broadcast l1 = broadcast (frame_shapes k time ds) /\ broadcast l2 = broadcast (frame_shapes k time ds) /\
       broadcast l3 = broadcast (frame_shapes k time ds)).
(** [spec] of a bound result *)
Lemma spec_bind {A B} l (f : list nat -> A) r (c : nd A -> result B) : spec l f r ->
  (exists e, broadcast l = Err e /\ bind r c = Err ValueError) \/ exists a, r = Ok a /\ spec l f (Ok a) /\ bind r c = c a.
Proof.
  intros [O S]. destruct (broadcast l) as [s|e] eqn:E.
  - right. destruct S as (a & -> & Es & Ha). exists a. split; [reflexivity|]. split; [|reflexivity]. split; [exact O|]. rewrite E. exists a. auto.
  - left. exists e. rewrite S. auto.
Qed.
Lemma spec_rop2' {A B C} (h : A -> B -> C) l f a l' g b : spec l f (Ok a) -> spec l' g (Ok b) -> spec (l ++ l') (fun i => h (f i) (g i)) (op2 h a b).
Proof. intros Sa Sb. rewrite op2_rop2. apply spec_rop2; assumption. Qed.
Lemma spec_map' {A B} (h : A -> B) l f a : spec l f (Ok a) -> spec l (fun i => h (f i)) (Ok (map1 h a)).
Proof. intros S. exact (spec_map h l f (Ok a) S). Qed.
Lemma spec_bfits {A} l (f : list nat -> A) a : spec l f (Ok a) -> broadcast l = Ok (sh a).
Proof. intros S. destruct (spec_of_ok _ _ _ S) as (s & E & Es & _). rewrite Es. exact E. Qed.

Lemma gsm_spec cfg d ds time : dipole_shape d ds -> (forall x, In x (elems time) -> (x < 36159.75)%R) ->
  (exists e, broadcast [sh time; ds] = Err e /\ basevectors_gsm_nd cfg time d = Err ValueError) \/
  exists b, basevectors_gsm_nd cfg time d = Ok b /\ frames_spec GSM cfg d (Some time) ds b.
Proof.
  intros Hd Ht. destruct (dipole_spec cfg d ds Hd) as (v & Ev & Sv). unfold basevectors_gsm_nd. rewrite Ev. cbn [bind]. rewrite (sun_nd _ Ht). cbn [bind].
  pose proof (sun_spec time) as S1. set (g1 := map1 sun_vec (map1 sun_point time)) in *.
  pose proof (spec_rop2' np_cross _ _ _ _ _ _ Sv S1) as S2.
  destruct (spec_bind _ _ _ (fun gsm_2 => bind (op2 np_cross g1 (map1 unit gsm_2)) (fun gsm_3 => Ok (g1, map1 unit gsm_2, gsm_3))) S2) as [(e & E & Er) | (a & Ea & Sa & Er)].
  - left. exists e. split; [|exact Er]. rewrite <- E. apply broadcast_sets. intros s. cbn. tauto.
  - right. pose proof (spec_map' unit _ _ _ Sa) as Sa'. pose proof (spec_rop2' np_cross _ _ _ _ _ _ S1 Sa') as S3.
    destruct (spec_bind _ _ _ (fun gsm_3 => Ok (g1, map1 unit a, gsm_3)) S3) as [(e & E & _) | (b & Eb & Sb & Er')].
    { exfalso. pose proof (spec_bfits _ _ _ Sa') as X. rewrite (broadcast_sets _ ([ds] ++ [sh time])) in E; [congruence|]. intros s; cbn; tauto. }
    eexists. split; [rewrite Er; exact Er'|]. exists [sh time], ([ds] ++ [sh time]), ([sh time] ++ ([ds] ++ [sh time])).
    split; [exact S1|]. split; [exact Sa'|]. split; [exact Sb|]. split; [intros s; cbn; tauto|]. split; [intros s; cbn; tauto|].
    cbn [dipole_within_times frame_shapes]. intros W. rewrite W. split; [apply broadcast_1|]. rewrite <- W. split; apply broadcast_sets; intros s; cbn; tauto.
Qed.
Lemma mag_spec cfg d ds time : dipole_shape d ds ->
  exists b, basevectors_mag_nd cfg d = Ok b /\ frames_spec MAG cfg d time ds b.
Proof.
  intros Hd. destruct (dipole_spec cfg d ds Hd) as (v & Ev & Sv). unfold basevectors_mag_nd. rewrite Ev. cbn [bind].
  pose proof (spec_rop2' np_cross _ _ _ _ _ _ (spec_nil_scalar (V3 0 0 1)) Sv) as S2. cbn [app] in S2.
  assert (Ed : broadcast [ds] = Ok ds) by apply broadcast_1.
  destruct (spec_bind _ _ _ (fun m2 => bind (op2 np_cross (map1 unit m2) v) (fun m1 => Ok (m1, map1 unit m2, v))) S2) as [(e & E & _) | (a & Ea & Sa & Er)]; [congruence|].
  pose proof (spec_map' unit _ _ _ Sa) as Sa'. pose proof (spec_rop2' np_cross _ _ _ _ _ _ Sa' Sv) as S1.
  destruct (spec_bind _ _ _ (fun m1 => Ok (m1, map1 unit a, v)) S1) as [(e & E & _) | (b & Eb & Sb & Er')].
  { exfalso. rewrite (broadcast_sets _ [ds]) in E; [congruence|]. intros s; cbn; tauto. }
  eexists. split; [rewrite Er; exact Er'|]. exists ([ds] ++ [ds]), [ds], [ds].
  split; [exact Sb|]. split; [exact Sa'|]. split; [exact Sv|]. split; [destruct time; intros s; cbn; tauto|]. split; [destruct time; intros s; cbn; tauto|].
  intros _. split; [|split]; apply broadcast_sets; intros s; destruct time; cbn; tauto.
Qed.
Lemma strip_le n s : List.length s <= n -> strip n s = s.
Proof. destruct s as [|d s]; intros H; [reflexivity|]. cbn [strip]. destruct (Nat.ltb_spec n (List.length (d :: s))); [lia | reflexivity]. Qed.
Lemma bc_rev_len a : forall b c, bc_rev a b = Some c -> List.length a <= List.length c.
Proof.
  induction a as [|x a IH]; intros [|y b] c H; cbn in H |- *; try lia.
  - injection H as <-. cbn. lia.
  - destruct (bc_rev a b) as [r|] eqn:E; [|discriminate]. pose proof (IH _ _ E).
    destruct (x =? y); [injection H as <-; cbn; lia|]. destruct (x =? 1); [injection H as <-; cbn; lia|]. destruct (y =? 1); [injection H as <-; cbn; lia | discriminate].
Qed.
Lemma bfits_len s t : bfits s t -> List.length s <= List.length t.
Proof. intros F. apply bc_rev_len in F. rewrite !rev_length in F. exact F. Qed.
Lemma assign_spec {A} l (f : list nat -> A) a s : spec l f (Ok a) -> bfits (sh a) s -> exists b, assign s a = Ok b /\ spec [s] f (Ok b).
Proof.
  intros Sp F. unfold assign. rewrite strip_le by (apply bfits_len; exact F). rewrite (bshape_fit _ _ F), same_shape_true. eexists. split; [reflexivity|].
  destruct (spec_of_ok _ _ _ Sp) as (s' & E & Es & Ha & O). apply spec_one.
  - intros t i Et. rewrite broadcast_1 in Et. injection Et as <-. rewrite <- (O s' (bidx s i) E), <- (O s' i E). rewrite <- Es, bidx_trans by exact F. reflexivity.
  - reflexivity.
  - intros i V. cbn [at_]. exact (bread_spec a s' f l s i E Es Ha O (eq_ind _ (fun x => bfits x s) F _ Es) V).
Qed.
Lemma sm_spec cfg d ds time : dipole_shape d ds -> (forall x, In x (elems time) -> (x < 36159.75)%R) -> broadcast [sh time; ds] = Ok (sh time) ->
  exists b, basevectors_sm_nd cfg time d = Ok b /\ frames_spec SM cfg d (Some time) ds b.
Proof.
  intros Hd Ht Hf. destruct (dipole_spec cfg d ds Hd) as (v & Ev & Sv). unfold basevectors_sm_nd. rewrite Ev. cbn [bind]. rewrite (sun_nd _ Ht). cbn [bind].
  pose proof (sun_spec time) as S0. set (g1 := map1 sun_vec (map1 sun_point time)) in *. change (sh g1) with (sh time).
  assert (Ev' : sh v = ds) by (pose proof (spec_bfits _ _ _ Sv) as X; rewrite broadcast_1 in X; congruence).
  destruct (broadcast_2_fits _ _ _ Hf) as [_ Fd].
  destruct (assign_spec _ _ v (sh time) Sv) as (m3 & -> & S3); [rewrite Ev'; exact Fd|]. cbn [bind].
  pose proof (spec_rop2' np_cross _ _ _ _ _ _ S3 S0) as S2.
  assert (Et : broadcast [sh time] = Ok (sh time)) by apply broadcast_1.
  destruct (spec_bind _ _ _ (fun m2 => bind (op2 np_cross (map1 unit m2) m3) (fun m1 => Ok (m1, map1 unit m2, m3))) S2) as [(e & E & _) | (a & Ea & Sa & Er)].
  { exfalso. rewrite (broadcast_sets _ [sh time]) in E; [congruence|]. intros s; cbn; tauto. }
  pose proof (spec_map' unit _ _ _ Sa) as Sa'. pose proof (spec_rop2' np_cross _ _ _ _ _ _ Sa' S3) as S1.
  destruct (spec_bind _ _ _ (fun m1 => Ok (m1, map1 unit a, m3)) S1) as [(e & E & _) | (b & Eb & Sb & Er')].
  { exfalso. rewrite (broadcast_sets _ [sh time]) in E; [congruence|]. intros s; cbn; tauto. }
  (* the shape of the dipoles changes nothing *)
  assert (W : forall (A : Type) (f : list nat -> A) c l, (forall s, In s l <-> In s [sh time]) -> spec l f (Ok c) -> spec [sh time; ds] f (Ok c)).
  { intros A f c l Hl Sc. apply (spec_perm _ [sh time] _ _ Hl) in Sc. destruct (spec_of_ok _ _ _ Sc) as (s & E & Es & Ha & O).
    rewrite broadcast_1 in E. injection E as <-. split; [apply (over_sub [sh time]); [intros s [<-|[]]; left; reflexivity | exact O]|].
    rewrite Hf. exists c. auto. }
  eexists. split; [rewrite Er; exact Er'|]. exists [sh time; ds], [sh time; ds], [sh time; ds].
  split; [eapply W; [|exact Sb]; intros s; cbn; tauto|]. split; [eapply W; [|exact Sa']; intros s; cbn; tauto|]. split; [eapply W; [|exact S3]; intros s; cbn; tauto|].
  split; [intros s; cbn; tauto|]. split; [intros s; cbn; tauto|]. auto.
Qed.
