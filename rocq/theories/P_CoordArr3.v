(** transform_points, element by element *)
From Coq Require Import Reals List Bool String Arith Lia Lra.
From Verif Require Import M_Prelude M_ND Spec_Coord M_Coord P_ND P_Bcast P_Coord4 W_Coord P_CoordArr M_CoordArr Spec_CoordArr P_CoordArr2.
Import ListNotations.
Open Scope nat_scope.

Definition ref_xyz (theta phi : R) (b : base) (inverse : bool) : vec3 :=
  let '(base_1, base_2, base_3) := b in
  let p := spherical_to_cartesian 1 theta phi in
  let x := vx p in let y := vy p in let z := vz p in
  (if inverse then
      V3 (vx base_1 * x + vx base_2 * y + vx base_3 * z)
         (vy base_1 * x + vy base_2 * y + vy base_3 * z)
         (vz base_1 * x + vz base_2 * y + vz base_3 * z)
    else
      V3 (vx base_1 * x + vy base_1 * y + vz base_1 * z)
         (vx base_2 * x + vy base_2 * y + vz base_2 * z)
         (vx base_3 * x + vy base_3 * y + vz base_3 * z))%R.
Lemma lin3_spec l1 f1 a m1 g1 x l2 f2 b m2 g2 y l3 f3 c m3 g3 z :
  spec l1 f1 (Ok a) -> spec m1 g1 x -> spec l2 f2 (Ok b) -> spec m2 g2 y -> spec l3 f3 (Ok c) -> spec m3 g3 z ->
  spec (((l1 ++ m1) ++ (l2 ++ m2)) ++ (l3 ++ m3)) (fun i => f1 i * g1 i + f2 i * g2 i + f3 i * g3 i)%R (lin3 a x b y c z).
Proof.
  intros A X B Y C Z. unfold lin3.
  refine (spec_rop2 Rplus _ _ _ _ _ _ (spec_rop2 Rplus _ _ _ _ _ _ (spec_rop2 Rmult _ _ _ _ _ _ A X) (spec_rop2 Rmult _ _ _ _ _ _ B Y)) (spec_rop2 Rmult _ _ _ _ _ _ C Z)).
Qed.

Section Geo.
  Context (theta phi : nd R) (l1 l2 l3 : list (list nat)) (f1 f2 f3 : list nat -> vec3) (b1 b2 b3 : nd vec3) (ls : list (list nat)).
  Hypotheses (S1 : spec l1 f1 (Ok b1)) (S2 : spec l2 f2 (Ok b2)) (S3 : spec l3 f3 (Ok b3)).
  Hypotheses (H12 : forall s, In s (l1 ++ l2) <-> In s ls) (H3 : forall s, In s l3 -> In s ls).
  Let all := sh theta :: sh phi :: ls.
  Lemma geo_spec inv :
    match broadcast all with
    | Ok s => exists t p, geo_to_base_nd theta phi (b1, b2, b3) inv = Ok (t, p) /\ sh t = s /\ sh p = s /\
        forall i, valid s i -> (at_ t i, at_ p i) = geo_to_base (bread theta i) (bread phi i) (f1 i, f2 i, f3 i) inv
    | Err _ => geo_to_base_nd theta phi (b1, b2, b3) inv = Err ValueError
    end /\ over all (fun i => geo_to_base (bread theta i) (bread phi i) (f1 i, f2 i, f3 i) inv).
  Proof.
    unfold geo_to_base_nd.
    pose proof (spec_rop2' (fun p t => 1 * cos (np_radians p) * sin (np_radians t))%R _ _ _ _ _ _ (spec_in phi) (spec_in theta)) as X.
    pose proof (spec_rop2' (fun p t => 1 * sin (np_radians p) * sin (np_radians t))%R _ _ _ _ _ _ (spec_in phi) (spec_in theta)) as Y.
    pose proof (spec_map' (fun t => 1 * cos (np_radians t))%R _ _ _ (spec_in theta)) as Zz.
    set (x := op2 _ phi theta) in *. set (y := op2 (fun p t => 1 * sin _ * _)%R phi theta) in *. set (z := Ok (map1 _ theta)) in *.
    pose (rx := if inv then lin3 (map1 vx b1) x (map1 vx b2) y (map1 vx b3) z else lin3 (map1 vx b1) x (map1 vy b1) y (map1 vz b1) z).
    pose (ry := if inv then lin3 (map1 vy b1) x (map1 vy b2) y (map1 vy b3) z else lin3 (map1 vx b2) x (map1 vy b2) y (map1 vz b2) z).
    pose (rz := if inv then lin3 (map1 vz b1) x (map1 vz b2) y (map1 vz b3) z else lin3 (map1 vx b3) x (map1 vy b3) y (map1 vz b3) z).
    pose (F := fun i => ref_xyz (bread theta i) (bread phi i) (f1 i, f2 i, f3 i) inv).
    assert (In12 : forall s, In s l1 \/ In s l2 <-> In s ls) by (intros s; rewrite <- H12, in_app_iff; reflexivity).
    pose (lx := if inv then all else sh theta :: sh phi :: l1).
    pose (ly := if inv then all else sh theta :: sh phi :: l2).
    pose (lz := if inv then all else sh theta :: sh phi :: l3).
    assert (M : forall (c : vec3 -> R) l f b, spec l f (Ok b) -> spec l (fun i => c (f i)) (Ok (map1 c b))) by (intros; apply spec_map'; assumption).
    assert (Sx : spec lx (fun i => vx (F i)) rx).
    { unfold lx, rx, F, ref_xyz. destruct inv.
      - eapply spec_perm; [|eapply spec_ext; [|exact (lin3_spec _ _ _ _ _ _ _ _ _ _ _ _ _ _ _ _ _ _ (M vx _ _ _ S1) X (M vx _ _ _ S2) Y (M vx _ _ _ S3) Zz)]]; [|intros i; reflexivity].
        intros s. specialize (In12 s). specialize (H3 s). unfold all. rewrite ?in_app_iff. cbn [In]. tauto.
      - eapply spec_perm; [|eapply spec_ext; [|exact (lin3_spec _ _ _ _ _ _ _ _ _ _ _ _ _ _ _ _ _ _ (M vx _ _ _ S1) X (M vy _ _ _ S1) Y (M vz _ _ _ S1) Zz)]]; [|intros i; reflexivity].
        intros s. rewrite ?in_app_iff. cbn [In]. tauto. }
    assert (Sy : spec ly (fun i => vy (F i)) ry).
    { unfold ly, ry, F, ref_xyz. destruct inv.
      - eapply spec_perm; [|eapply spec_ext; [|exact (lin3_spec _ _ _ _ _ _ _ _ _ _ _ _ _ _ _ _ _ _ (M vy _ _ _ S1) X (M vy _ _ _ S2) Y (M vy _ _ _ S3) Zz)]]; [|intros i; reflexivity].
        intros s. specialize (In12 s). specialize (H3 s). unfold all. rewrite ?in_app_iff. cbn [In]. tauto.
      - eapply spec_perm; [|eapply spec_ext; [|exact (lin3_spec _ _ _ _ _ _ _ _ _ _ _ _ _ _ _ _ _ _ (M vx _ _ _ S2) X (M vy _ _ _ S2) Y (M vz _ _ _ S2) Zz)]]; [|intros i; reflexivity].
        intros s. rewrite ?in_app_iff. cbn [In]. tauto. }
    assert (Sz : spec lz (fun i => vz (F i)) rz).
    { unfold lz, rz, F, ref_xyz. destruct inv.
      - eapply spec_perm; [|eapply spec_ext; [|exact (lin3_spec _ _ _ _ _ _ _ _ _ _ _ _ _ _ _ _ _ _ (M vz _ _ _ S1) X (M vz _ _ _ S2) Y (M vz _ _ _ S3) Zz)]]; [|intros i; reflexivity].
        intros s. specialize (In12 s). specialize (H3 s). unfold all. rewrite ?in_app_iff. cbn [In]. tauto.
      - eapply spec_perm; [|eapply spec_ext; [|exact (lin3_spec _ _ _ _ _ _ _ _ _ _ _ _ _ _ _ _ _ _ (M vx _ _ _ S3) X (M vy _ _ _ S3) Y (M vz _ _ _ S3) Zz)]]; [|intros i; reflexivity].
        intros s. rewrite ?in_app_iff. cbn [In]. tauto. }
    pose proof (spec_rop2 (fun h z => np_degrees (np_arctan2 (sqrt h) z)) _ _ _ _ _ _ (spec_rop2 (fun x y => x ^ 2 + y ^ 2)%R _ _ _ _ _ _ Sx Sy) Sz) as St.
    pose proof (spec_rop2 (fun y x => np_degrees (np_arctan2 y x)) _ _ _ _ _ _ Sy Sx) as Sp.
    assert (Et : spec all (fun i => fst (geo_to_base (bread theta i) (bread phi i) (f1 i, f2 i, f3 i) inv)) (rop2 (fun h z => np_degrees (np_arctan2 (sqrt h) z)) (rop2 (fun x y => x ^ 2 + y ^ 2)%R rx ry) rz)).
    { eapply spec_perm; [|eapply spec_ext; [|exact St]].
      - intros s. specialize (In12 s). specialize (H3 s). unfold all, lx, ly, lz, all. destruct inv; rewrite ?in_app_iff; cbn [In]; tauto.
      - intros i. unfold F. destruct inv; reflexivity. }
    assert (Ep : spec all (fun i => snd (geo_to_base (bread theta i) (bread phi i) (f1 i, f2 i, f3 i) inv)) (rop2 (fun y x => np_degrees (np_arctan2 y x)) ry rx)).
    { eapply spec_perm; [|eapply spec_ext; [|exact Sp]].
      - intros s. specialize (In12 s). specialize (H3 s). unfold all, lx, ly, lz, all. destruct inv; rewrite ?in_app_iff; cbn [In]; tauto.
      - intros i. unfold F. destruct inv; reflexivity. }
    fold rx ry rz. destruct Et as [Ot Et]. destruct Ep as [Op Ep]. split.
    - destruct (broadcast all) as [s|e].
      + destruct Et as (t & -> & Es & Ht). destruct Ep as (p & -> & Es' & Hp). cbn [bind]. exists t, p. split; [reflexivity|]. split; [exact Es|]. split; [exact Es'|].
        intros i V. rewrite (Ht i V), (Hp i V). symmetry. apply surjective_pairing.
      + rewrite Et. reflexivity.
    - intros s i E. rewrite (surjective_pairing (geo_to_base (bread theta (bidx s i)) _ _ _)), (surjective_pairing (geo_to_base (bread theta i) _ _ _)).
      pose proof (Ot s i E) as A1. pose proof (Op s i E) as A2. cbv beta in A1, A2. rewrite A1, A2. reflexivity.
  Qed.
End Geo.

(** The choice of the base vectors *)
Lemma ref_nd k r cfg time d ds : In r (spellings k) -> dipole_shape d ds -> times_accepted k time -> dipole_per_time k time ds ->
  (exists e, broadcast (frame_shapes k time ds) = Err e /\ reference_bases_nd cfg time (Some r) d = Err ValueError) \/
  exists b, reference_bases_nd cfg time (Some r) d = Ok b /\ frames_spec k cfg d time ds b.
Proof.
  intros Hr Hd Ht Hp. pose proof (lower_spelling _ _ Hr) as Hl. unfold reference_bases_nd. cbn [str_opt]. rewrite Hl.
  destruct k; cbn in Ht, Hp |- *.
  - destruct time as [t|]; [|contradiction]. apply gsm_spec; assumption.
  - destruct time as [t|]; [|contradiction]. right. apply sm_spec; assumption.
  - right. apply mag_spec. exact Hd.
Qed.
Lemma accepted_at k time i : times_accepted k time -> k <> MAG -> forall t, time = Some t -> fits (sh t) i -> forall j, valid i j -> sun_check (bread t j) = true.
Proof.
  intros H N t -> F j V. assert (Hx : (bread t j < 36159.75)%R) by (destruct k; cbn in H; [| |contradiction]; apply H, (bread_in t i j F V)).
  pose proof (proj2 (proj1 (sun_accepts [bread t j]))) as E. specialize (E ltac:(intros x [<-|[]]; exact Hx)). unfold sun_position in E. cbn [forallb] in E.
  rewrite andb_true_r in E. destruct (sun_check (bread t j)); [reflexivity | discriminate].
Qed.
(** one element by the model of M_Coord *)
Lemma ref_single k r cfg time d ds s i : In r (spellings k) -> times_accepted k time ->
  (forall u, In u (frame_shapes k time ds) -> fits u s) -> valid s i ->
  reference_bases cfg 1 (time_at time i) (Some r) (dipole_at d i) = Ok [frame_at k cfg d time i].
Proof.
  intros Hr Ht Hf V. pose proof (lower_spelling _ _ Hr) as Hl. unfold reference_bases. cbn [str_opt]. rewrite Hl.
  assert (Ev : dipole_to_vec cfg (match dipole_at d i with DNone => let '(g, h, k0) := cfg in DArray g h k0 | _ => dipole_at d i end) = Ok (axis_at cfg d i)).
  { rewrite <- (axis_at_ok cfg d i). destruct (dipole_at d i); try reflexivity. destruct cfg as [[g h] k0]. reflexivity. }
  set (dd := match dipole_at d i with DNone => _ | DArray _ _ _ => _ | DTuple _ => _ end) in *. clearbody dd.
  destruct k; cbn [times_accepted frame_shapes String.eqb Ascii.eqb Bool.eqb andb] in Ht, Hf |- *.
  - destruct time as [t|]; [|contradiction]. cbn [time_at option_map frame_shapes] in *. unfold basevectors_gsm. rewrite Ev. cbn [bind]. unfold sun_position. cbn [forallb map].
    rewrite (accepted_at GSM (Some t) s Ht ltac:(discriminate) t eq_refl (Hf _ (or_introl eq_refl)) i V). reflexivity.
  - destruct time as [t|]; [|contradiction]. cbn [time_at option_map frame_shapes] in *. unfold basevectors_sm. rewrite Ev. cbn [bind]. unfold sun_position. cbn [forallb map].
    rewrite (accepted_at SM (Some t) s Ht ltac:(discriminate) t eq_refl (Hf _ (or_introl eq_refl)) i V). reflexivity.
  - unfold basevectors_mag. rewrite Ev. cbn [bind repeat]. reflexivity.
Qed.
Lemma points_elementwise : forall k r cfg dip ds time theta phi inverse,
  In r (spellings k) -> dipole_shape dip ds -> times_accepted k time -> dipole_per_time k time ds ->
  match broadcast (sh theta :: sh phi :: frame_shapes k time ds) with
  | Ok s => exists t p, transform_points_nd cfg theta phi time (Some r) inverse dip = Ok (t, p) /\ sh t = s /\ sh p = s /\
      forall i, valid s i ->
        transform_points cfg [(bread theta i, bread phi i)] (time_at time i) (Some r) inverse (dipole_at dip i) = Ok [(at_ t i, at_ p i)]
  | Err _ => transform_points_nd cfg theta phi time (Some r) inverse dip = Err ValueError
  end.
Proof.
  intros k r cfg dip ds time theta phi inverse Hr Hd Ht Hp. unfold transform_points_nd.
  destruct (ref_nd k r cfg time dip ds Hr Hd Ht Hp) as [(e & E & ->) | (b & -> & Hb)]; cbn [bind].
  - destruct (broadcast (sh theta :: sh phi :: frame_shapes k time ds)) as [s|] eqn:Es; [|reflexivity]. exfalso.
    pose proof (broadcast_bfits _ _ Es) as F. inversion F as [|? ? _ F']; subst. inversion F' as [|? ? _ F'']; subst.
    destruct (broadcast_lub _ _ F'') as (u & Eu & _). congruence.
  - destruct b as [[b1 b2] b3]. destruct Hb as (l1 & l2 & l3 & S1 & S2 & S3 & H12 & H3 & _).
    destruct (geo_spec theta phi l1 l2 l3 _ _ _ b1 b2 b3 _ S1 S2 S3 H12 H3 (match inverse with Some i => i | None => false end)) as [G _].
    destruct (broadcast (sh theta :: sh phi :: frame_shapes k time ds)) as [s|] eqn:Es; [|exact G].
    destruct G as (t & p & G1 & G2 & G3 & G4). exists t, p. split; [exact G1|]. split; [exact G2|]. split; [exact G3|].
    intros i V. unfold transform_points. cbn [List.length].
    rewrite (ref_single k r cfg time dip ds s i Hr Ht); [|intros u Hu; pose proof (broadcast_fits _ _ Es) as F; rewrite Forall_forall in F; apply F; right; right; exact Hu | exact V].
    cbn [bind combine map fst snd]. rewrite (G4 i V). rewrite <- surjective_pairing, <- surjective_pairing. reflexivity.
Qed.
