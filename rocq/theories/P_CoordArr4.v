(** transform_vectors, element by element *)
From Coq Require Import Reals List Bool String Arith Lia Lra.
From Verif Require Import M_Prelude M_ND Spec_Coord M_Coord P_ND P_Bcast P_Coord2 P_Coord4 W_Coord P_CoordArr M_CoordArr Spec_CoordArr P_CoordArr2 P_CoordArr3.
Import ListNotations.
Open Scope nat_scope.

Definition as_points (l : list R) : list (R * R) := map (fun t => (t, 0%R)) l.
Lemma as_points_theta l : map (fun p : R * R => np_radians (fst p)) (as_points l) = map np_radians l.
Proof. unfold as_points. rewrite map_map. reflexivity. Qed.
(** the smallest and the largest element *)
Lemma fold_min l : forall x, In (fold_left Rmin l x) (x :: l) /\ forall y, In y (x :: l) -> (fold_left Rmin l x <= y)%R.
Proof.
  induction l as [|a l IH]; intros x; cbn [fold_left]; [split; [left; reflexivity | intros y [<-|[]]; lra]|].
  destruct (IH (Rmin x a)) as [I L]. split.
  - destruct I as [E|I]; [|right; right; exact I]. rewrite <- E. unfold Rmin; destruct (Rle_dec x a); [left; reflexivity | right; left; reflexivity].
  - assert (L0 := L _ (or_introl eq_refl)). intros y [<-|[<-|Hy]]; [pose proof (Rmin_l x a); lra | pose proof (Rmin_r x a); lra | apply L; right; exact Hy].
Qed.
Lemma fold_max l : forall x, In (fold_left Rmax l x) (x :: l) /\ forall y, In y (x :: l) -> (y <= fold_left Rmax l x)%R.
Proof.
  induction l as [|a l IH]; intros x; cbn [fold_left]; [split; [left; reflexivity | intros y [<-|[]]; lra]|].
  destruct (IH (Rmax x a)) as [I L]. split.
  - destruct I as [E|I]; [|right; right; exact I]. rewrite <- E. unfold Rmax; destruct (Rle_dec x a); [right; left; reflexivity | left; reflexivity].
  - assert (L0 := L _ (or_introl eq_refl)). intros y [<-|[<-|Hy]]; [pose proof (Rmax_l x a); lra | pose proof (Rmax_r x a); lra | apply L; right; exact Hy].
Qed.
Lemma np_amin_least l mn : np_amin l = Ok mn -> least mn l.
Proof. destruct l as [|x l]; [discriminate|]. cbn [np_amin]. intros E. injection E as <-. exact (fold_min l x). Qed.
Lemma np_amax_greatest l mx : np_amax l = Ok mx -> greatest mx l.
Proof. destruct l as [|x l]; [discriminate|]. cbn [np_amax]. intros E. injection E as <-. exact (fold_max l x). Qed.
Lemma rad_le x y : (np_radians x <= np_radians y -> x <= y)%R.
Proof. unfold np_radians. pose proof PI_RGT_0. intros H1. nra. Qed.
Lemma rad_le' x y : (x <= y -> np_radians x <= np_radians y)%R.
Proof. unfold np_radians. pose proof PI_RGT_0. intros H1. nra. Qed.
Lemma rad_0 : np_radians 0 = 0%R. Proof. unfold np_radians. field. Qed.
Lemma rad_180 : np_radians 180 = PI. Proof. unfold np_radians. field. Qed.
Lemma rad_inj x y : np_radians x = np_radians y -> x = y.
Proof. intros E. apply Rle_antisym; apply rad_le; rewrite E; apply Rle_refl. Qed.
Lemma least_rad x l : least (np_radians x) (map np_radians l) <-> least x l.
Proof.
  unfold least. rewrite in_map_iff. split.
  - intros [(y & E & Hy) H]. apply rad_inj in E. subst y. split; [exact Hy|]. intros z Hz. apply rad_le, H, in_map, Hz.
  - intros [Hx H]. split; [exists x; auto|]. intros y Hy. apply in_map_iff in Hy. destruct Hy as (z & <- & Hz). apply rad_le', H, Hz.
Qed.
Lemma greatest_rad x l : greatest (np_radians x) (map np_radians l) <-> greatest x l.
Proof.
  unfold greatest. rewrite in_map_iff. split.
  - intros [(y & E & Hy) H]. apply rad_inj in E. subst y. split; [exact Hy|]. intros z Hz. apply rad_le, H, in_map, Hz.
  - intros [Hx H]. split; [exists x; auto|]. intros y Hy. apply in_map_iff in Hy. destruct Hy as (z & <- & Hz). apply rad_le', H, Hz.
Qed.
Lemma least_unique x y l : least x l -> least y l -> x = y.
Proof. intros [Hx Lx] [Hy Ly]. apply Rle_antisym; [apply Lx, Hy | apply Ly, Hx]. Qed.
Lemma greatest_unique x y l : greatest x l -> greatest y l -> x = y.
Proof. intros [Hx Lx] [Hy Ly]. apply Rle_antisym; [apply Ly, Hx | apply Lx, Hy]. Qed.

Lemma use_nd_ok theta phi : elems theta <> [] -> poles_unnoticed (elems theta) -> basevectors_use_nd theta phi = op2 use_base theta phi.
Proof.
  intros Hn [H1 H2]. unfold basevectors_use_nd.
  destruct (np_amin (map np_radians (elems theta))) as [mn|e] eqn:E1; [|destruct (elems theta); [congruence|discriminate]].
  cbn [bind]. apply np_amin_least in E1. destruct (Req_EM_T mn 0) as [->|]; [exfalso; apply H1, least_rad; rewrite rad_0; exact E1|].
  destruct (np_amax (map np_radians (elems theta))) as [mx|e] eqn:E2; [|destruct (elems theta); [congruence|discriminate]].
  cbn [bind]. apply np_amax_greatest in E2. destruct (Req_EM_T mx PI) as [->|]; [exfalso; apply H2, greatest_rad; rewrite rad_180; exact E2|]. reflexivity.
Qed.
Lemma use_nd_pole theta phi : least 0 (elems theta) \/ greatest 180 (elems theta) -> basevectors_use_nd theta phi = Err ValueError.
Proof.
  intros H. unfold basevectors_use_nd.
  destruct (np_amin (map np_radians (elems theta))) as [mn|e] eqn:E1.
  2:{ destruct (elems theta) eqn:E; [|discriminate]. cbn in E1. injection E1 as <-. reflexivity. }
  cbn [bind]. destruct (Req_EM_T mn 0) as [|N1]; [reflexivity|]. apply np_amin_least in E1.
  destruct (np_amax (map np_radians (elems theta))) as [mx|e] eqn:E2.
  2:{ destruct (elems theta) eqn:E; [|discriminate]. cbn in E2. injection E2 as <-. reflexivity. }
  cbn [bind]. destruct (Req_EM_T mx PI) as [|N2]; [reflexivity|]. apply np_amax_greatest in E2. exfalso. destruct H as [H|H].
  - apply N1. rewrite <- rad_0. apply (least_unique _ _ _ E1), least_rad, H.
  - apply N2. rewrite <- rad_180. apply (greatest_unique _ _ _ E2), greatest_rad, H.
Qed.
Lemma use_single t p : ~ at_pole t -> basevectors_use [(t, p)] = Ok [use_base t p].
Proof.
  intros H. unfold at_pole in H. unfold basevectors_use. cbn [map fst snd np_amin np_amax fold_left bind].
  destruct (Req_EM_T (np_radians t) 0) as [E|_]; [exfalso; apply H; left; apply rad_inj; rewrite rad_0; exact E|].
  destruct (Req_EM_T (np_radians t) PI) as [E|_]; [exfalso; apply H; right; apply rad_inj; rewrite rad_180; exact E|]. reflexivity.
Qed.
Lemma use_single_pole t p : at_pole t -> basevectors_use [(t, p)] = Err ValueError.
Proof.
  intros H. unfold basevectors_use. cbn [map fst snd np_amin np_amax fold_left bind]. destruct H as [-> | ->].
  - rewrite rad_0. destruct (Req_EM_T 0 0) as [_|N]; [reflexivity | congruence].
  - rewrite rad_180. destruct (Req_EM_T PI 0); [reflexivity|]. destruct (Req_EM_T PI PI) as [_|N]; [reflexivity | congruence].
Qed.

Lemma spec_shape {A} l (f : list nat -> A) a s : spec l f (Ok a) -> broadcast l = Ok s -> sh a = s.
Proof. intros S E. rewrite (spec_bfits _ _ _ S) in E. congruence. Qed.
Lemma stack_spec {A B} (h : A -> A -> A -> B) l (f1 f2 f3 : list nat -> A) a b c :
  spec l f1 (Ok a) -> spec l f2 (Ok b) -> spec l f3 (Ok c) -> exists r, stack3 h a b c = Ok r /\ spec l (fun i => h (f1 i) (f2 i) (f3 i)) (Ok r).
Proof.
  intros Sa Sb Sc. destruct (spec_of_ok _ _ _ Sa) as (s & E & Ea & Ha & Oa).
  destruct (spec_of_ok _ _ _ Sb) as (s' & E' & Eb & Hb & Ob). rewrite E in E'. injection E' as <-.
  destruct (spec_of_ok _ _ _ Sc) as (s' & E' & Ec & Hc & Oc). rewrite E in E'. injection E' as <-.
  unfold stack3. rewrite Ea, Eb, Ec, same_shape_true. cbn [andb]. eexists. split; [reflexivity|]. split.
  - intros t i Et. rewrite (Oa t i Et), (Ob t i Et), (Oc t i Et). reflexivity.
  - rewrite E. eexists. split; [reflexivity|]. split; [reflexivity|]. intros i V. cbn [at_]. rewrite Ha, Hb, Hc by exact V. reflexivity.
Qed.
(** all three base vectors over the same shapes *)
Lemma spec_widen {A} l l' (f : list nat -> A) a : spec l f (Ok a) -> (forall s, In s l -> In s l') -> broadcast l' = Ok (sh a) -> spec l' f (Ok a).
Proof.
  intros Sa H E. destruct (spec_of_ok _ _ _ Sa) as (s & Es & Ea & Ha & Oa). split; [exact (over_sub l l' f H Oa)|]. rewrite E. exists a.
  split; [reflexivity|]. split; [reflexivity|]. rewrite Ea. exact Ha.
Qed.
Lemma frame_stack k cfg d time ds b1 b2 b3 : dipole_within_times k time ds -> frames_spec k cfg d time ds (b1, b2, b3) ->
  spec (frame_shapes k time ds) (fun i => fst (fst (frame_at k cfg d time i))) (Ok b1) /\
  spec (frame_shapes k time ds) (fun i => snd (fst (frame_at k cfg d time i))) (Ok b2) /\
  spec (frame_shapes k time ds) (fun i => snd (frame_at k cfg d time i)) (Ok b3).
Proof.
  intros W (l1 & l2 & l3 & S1 & S2 & S3 & H12 & H3 & B). destruct (B W) as (B1 & B2 & B3).
  split; [|split].
  - apply (spec_widen l1); [exact S1 | intros s Hs; apply H12, in_or_app; auto | rewrite <- B1; apply (spec_bfits _ _ _ S1)].
  - apply (spec_widen l2); [exact S2 | intros s Hs; apply H12, in_or_app; auto | rewrite <- B2; apply (spec_bfits _ _ _ S2)].
  - apply (spec_widen l3); [exact S3 | exact H3 | rewrite <- B3; apply (spec_bfits _ _ _ S3)].
Qed.
Lemma within_per_time k time ds : dipole_within_times k time ds -> dipole_per_time k time ds.
Proof. destruct k, time; cbn; auto. Qed.
Lemma elems_nonempty {A} (a : nd A) s i : fits (sh a) s -> valid s i -> elems a <> [].
Proof. intros F V E. pose proof (bread_in a s i F V) as X. rewrite E in X. exact X. Qed.
Lemma elems_at {A} (a : nd A) x : In x (elems a) -> exists i, valid (sh a) i /\ x = at_ a i.
Proof. intros H. apply in_map_iff in H. destruct H as (i & <- & Hi). exists i. split; [apply indices_valid; exact Hi | reflexivity]. Qed.

Section Vectors.
  Context (k : ref_system) (r : string) (cfg : R * R * R) (dip : dipole_nd) (ds : list nat) (time : option (nd R)) (theta phi : nd R) (inverse : option bool).
  Context (s : list nat) (t p : nd R).
  Hypotheses (Hr : In r (spellings k)) (Hd : dipole_shape dip ds) (Ht : times_accepted k time) (Hw : dipole_within_times k time ds).
  Let all := sh theta :: sh phi :: frame_shapes k time ds.
  Hypothesis (Es : broadcast all = Ok s).
  Hypothesis (Htp : transform_points_nd cfg theta phi time (Some r) inverse dip = Ok (t, p)).
  Let inv := match inverse with Some i => i | None => false end.
  Let g i := geo_to_base (bread theta i) (bread phi i) (frame_at k cfg dip time i) inv.

  Lemma locs_spec : exists b1 b2 b3, reference_bases_nd cfg time (Some r) dip = Ok (b1, b2, b3) /\
    spec (frame_shapes k time ds) (fun i => fst (fst (frame_at k cfg dip time i))) (Ok b1) /\
    spec (frame_shapes k time ds) (fun i => snd (fst (frame_at k cfg dip time i))) (Ok b2) /\
    spec (frame_shapes k time ds) (fun i => snd (frame_at k cfg dip time i)) (Ok b3) /\
    geo_to_base_nd theta phi (b1, b2, b3) inv = Ok (t, p) /\ spec all (fun i => fst (g i)) (Ok t) /\ spec all (fun i => snd (g i)) (Ok p).
  Proof.
    destruct (ref_nd k r cfg time dip ds Hr Hd Ht (within_per_time _ _ _ Hw)) as [(e & E & Er) | (b & Eb & Hb)].
    - exfalso. unfold transform_points_nd in Htp. rewrite Er in Htp. discriminate.
    - destruct b as [[b1 b2] b3]. destruct (frame_stack _ _ _ _ _ _ _ _ Hw Hb) as (S1 & S2 & S3).
      exists b1, b2, b3. split; [exact Eb|]. split; [exact S1|]. split; [exact S2|]. split; [exact S3|].
      unfold transform_points_nd in Htp. rewrite Eb in Htp. cbn [bind] in Htp. fold inv in Htp. split; [exact Htp|].
      destruct (geo_spec theta phi _ _ _ _ _ _ b1 b2 b3 (frame_shapes k time ds) S1 S2 S3) with (inv := inv) as [G O].
      { intros x. rewrite in_app_iff. tauto. }
      { auto. }
      fold all in G, O. rewrite Es in G. destruct G as (t' & p' & G1 & G2 & G3 & G4). rewrite Htp in G1. injection G1 as <- <-.
      assert (Eg : forall i, geo_to_base (bread theta i) (bread phi i) (fst (fst (frame_at k cfg dip time i)), snd (fst (frame_at k cfg dip time i)), snd (frame_at k cfg dip time i)) inv = g i).
      { intros i. unfold g. rewrite <- surjective_pairing, <- surjective_pairing. reflexivity. }
      split; (split; [intros u i Eu; pose proof (O u i Eu) as X; cbv beta in X; rewrite !Eg in X; rewrite X; reflexivity |
        rewrite Es; eexists; split; [reflexivity|]; split; [assumption|]; intros i V; rewrite <- Eg, <- (G4 i V); reflexivity]).
  Qed.
  Lemma fits_s u : In u all -> bfits u s.
  Proof. intros H. pose proof (broadcast_bfits _ _ Es) as F. rewrite Forall_forall in F. apply F. exact H. Qed.

  Definition matrix_at (i : list nat) : mat3 :=
    let geo := if inv then g i else (bread theta i, bread phi i) in
    let ref := if inv then (bread theta i, bread phi i) else g i in
    matmul (rows_of (use_base (fst ref) (snd ref))) (matmul (rows_of (frame_at k cfg dip time i)) (cols_of (use_base (fst geo) (snd geo)))).
  Lemma use_spec l1 f1 a l2 f2 b : spec l1 f1 (Ok a) -> spec l2 f2 (Ok b) -> elems a <> [] -> poles_unnoticed (elems a) ->
    spec (l1 ++ l2) (fun i => use_base (f1 i) (f2 i)) (basevectors_use_nd a b).
  Proof. intros A B Hn H. rewrite use_nd_ok by assumption. apply spec_rop2'; assumption. Qed.

  Hypothesis (Hne : exists i, valid s i).
  Hypotheses (Hth : poles_unnoticed (elems theta)) (Htt : poles_unnoticed (elems t)).

  Lemma matrix_spec : exists b m, reference_bases_nd cfg time (Some r) dip = Ok b /\
    matrix_geo_to_base_nd theta phi b inv = Ok (t, p, m) /\ spec all (fun i => if inv then transpose (matrix_at i) else matrix_at i) (Ok m).
  Proof.
    destruct locs_spec as (b1 & b2 & b3 & Eb & S1 & S2 & S3 & Eg & St & Sp). destruct Hne as [i0 V0].
    assert (N1 : elems theta <> []) by (apply (elems_nonempty theta s i0); [apply bfits_fits, fits_s; left; reflexivity | exact V0]).
    assert (N2 : elems t <> []) by (apply (elems_nonempty t s i0); [rewrite (spec_shape _ _ _ _ St Es); apply bfits_fits, bfits_refl | exact V0]).
    exists (b1, b2, b3). destruct (stack_spec (fun u v w => (u, v, w)) _ _ _ _ _ _ _ S1 S2 S3) as (rows & Er & Sr).
    assert (U1 : spec [sh theta; sh phi] (fun i => use_base (bread theta i) (bread phi i)) (basevectors_use_nd theta phi)) by (apply (use_spec [sh theta] _ _ [sh phi]); [apply spec_in | apply spec_in | exact N1 | exact Hth]).
    assert (U2 : spec all (fun i => use_base (fst (g i)) (snd (g i))) (basevectors_use_nd t p)).
    { apply (spec_perm (all ++ all)); [intros x; rewrite in_app_iff; tauto|]. apply use_spec; assumption. }
    assert (Hl : forall l, (forall x, In x l -> In x all) -> exists u, broadcast l = Ok u).
    { intros l Hl. destruct (broadcast_lub l s) as (u & Eu & _); [apply Forall_forall; intros x Hx; apply fits_s, Hl, Hx|]. exists u. exact Eu. }
    (* both orders of the two frames *)
    assert (Both : forall lg fg rg lr fr rr, spec lg fg rg -> spec lr fr rr -> (forall x, In x (lg ++ lr) <-> In x all) ->
      exists ug ur m1 m, rg = Ok ug /\ rr = Ok ur /\ op2 (fun r u => matmul r (cols_of u)) rows ug = Ok m1 /\ op2 (fun u m => matmul (rows_of u) m) ur m1 = Ok m /\
        spec all (fun i => matmul (rows_of (fr i)) (matmul (rows_of (frame_at k cfg dip time i)) (cols_of (fg i)))) (Ok m)).
    { intros lg fg rg lr fr rr Sg Srr Hx.
      destruct (Hl lg) as (u1 & E1); [intros x Hi; apply Hx, in_or_app; auto|]. destruct (Hl lr) as (u2 & E2); [intros x Hi; apply Hx, in_or_app; auto|].
      destruct Sg as [Og Sg]. rewrite E1 in Sg. destruct Sg as (ug & -> & Eug & Hug).
      destruct Srr as [Orr Srr]. rewrite E2 in Srr. destruct Srr as (ur & -> & Eur & Hur).
      assert (Sg' : spec lg fg (Ok ug)) by (split; [exact Og | rewrite E1; eauto]). assert (Sr' : spec lr fr (Ok ur)) by (split; [exact Orr | rewrite E2; eauto]).
      pose proof (spec_rop2' (fun r u => matmul r (cols_of u)) _ _ _ _ _ _ Sr Sg') as Sm.
      destruct (spec_bind _ _ _ (fun m => Ok m) Sm) as [(e & E & _) | (m1 & Em1 & Sm1 & _)].
      { exfalso. destruct (Hl (frame_shapes k time ds ++ lg)) as (u & Eu); [|congruence]. intros x Hi. apply in_app_or in Hi. destruct Hi as [Hi|Hi]; [right; right; exact Hi | apply Hx, in_or_app; auto]. }
      pose proof (spec_rop2' (fun u m => matmul (rows_of u) m) _ _ _ _ _ _ Sr' Sm1) as Sm2.
      destruct (spec_bind _ _ _ (fun m => Ok m) Sm2) as [(e & E & _) | (m & Em & Smm & _)].
      { exfalso. destruct (Hl (lr ++ (frame_shapes k time ds ++ lg))) as (u & Eu); [|congruence].
        intros x Hi. rewrite !in_app_iff in Hi. destruct Hi as [Hi|[Hi|Hi]]; [apply Hx, in_or_app; auto | right; right; exact Hi | apply Hx, in_or_app; auto]. }
      exists ug, ur, m1, m. split; [reflexivity|]. split; [reflexivity|]. split; [exact Em1|]. split; [exact Em|].
      eapply spec_perm; [|eapply spec_ext; [|exact Smm]].
      - intros x. rewrite !in_app_iff, <- Hx, in_app_iff. unfold all in Hx. specialize (Hx x). rewrite in_app_iff in Hx. cbn [In] in Hx. tauto.
      - intros i. cbv beta. rewrite <- surjective_pairing, <- surjective_pairing. reflexivity. }
    unfold matrix_geo_to_base_nd. rewrite Eg. cbn [bind].
    assert (Hx : forall x, In x ([sh theta; sh phi] ++ all) <-> In x all) by (intros x; unfold all; rewrite in_app_iff; cbn [In]; tauto).
    unfold matrix_at. case_eq inv; intros Ei.
    - destruct (Both _ _ _ _ _ _ U2 U1) as (ug & ur & m1 & m & Eug & Eur & Em1 & Em & Sm); [intros x; rewrite in_app_iff, <- (Hx x), in_app_iff; tauto|].
      cbn [fst snd]. rewrite Eug. cbn [bind]. rewrite Er. cbn [bind]. rewrite Em1. cbn [bind]. rewrite Eur. cbn [bind]. rewrite Em. cbn [bind].
      exists (map1 transpose m). split; [exact Eb|]. split; [reflexivity|]. exact (spec_map' transpose _ _ _ Sm).
    - destruct (Both _ _ _ _ _ _ U1 U2 Hx) as (ug & ur & m1 & m & Eug & Eur & Em1 & Em & Sm).
      cbn [fst snd]. rewrite Eug. cbn [bind]. rewrite Er. cbn [bind]. rewrite Em1. cbn [bind]. rewrite Eur. cbn [bind]. rewrite Em. cbn [bind].
      exists m. split; [exact Eb|]. split; [reflexivity|]. exact Sm.
  Qed.
  Lemma vectors_elementwise_aux B_theta B_phi :
    match broadcast (sh B_theta :: sh B_phi :: all) with
    | Ok s2 => exists bt bp, transform_vectors_nd cfg theta phi B_theta B_phi time (Some r) inverse dip = Ok (t, p, bt, bp) /\ sh bt = s2 /\ sh bp = s2 /\
        forall i, valid s2 i ->
          let single := transform_vectors cfg [((bread theta i, bread phi i), (bread B_theta i, bread B_phi i))] (time_at time i) (Some r) inverse (dipole_at dip i) in
          (~ at_pole (bread theta i) -> ~ at_pole (bread t i) -> single = Ok [((bread t i, bread p i), (at_ bt i, at_ bp i))]) /\
          (at_pole (bread theta i) \/ at_pole (bread t i) -> single = Err ValueError)
    | Err _ => transform_vectors_nd cfg theta phi B_theta B_phi time (Some r) inverse dip = Err ValueError
    end.
  Proof.
    destruct matrix_spec as (b & m & Eb & Em & Sm). unfold transform_vectors_nd. rewrite Eb. cbn [bind]. fold inv. rewrite Em. cbn [bind].
    set (M := fun i => if inv then transpose (matrix_at i) else matrix_at i) in *.
    assert (C : forall j, spec (sh B_theta :: sh B_phi :: all) (fun i => entry (M i) j 1 * bread B_theta i + entry (M i) j 2 * bread B_phi i)%R
      (rop2 Rplus (op2 Rmult (map1 (fun m => entry m j 1) m) B_theta) (op2 Rmult (map1 (fun m => entry m j 2) m) B_phi))).
    { intros j. eapply spec_perm; [|exact (spec_rop2 Rplus _ _ _ _ _ _ (spec_rop2' Rmult _ _ _ _ _ _ (spec_map' (fun m => entry m j 1) _ _ _ Sm) (spec_in B_theta))
        (spec_rop2' Rmult _ _ _ _ _ _ (spec_map' (fun m => entry m j 2) _ _ _ Sm) (spec_in B_phi)))].
      intros x. rewrite !in_app_iff. cbn [In]. tauto. }
    destruct (C 1) as [_ C1]. destruct (C 2) as [_ C2]. destruct (broadcast (sh B_theta :: sh B_phi :: all)) as [s2|e] eqn:E2; [|rewrite C1; reflexivity].
    destruct C1 as (bt & -> & Ebt & Hbt). destruct C2 as (bp & -> & Ebp & Hbp). cbn [bind]. exists bt, bp. split; [reflexivity|]. split; [exact Ebt|]. split; [exact Ebp|].
    intros i V. rewrite (Hbt i V), (Hbp i V).
    assert (Fall : forall u, In u all -> bfits u s2) by (intros u Hu; pose proof (broadcast_bfits _ _ E2) as F; rewrite Forall_forall in F; apply F; right; right; exact Hu).
    assert (Fs : bfits s s2) by (apply (broadcast_least _ _ _ Es); apply Forall_forall; exact Fall).
    destruct locs_spec as (_ & _ & _ & _ & _ & _ & _ & _ & St & Sp).
    destruct (spec_of_ok _ _ _ St) as (s' & E' & Et & Htv & Ot). rewrite Es in E'. injection E' as <-.
    destruct (spec_of_ok _ _ _ Sp) as (s' & E' & Ep & Hpv & Op). rewrite Es in E'. injection E' as <-.
    rewrite (bread_spec t s _ all s2 i Es Et Htv Ot Fs V), (bread_spec p s _ all s2 i Es Ep Hpv Op Fs V).
    unfold transform_vectors. cbn [List.length].
    rewrite (ref_single k r cfg time dip ds s2 i Hr Ht); [|intros u Hu; apply bfits_fits, Fall; right; right; exact Hu | exact V].
    cbn [bind]. fold inv. unfold matrix_geo_to_base. cbn [map fst snd combine]. fold (g i).
    split.
    - intros P1 P2. unfold M, matrix_at. destruct (g i) as [gt gp] eqn:Egi. cbn [fst snd] in *. case_eq inv; intros Ei.
      + rewrite (use_single gt gp P2). cbn [bind]. rewrite (use_single _ _ P1). cbn [bind combine map]. cbn [fst snd].
        destruct (transpose _) as [[r1 r2] r3]. reflexivity.
      + rewrite (use_single _ _ P1). cbn [bind]. rewrite (use_single gt gp P2). cbn [bind combine map]. cbn [fst snd].
        destruct (matmul (rows_of (use_base gt gp)) _) as [[r1 r2] r3]. reflexivity.
    - assert (Dec : forall x, at_pole x \/ ~ at_pole x). { intros x. unfold at_pole. destruct (Req_dec x 0); destruct (Req_dec x 180); tauto. }
      destruct (g i) as [gt gp] eqn:Egi. cbn [fst snd] in *. intros P.
      destruct (Dec (bread theta i)) as [Q1|Q1], (Dec gt) as [Q2|Q2]; [| | |tauto]; clear P; case inv;
        repeat first [rewrite (use_single _ _ Q1) | rewrite (use_single _ _ Q2) | rewrite (use_single_pole _ _ Q1) | rewrite (use_single_pole _ _ Q2)]; cbn [bind];
        repeat first [rewrite (use_single _ _ Q1) | rewrite (use_single _ _ Q2) | rewrite (use_single_pole _ _ Q1) | rewrite (use_single_pole _ _ Q2)]; reflexivity.
  Qed.
End Vectors.
