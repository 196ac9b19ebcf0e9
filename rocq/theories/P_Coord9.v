(** Property-level forms for Props_Coord. *)
From Coq Require Import Reals List Bool String ZArith Lra Lia Psatz.
From Verif Require Import M_Prelude Spec_Coord M_Coord Spec_CoordApi P_Coord P_Coord2 P_Coord3 P_Coord4 P_Coord5 P_Coord6 P_Coord7 P_Coord8.
Import ListNotations.
Open Scope R_scope.

(** ** Sun and dipole are never parallel *)
Lemma parallel_units u v : unit_vec u -> unit_vec v -> parallel u v -> vz u ^ 2 = vz v ^ 2.
Proof.
  intros Hu Hv H. unfold parallel in H.
  assert (E : u = vscale (vdot u v) v).
  { (* v x (u x v) = u - (u.v) v *)
    pose proof (lagrange u v v) as L. rewrite H, Hv in L.
    assert (Z : vprod vzero v = vzero) by (apply vec3_eq; cbn; ring). rewrite Z in L.
    pose proof (f_equal vx L) as L1. pose proof (f_equal vy L) as L2. pose proof (f_equal vz L) as L3.
    cbn in L1, L2, L3. apply vec3_eq; cbn; lra. }
  destruct (neg_scale_unit u v _ Hu Hv E) as [K|K]; rewrite K in E; rewrite E; cbn; ring.
Qed.

Lemma sun_z_bound t : -10 ^ 7 <= t <= 10 ^ 5 -> 0 < sun_obliquity t < 30.
Proof. intros H. unfold sun_obliquity, sun_days_1900. lra. Qed.

Lemma sun_not_parallel t axis : -10 ^ 7 <= t <= 10 ^ 5 -> unit_vec axis -> 1 / 4 <= vz axis ^ 2 ->
  ~ parallel axis (direction (fst (sun_point t)) (snd (sun_point t))).
Proof.
  intros Ht Hu Hz H. pose proof (sun_z_bound t Ht) as He.
  apply parallel_units in H; [| exact Hu | apply direction_unit].
  rewrite sun_point_direction in H by lra.
  unfold sun_direction, rotate_z, sun_equatorial in H. cbn [vz] in H.
  set (l := deg (sun_ecliptic_longitude t)) in *. set (e := deg (sun_obliquity t)) in *.
  assert (Hs : 0 < sin e < 1 / 2).
  { assert (0 < e < PI / 6) by (unfold e, deg; pose proof PI_RGT_0; split; [nra | replace (PI / 6) with (30 * (PI / 180)) by field; nra]).
    split; [apply sin_gt_0; lra|]. rewrite <- sin_PI6. apply sin_increasing_1; lra. }
  pose proof (sc1 l) as L.
  assert (sin l * sin l <= 1) by nra.
  assert ((sin e * sin l) ^ 2 <= sin e * sin e).
  { replace ((sin e * sin l) ^ 2) with (sin e * sin e * (sin l * sin l)) by ring. nra. }
  nra.
Qed.

(** ** C54 *)
Lemma gsm_frames cfg times dip axis suns bs :
  dipole_to_vec cfg dip = Ok axis -> unit_vec axis -> sun_position times = Ok suns ->
  (forall s, In s suns -> ~ parallel axis (direction (fst s) (snd s))) ->
  basevectors_gsm cfg times dip = Ok bs ->
  Forall2 (fun s b => let '(e1, e2, e3) := b in gsm_frame axis (direction (fst s) (snd s)) e1 e2 e3) suns bs.
Proof.
  intros Hd Hu Hs Hn H. unfold basevectors_gsm in H. rewrite Hd in H. cbn in H. rewrite Hs in H. cbn in H.
  injection H; intros <-. clear H Hs. induction suns as [|s suns IH]; cbn; constructor.
  - exact (gsm_ok axis s Hu (Hn s (or_introl eq_refl))).
  - apply IH. intros; apply Hn; right; assumption.
Qed.

Lemma sm_frames cfg times dip axis suns bs :
  dipole_to_vec cfg dip = Ok axis -> unit_vec axis -> sun_position times = Ok suns ->
  (forall s, In s suns -> ~ parallel axis (direction (fst s) (snd s))) ->
  basevectors_sm cfg times dip = Ok bs ->
  Forall2 (fun s b => let '(e1, e2, e3) := b in sm_frame axis (direction (fst s) (snd s)) e1 e2 e3) suns bs.
Proof.
  intros Hd Hu Hs Hn H. unfold basevectors_sm in H. rewrite Hd in H. cbn in H. rewrite Hs in H. cbn in H.
  injection H; intros <-. clear H Hs. induction suns as [|s suns IH]; cbn; constructor.
  - exact (sm_ok axis s Hu (Hn s (or_introl eq_refl))).
  - apply IH. intros; apply Hn; right; assumption.
Qed.

Lemma mag_frames cfg dip axis :
  dipole_to_vec cfg dip = Ok axis -> unit_vec axis -> ~ parallel zhat axis ->
  exists e1 e2 e3, basevectors_mag cfg dip = Ok (e1, e2, e3) /\ mag_frame axis e1 e2 e3.
Proof.
  intros Hd Hu Hn. unfold basevectors_mag. rewrite Hd. cbn [bind]. do 3 eexists. split; [reflexivity|].
  destruct (mag_ok axis Hu Hn) as (A & B & C). unfold mag_frame. auto.
Qed.

(** The sun and the axis are known: for every time in the range. *)
Lemma gsm_sm_always cfg times dip axis :
  (forall t, In t times -> -10 ^ 7 <= t < 36159.75) ->
  dipole_to_vec cfg dip = Ok axis -> unit_vec axis -> 1 / 4 <= vz axis ^ 2 ->
  exists bg bs, basevectors_gsm cfg times dip = Ok bg /\ basevectors_sm cfg times dip = Ok bs /\
    Forall2 (fun t b => let '(e1, e2, e3) := b in gsm_frame axis (sun_direction t) e1 e2 e3) times bg /\
    Forall2 (fun t b => let '(e1, e2, e3) := b in sm_frame axis (sun_direction t) e1 e2 e3) times bs.
Proof.
  intros Ht Hd Hu Hz.
  assert (Hs : sun_position times = Ok (map sun_point times)) by (apply sun_ok_iff; intros t Hi; apply Ht in Hi; lra).
  exists (map (fun t => gsm_base axis (sun_point t)) times), (map (fun t => sm_base axis (sun_point t)) times).
  unfold basevectors_gsm, basevectors_sm. rewrite Hd. cbn. rewrite Hs. cbn. rewrite !map_map.
  split; [reflexivity|]. split; [reflexivity|]. clear Hs.
  assert (P : forall t, In t times -> let '(e1, e2, e3) := gsm_base axis (sun_point t) in gsm_frame axis (sun_direction t) e1 e2 e3).
  { intros t Hi. apply Ht in Hi. pose proof (sun_z_bound t ltac:(lra)) as B.
    pose proof (gsm_ok axis (sun_point t) Hu (sun_not_parallel t axis ltac:(lra) Hu Hz)) as G.
    rewrite sun_point_direction in G by lra. exact G. }
  assert (P' : forall t, In t times -> let '(e1, e2, e3) := sm_base axis (sun_point t) in sm_frame axis (sun_direction t) e1 e2 e3).
  { intros t Hi. apply Ht in Hi. pose proof (sun_z_bound t ltac:(lra)) as B.
    pose proof (sm_ok axis (sun_point t) Hu (sun_not_parallel t axis ltac:(lra) Hu Hz)) as G.
    rewrite sun_point_direction in G by lra. exact G. }
  clear Ht. split; induction times as [|t times IH]; cbn [map]; constructor.
  - apply (P t). left; reflexivity.
  - apply IH; intros; [apply P | apply P']; right; assumption.
  - apply (P' t). left; reflexivity.
  - apply IH; intros; [apply P | apply P']; right; assumption.
Qed.

(** ** C55, C56 *)
Section TV.
Variables (k : ref_system) (r : string) (cfg : R * R * R) (dip : dipole_arg) (axis : vec3)
          (time : option (list R)) (suns : list (R * R)).
Hypothesis Hr : In r (spellings k).
Hypothesis Hd : dipole_to_vec cfg dip = Ok axis.
Hypothesis Hu : unit_vec axis.
Hypothesis Hn : forall s, In s suns -> nondegenerate k axis (direction (fst s) (snd s)).

Lemma tp_meaning pts inverse : suns_for k time (List.length pts) suns ->
  exists out, transform_points cfg pts time (Some r) inverse dip = Ok out /\
  List.length out = List.length pts /\
  forall i t p t' p' s, nth_error pts i = Some (t, p) -> nth_error out i = Some (t', p') -> nth_error suns i = Some s ->
  exists e1 e2 e3, frame_of k axis (direction (fst s) (snd s)) e1 e2 e3 /\
    0 <= t' <= 180 /\ -180 < p' <= 180 /\
    if inv_of inverse then resolve e1 e2 e3 (direction t' p') = direction t p
    else direction t' p' = resolve e1 e2 e3 (direction t p).
Proof.
  intros Hs. eexists. split; [apply (tp_eq k r cfg dip axis time suns Hr Hd _ _ Hs)|].
  fold (locs k axis suns pts (inv_of inverse)). pose proof Hs as [Hl _].
  split; [apply locs_len; exact Hl|].
  intros i t p t' p' s H1 H2 H3.
  rewrite (locs_nth k axis suns pts (inv_of inverse) i (t, p) s H1 H3) in H2. cbn [fst snd] in H2.
  pose proof (Hn s (nth_error_In _ _ H3)) as Hnd.
  destruct (inv_of inverse).
  - pose proof (elem_inv k axis Hu (t, p) (0, 0) s Hnd) as E. cbn [fst snd] in E.
    destruct (geo_to_base t p (base_for k axis s) true) as [u v]. cbv zeta in E.
    destruct E as (e1 & e2 & e3 & _ & F & A & B & D & _). assert ((u, v) = (t', p')) by congruence.
    injection H; intros; subst u v. exists e1, e2, e3. auto.
  - pose proof (elem_fwd k axis Hu (t, p) (0, 0) s Hnd) as E. cbn [fst snd] in E.
    destruct (geo_to_base t p (base_for k axis s) false) as [u v]. cbv zeta in E.
    destruct E as (e1 & e2 & e3 & _ & F & A & B & D & _). assert ((u, v) = (t', p')) by congruence.
    injection H; intros; subst u v. exists e1, e2, e3. auto.
Qed.

Lemma list_nth_eq {A} (l m : list A) : List.length l = List.length m ->
  (forall i x, nth_error m i = Some x -> nth_error l i = Some x) -> l = m.
Proof.
  revert m; induction l as [|a l IH]; intros [|b m] HL H; cbn in HL; try discriminate; [reflexivity|].
  assert (E := H 0%nat b eq_refl). cbn in E. injection E as ->. f_equal. apply IH; [lia|].
  intros i x Hx. exact (H (S i) x Hx).
Qed.

Lemma tp_round pts i : suns_for k time (List.length pts) suns ->
  (forall p, In p pts -> 0 < fst p < 180 /\ -180 < snd p <= 180) ->
  exists out, transform_points cfg pts time (Some r) (Some i) dip = Ok out /\
    transform_points cfg out time (Some r) (Some (negb i)) dip = Ok pts.
Proof.
  intros Hs Hp. pose proof Hs as [Hl Hs2].
  eexists. split; [apply (tp_eq k r cfg dip axis time suns Hr Hd _ _ Hs)|]. cbn [inv_of].
  fold (locs k axis suns pts i).
  assert (HL : List.length (locs k axis suns pts i) = List.length pts) by (apply locs_len; exact Hl).
  rewrite (tp_eq k r cfg dip axis time suns Hr Hd).
  2: { unfold suns_for. rewrite HL. split; [exact Hl | exact Hs2]. }
  cbn [inv_of]. f_equal. fold (locs k axis suns (locs k axis suns pts i) (negb i)).
  apply list_nth_eq; [rewrite locs_len; lia|].
  intros n p Hpn.
  assert (exists s, nth_error suns n = Some s) as [s Hsn].
  { destruct (nth_error suns n) eqn:E; [eauto|]. apply nth_error_None in E.
    assert (n < List.length pts)%nat by (apply nth_error_Some; congruence). lia. }
  erewrite locs_nth; [| apply locs_nth; eassumption | exact Hsn].
  destruct (Hp p (nth_error_In _ _ Hpn)) as [A B].
  pose proof (elem_round k axis Hu i p (0, 0) s (Hn s (nth_error_In _ _ Hsn)) A B) as [E _]. cbv zeta in E.
  rewrite E. reflexivity.
Qed.

Lemma tv_meaning pts inverse out : suns_for k time (List.length pts) suns ->
  transform_vectors cfg pts time (Some r) inverse dip = Ok out ->
  List.length out = List.length pts /\
  forall i t p bt bp t' p' bt' bp' s,
    nth_error pts i = Some ((t, p), (bt, bp)) -> nth_error out i = Some ((t', p'), (bt', bp')) ->
    nth_error suns i = Some s ->
  exists e1 e2 e3, frame_of k axis (direction (fst s) (snd s)) e1 e2 e3 /\
    0 <= t' <= 180 /\ -180 < p' <= 180 /\
    if inv_of inverse then
      resolve e1 e2 e3 (direction t' p') = direction t p /\
      resolve e1 e2 e3 (tangent t' p' bt' bp') = tangent t p bt bp
    else
      direction t' p' = resolve e1 e2 e3 (direction t p) /\
      tangent t' p' bt' bp' = resolve e1 e2 e3 (tangent t p bt bp).
Proof.
  intros Hs H. destruct (tv_success k r cfg dip axis time suns Hr Hd pts inverse out Hs H) as [HL P].
  split; [exact HL|]. intros i t p bt bp t' p' bt' bp' s H1 H2 H3.
  rewrite (P i (t, p) (bt, bp) s H1 H3) in H2. cbn [fst snd] in H2.
  pose proof (Hn s (nth_error_In _ _ H3)) as Hnd.
  destruct (inv_of inverse).
  - pose proof (elem_inv k axis Hu (t, p) (bt, bp) s Hnd) as E. cbn [fst snd] in E.
    destruct (geo_to_base t p (base_for k axis s) true) as [u v]. cbv zeta in E.
    destruct E as (e1 & e2 & e3 & _ & F & A & B & D & T).
    destruct (vec_at (u, v) (t, p) (base_for k axis s) true (bt, bp)) as [x y].
    injection H2; intros; subst u v x y. exists e1, e2, e3. cbn [fst snd] in T. auto 6.
  - pose proof (elem_fwd k axis Hu (t, p) (bt, bp) s Hnd) as E. cbn [fst snd] in E.
    destruct (geo_to_base t p (base_for k axis s) false) as [u v]. cbv zeta in E.
    destruct E as (e1 & e2 & e3 & _ & F & A & B & D & T).
    destruct (vec_at (t, p) (u, v) (base_for k axis s) false (bt, bp)) as [x y].
    injection H2; intros; subst u v x y. exists e1, e2, e3. cbn [fst snd] in T. auto 6.
Qed.

Lemma tv_lengths pts inverse out : suns_for k time (List.length pts) suns ->
  transform_vectors cfg pts time (Some r) inverse dip = Ok out ->
  Forall2 (fun x y => fst (snd y) ^ 2 + snd (snd y) ^ 2 = fst (snd x) ^ 2 + snd (snd x) ^ 2) pts out.
Proof.
  intros Hs H. destruct (tv_meaning pts inverse out Hs H) as [HL P]. pose proof Hs as [Hl _].
  assert (G : forall (l m : list ((R * R) * (R * R))), List.length m = List.length l ->
    (forall i x y, nth_error l i = Some x -> nth_error m i = Some y -> fst (snd y) ^ 2 + snd (snd y) ^ 2 = fst (snd x) ^ 2 + snd (snd x) ^ 2) ->
    Forall2 (fun x y => fst (snd y) ^ 2 + snd (snd y) ^ 2 = fst (snd x) ^ 2 + snd (snd x) ^ 2) l m).
  { induction l as [|x l IH]; intros [|y m] E Q; cbn in E; try discriminate; constructor.
    - exact (Q 0%nat x y eq_refl eq_refl).
    - apply IH; [lia|]. intros i a b A B. exact (Q (S i) a b A B). }
  apply G; [exact HL|]. intros i [[t p] [bt bp]] [[t' p'] [bt' bp']] Hx Hy. cbn [fst snd].
  assert (exists s, nth_error suns i = Some s) as [s Hsn].
  { destruct (nth_error suns i) eqn:E; [eauto|]. apply nth_error_None in E.
    assert (i < List.length pts)%nat by (apply nth_error_Some; congruence). lia. }
  destruct (P i t p bt bp t' p' bt' bp' s Hx Hy Hsn) as (e1 & e2 & e3 & F & _ & _ & M).
  pose proof (frame_rho _ _ _ _ _ _ F) as Hrho.
  assert (L : vdot (tangent t' p' bt' bp') (tangent t' p' bt' bp') = vdot (tangent t p bt bp) (tangent t p bt bp)).
  { destruct (inv_of inverse); destruct M as [_ M].
    - rewrite <- M, resolve_dot by exact Hrho. reflexivity.
    - rewrite M, resolve_dot by exact Hrho. reflexivity. }
  rewrite !tangent_len in L. lra.
Qed.

Lemma locs_range pts i q : suns_for k time (List.length pts) suns -> In q (locs k axis suns pts i) -> 0 <= fst q <= 180.
Proof.
  intros [Hl _] Hq. apply In_nth_error in Hq. destruct Hq as [n Hq].
  assert (Hlt : (n < List.length pts)%nat).
  { rewrite <- (locs_len k axis suns pts i Hl). apply nth_error_Some. congruence. }
  destruct (nth_error pts n) as [p|] eqn:Ep; [| apply nth_error_None in Ep; lia].
  destruct (nth_error suns n) as [s|] eqn:Es; [| apply nth_error_None in Es; lia].
  rewrite (locs_nth k axis suns pts i n p s Ep Es) in Hq. injection Hq as <-.
  pose proof (Hn s (nth_error_In _ _ Es)) as Hnd.
  destruct i.
  - pose proof (elem_inv k axis Hu p (0, 0) s Hnd) as E.
    destruct (geo_to_base (fst p) (snd p) (base_for k axis s) true). destruct E as (? & ? & ? & _ & _ & A & _). exact A.
  - pose proof (elem_fwd k axis Hu p (0, 0) s Hnd) as E.
    destruct (geo_to_base (fst p) (snd p) (base_for k axis s) false). destruct E as (? & ? & ? & _ & _ & A & _). exact A.
Qed.

(** Success and exceptions, in terms of transform_points. *)
Lemma tv_when pts inverse : suns_for k time (List.length pts) suns -> pts <> [] ->
  (forall p, In p pts -> 0 <= fst (fst p) <= 180) ->
  exists locs', transform_points cfg (map fst pts) time (Some r) inverse dip = Ok locs' /\
  let pole := fun q : R * R => fst q = 0 \/ fst q = 180 in
  ((exists q, In q (map fst pts ++ locs')%list /\ pole q) ->
     transform_vectors cfg pts time (Some r) inverse dip = Err ValueError) /\
  ((forall q, In q (map fst pts ++ locs')%list -> ~ pole q) ->
     exists out, transform_vectors cfg pts time (Some r) inverse dip = Ok out /\ map fst out = locs').
Proof.
  intros Hs Hne Hp. pose proof Hs as [Hl Hs2].
  assert (Hs' : suns_for k time (List.length (map fst pts)) suns) by (rewrite map_length; exact Hs).
  eexists. split; [apply (tp_eq k r cfg dip axis time suns Hr Hd _ _ Hs')|].
  fold (locs k axis suns (map fst pts) (inv_of inverse)). cbv zeta.
  assert (Hrange : forall q, In q (locs k axis suns (map fst pts) (inv_of inverse)) -> 0 <= fst q <= 180).
  { intros q. apply locs_range. exact Hs'. }
  split.
  - intros (q & Hq & Hpole). apply (tv_raises k r cfg dip axis time suns Hr Hd pts inverse Hs Hp Hrange).
    apply in_app_or in Hq. destruct Hq as [Hq|Hq]; right; [left | right].
    + apply in_map_iff in Hq. destruct Hq as (x & <- & Hx). exists x. auto.
    + exists q. auto.
  - intros H.
    assert (Hp1 : forall p, In p pts -> 0 < fst (fst p) < 180).
    { intros p Hpp. pose proof (Hp p Hpp). pose proof (H (fst p) (in_or_app _ _ _ (or_introl (in_map fst _ _ Hpp)))). lra. }
    assert (Hq1 : forall q, In q (locs k axis suns (map fst pts) (inv_of inverse)) -> 0 < fst q < 180).
    { intros q Hq. pose proof (Hrange q Hq). pose proof (H q (in_or_app _ _ _ (or_intror Hq))). lra. }
    destruct (tv_total k r cfg dip axis time suns Hr Hd pts inverse Hs Hne Hp1 Hq1) as [out Eo].
    exists out. split; [exact Eo|].
    destruct (tv_success k r cfg dip axis time suns Hr Hd pts inverse out Hs Eo) as [HL P].
    apply list_nth_eq; [rewrite locs_len; rewrite !map_length; [exact HL | exact Hl]|].
    intros n q Hqn.
    assert (Hlt : (n < List.length (map fst pts))%nat).
    { rewrite <- (locs_len k axis suns (map fst pts) (inv_of inverse)); [apply nth_error_Some; congruence | rewrite map_length; exact Hl]. }
    rewrite map_length in Hlt.
    destruct (nth_error pts n) as [[p B]|] eqn:Ep; [| apply nth_error_None in Ep; lia].
    destruct (nth_error suns n) as [s|] eqn:Es; [| apply nth_error_None in Es; lia].
    rewrite nth_error_map, (P n p B s Ep Es). cbn [option_map fst].
    rewrite (locs_nth k axis suns (map fst pts) (inv_of inverse) n p s) in Hqn; [exact Hqn | | exact Es].
    rewrite nth_error_map, Ep. reflexivity.
Qed.

Lemma tv_round pts i out : suns_for k time (List.length pts) suns ->
  (forall p, In p pts -> 0 < fst (fst p) < 180 /\ -180 < snd (fst p) <= 180) ->
  transform_vectors cfg pts time (Some r) (Some i) dip = Ok out ->
  transform_vectors cfg out time (Some r) (Some (negb i)) dip = Ok pts.
Proof.
  intros Hs Hp H. pose proof Hs as [Hl Hs2].
  destruct (tv_success k r cfg dip axis time suns Hr Hd pts (Some i) out Hs H) as [HL P]. cbn [inv_of] in P.
  assert (Hso : suns_for k time (List.length out) suns) by (unfold suns_for; rewrite HL; split; [exact Hl | exact Hs2]).
  destruct pts as [|p0 pts'] eqn:Epts.
  { exfalso. unfold transform_vectors in H.
    rewrite (ref_bases_eq k r cfg dip axis time _ suns Hr Hd Hs) in H. cbn in H. destruct i; discriminate H. }
  rewrite <- Epts in *. assert (Hne : pts <> []) by (rewrite Epts; discriminate). clear p0 pts' Epts.
  assert (Hne' : out <> []) by (intros ->; cbn in HL; destruct pts; [contradiction | discriminate]).
  (* locations of the way back are the original locations *)
  assert (back : forall n p B s, nth_error pts n = Some (p, B) -> nth_error suns n = Some s ->
     exists q B', nth_error out n = Some (q, B') /\
       geo_to_base (fst q) (snd q) (base_for k axis s) (negb i) = p /\
       vec_at (if negb i then p else q) (if negb i then q else p) (base_for k axis s) (negb i) B' = B).
  { intros n p B s Hpn Hsn. do 2 eexists. split; [apply (P n p B s Hpn Hsn)|].
    destruct (Hp (p, B) (nth_error_In _ _ Hpn)) as [A1 A2]. cbn [fst snd] in A1, A2.
    exact (elem_round k axis Hu i p B s (Hn s (nth_error_In _ _ Hsn)) A1 A2). }
  assert (Eback : locs k axis suns (map fst out) (negb i) = map fst pts).
  { apply list_nth_eq; [rewrite locs_len; rewrite !map_length; lia|].
    intros n p Hpn. rewrite nth_error_map in Hpn.
    destruct (nth_error pts n) as [[p' B]|] eqn:Ep; [|discriminate]. cbn in Hpn. injection Hpn as ->.
    destruct (nth_error suns n) as [s|] eqn:Es.
    2:{ apply nth_error_None in Es. assert (n < List.length pts)%nat by (apply nth_error_Some; congruence). lia. }
    destruct (back n p B s Ep Es) as (q & B' & Eo & E1 & _).
    rewrite (locs_nth k axis suns (map fst out) (negb i) n q s); [rewrite E1; reflexivity | | exact Es].
    rewrite nth_error_map, Eo. reflexivity. }
  (* no pole on the way back, because the first call did not raise *)
  assert (Hout : forall q, In q out -> 0 < fst (fst q) < 180).
  { intros q Hq.
    assert (Efst : map fst out = locs k axis suns (map fst pts) i).
    { apply list_nth_eq; [rewrite locs_len; rewrite !map_length; lia|].
      intros n x Hx.
      assert (Hlt : (n < List.length (map fst pts))%nat).
      { rewrite <- (locs_len k axis suns (map fst pts) i); [apply nth_error_Some; congruence | rewrite map_length; exact Hl]. }
      rewrite map_length in Hlt.
      destruct (nth_error pts n) as [[p B]|] eqn:Ep; [| apply nth_error_None in Ep; lia].
      destruct (nth_error suns n) as [s|] eqn:Es; [| apply nth_error_None in Es; lia].
      rewrite nth_error_map, (P n p B s Ep Es). cbn [option_map fst].
      rewrite (locs_nth k axis suns (map fst pts) i n p s) in Hx; [exact Hx | | exact Es].
      rewrite nth_error_map, Ep. reflexivity. }
    assert (Hin : In (fst q) (locs k axis suns (map fst pts) i)) by (rewrite <- Efst; apply in_map; exact Hq).
    assert (Hs' : suns_for k time (List.length (map fst pts)) suns) by (rewrite map_length; exact Hs).
    pose proof (locs_range (map fst pts) i (fst q) Hs' Hin) as Rg.
    destruct (Req_dec (fst (fst q)) 0) as [Z|Z]; [|destruct (Req_dec (fst (fst q)) 180) as [Z'|Z']; [|lra]].
    all: exfalso;
      assert (Er : transform_vectors cfg pts time (Some r) (Some i) dip = Err ValueError);
      [ apply (tv_raises k r cfg dip axis time suns Hr Hd pts (Some i) Hs);
        [ intros p Hpp; destruct (Hp p Hpp); lra
        | intros x; apply locs_range; exact Hs'
        | right; right; exists (fst q); auto ]
      | congruence ]. }
  destruct (tv_total k r cfg dip axis time suns Hr Hd out (Some (negb i)) Hso Hne' Hout) as [res Eres].
  { cbn [inv_of]. rewrite Eback. intros q Hq. apply in_map_iff in Hq. destruct Hq as (x & <- & Hx). apply Hp. exact Hx. }
  rewrite Eres. f_equal.
  destruct (tv_success k r cfg dip axis time suns Hr Hd out (Some (negb i)) res Hso Eres) as [HL2 P2]. cbn [inv_of] in P2.
  apply list_nth_eq; [lia|]. intros n [p B] Hpn.
  destruct (nth_error suns n) as [s|] eqn:Es.
  2:{ apply nth_error_None in Es. assert (n < List.length pts)%nat by (apply nth_error_Some; congruence). lia. }
  destruct (back n p B s Hpn Es) as (q & B' & Eo & E1 & E2).
  rewrite (P2 n q B' s Eo Es). rewrite E1, E2. reflexivity.
Qed.
End TV.

Lemma unknown_reference cfg pts vpts time r inverse dip :
  (forall k, ~ In r (spellings k)) ->
  transform_points cfg pts time (Some r) inverse dip = Err ValueError /\
  transform_vectors cfg vpts time (Some r) inverse dip = Err ValueError.
Proof.
  intros H. unfold transform_points, transform_vectors, reference_bases. cbn [str_opt].
  destruct (String.eqb (lower r) "gsm") eqn:E1.
  { apply String.eqb_eq in E1. apply lower_inv_gsm in E1. exfalso. exact (H GSM E1). }
  destruct (String.eqb (lower r) "sm") eqn:E2.
  { apply String.eqb_eq in E2. apply lower_inv_sm in E2. exfalso. exact (H SM E2). }
  destruct (String.eqb (lower r) "mag") eqn:E3.
  { apply String.eqb_eq in E3. apply lower_inv_mag in E3. exfalso. exact (H MAG E3). }
  split; reflexivity.
Qed.

Lemma no_reference cfg pts vpts time inverse dip :
  transform_points cfg pts time None inverse dip = Err ValueError /\
  transform_vectors cfg vpts time None inverse dip = Err ValueError.
Proof. split; reflexivity. Qed.

Lemma geo_to_base_angle e1 e2 e3 t p u q : right_handed_orthonormal e1 e2 e3 -> forall i : bool,
  let '(t', p') := geo_to_base t p (e1, e2, e3) i in
  let '(u', q') := geo_to_base u q (e1, e2, e3) i in
  vdot (direction t' p') (direction u' q') = vdot (direction t p) (direction u q).
Proof.
  intros H i. destruct i.
  - pose proof (geo_to_base_inv t p e1 e2 e3 H) as A. pose proof (geo_to_base_inv u q e1 e2 e3 H) as B.
    destruct (geo_to_base t p (e1, e2, e3) true), (geo_to_base u q (e1, e2, e3) true).
    destruct A as [-> _], B as [-> _]. apply compose_dot. exact H.
  - pose proof (geo_to_base_fwd t p e1 e2 e3 H) as A. pose proof (geo_to_base_fwd u q e1 e2 e3 H) as B.
    destruct (geo_to_base t p (e1, e2, e3) false), (geo_to_base u q (e1, e2, e3) false).
    destruct A as [-> _], B as [-> _]. apply resolve_dot. exact H.
Qed.
