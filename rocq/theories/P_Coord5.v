(** transform_points and transform_vectors. *)
From Coq Require Import Reals List Bool String Ascii ZArith Lra Lia Psatz.
From Verif Require Import M_Prelude Spec_Coord M_Coord Spec_CoordApi P_Coord P_Coord2 P_Coord3 P_Coord4.
Import ListNotations.
Open Scope R_scope.

Section Fixed.
Variables (k : ref_system) (r : string) (cfg : R * R * R) (dip : dipole_arg) (vec : vec3)
          (time : option (list R)) (suns : list (R * R)).
Hypothesis Hr : In r (spellings k).
Hypothesis Hd : dipole_to_vec cfg dip = Ok vec.

Let bs := map (base_for k vec) suns.

Lemma tp_eq pts inv : suns_for k time (List.length pts) suns ->
  transform_points cfg pts time (Some r) inv dip =
  Ok (map (fun pb => geo_to_base (fst (fst pb)) (snd (fst pb)) (snd pb) (inv_of inv)) (combine pts bs)).
Proof.
  intros Hs. unfold transform_points. rewrite (ref_bases_eq k r cfg dip vec time _ suns Hr Hd Hs). reflexivity.
Qed.

Definition locs (pts : list (R * R)) (i : bool) : list (R * R) :=
  map (fun pb => geo_to_base (fst (fst pb)) (snd (fst pb)) (snd pb) i) (combine pts bs).

Lemma locs_len pts i : List.length suns = List.length pts -> List.length (locs pts i) = List.length pts.
Proof. intros H. unfold locs, bs. rewrite map_length, combine_length, map_length. lia. Qed.

Lemma locs_nth pts i n p s : nth_error pts n = Some p -> nth_error suns n = Some s ->
  nth_error (locs pts i) n = Some (geo_to_base (fst p) (snd p) (base_for k vec s) i).
Proof.
  intros Hp Hs. unfold locs. rewrite nth_error_map.
  assert (E : nth_error (combine pts bs) n = Some (p, base_for k vec s)).
  { apply nth_error_combine. split; [exact Hp|]. unfold bs. rewrite nth_error_map, Hs. reflexivity. }
  rewrite E. reflexivity.
Qed.

(** Components produced at one element. *)
Definition vec_at (geo ref : R * R) (b : base) (i : bool) (B : R * R) : R * R :=
  let m := point_matrix geo ref b in
  let '(_, r2, r3) := if i then transpose m else m in
  (vy r2 * fst B + vz r2 * snd B, vy r3 * fst B + vz r3 * snd B).

Lemma tv_success pts inv out : suns_for k time (List.length pts) suns ->
  transform_vectors cfg pts time (Some r) inv dip = Ok out ->
  let i := inv_of inv in
  List.length out = List.length pts /\
  forall n p B s, nth_error pts n = Some (p, B) -> nth_error suns n = Some s ->
    let b := base_for k vec s in
    let q := geo_to_base (fst p) (snd p) b i in
    nth_error out n = Some (q, vec_at (if i then q else p) (if i then p else q) b i B).
Proof.
  intros Hs. pose proof Hs as [Hl _]. unfold transform_vectors.
  rewrite (ref_bases_eq k r cfg dip vec time _ suns Hr Hd Hs). cbn [bind]. fold bs.
  change (match inv with Some i => i | None => false end) with (inv_of inv).
  unfold matrix_geo_to_base. fold (locs (map fst pts) (inv_of inv)).
  set (i := inv_of inv). cbv zeta.
  set (other := locs (map fst pts) i).
  set (geo := if i then other else map fst pts). set (ref := if i then map fst pts else other).
  destruct (basevectors_use geo) as [us1|] eqn:E1; cbn [bind]; [|discriminate].
  destruct (basevectors_use ref) as [us2|] eqn:E2; cbn [bind]; [|discriminate].
  apply use_success in E1. apply use_success in E2. subst us1 us2.
  set (Rs := map _ (combine (combine _ bs) _)).
  set (loc := if i then geo else ref).
  assert (Hother : List.length other = List.length pts).
  { unfold other. rewrite locs_len; rewrite map_length; [reflexivity | exact Hl]. }
  assert (Hloc : loc = other) by (unfold loc, geo, ref; destruct i; reflexivity).
  assert (Hbs : List.length bs = List.length pts) by (unfold bs; rewrite map_length; exact Hl).
  assert (HRs : List.length Rs = List.length pts).
  { unfold Rs. rewrite map_length, !combine_length, !map_length. unfold geo, ref.
    destruct i; rewrite ?map_length; lia. }
  intros H.
  assert (Eout : out = map (fun pm =>
        let '(p, (loc, m)) := pm in
        let '(_, (B_theta, B_phi)) := p in
        let '(_, r2, r3) := m in
        (loc, (vy r2 * B_theta + vz r2 * B_phi, vy r3 * B_theta + vz r3 * B_phi)))
      (combine pts (combine other (if i then map transpose Rs else Rs)))).
  { destruct i; cbn [bind] in H; injection H; intros <-; unfold geo, ref; reflexivity. }
  clear H. subst out. split.
  - rewrite map_length, !combine_length. destruct i; rewrite ?map_length; lia.
  - intros n p B s Hp Hsn. rewrite nth_error_map.
    assert (Hpf : nth_error (map fst pts) n = Some p) by (rewrite nth_error_map, Hp; reflexivity).
    assert (Ho : nth_error other n = Some (geo_to_base (fst p) (snd p) (base_for k vec s) i))
      by (apply locs_nth; assumption).
    set (q := geo_to_base (fst p) (snd p) (base_for k vec s) i) in *.
    assert (Hg : nth_error geo n = Some (if i then q else p)) by (unfold geo; destruct i; assumption).
    assert (Hf : nth_error ref n = Some (if i then p else q)) by (unfold ref; destruct i; assumption).
    assert (Hb : nth_error bs n = Some (base_for k vec s)) by (unfold bs; rewrite nth_error_map, Hsn; reflexivity).
    assert (HR : nth_error Rs n = Some (point_matrix (if i then q else p) (if i then p else q) (base_for k vec s))).
    { unfold Rs. rewrite nth_error_map.
      match goal with |- context[nth_error (combine (combine ?A ?B) ?C) n] =>
        assert (EC : nth_error (combine (combine A B) C) n =
          Some ((use_base (fst (if i then q else p)) (snd (if i then q else p)), base_for k vec s),
                use_base (fst (if i then p else q)) (snd (if i then p else q)))) end.
      { apply nth_error_combine. split; [apply nth_error_combine; split; [|exact Hb]|].
        - rewrite nth_error_map, Hg. reflexivity.
        - rewrite nth_error_map, Hf. reflexivity. }
      etransitivity; [apply (f_equal (option_map _) EC) | reflexivity]. }
    assert (EC : nth_error (combine pts (combine other (if i then map transpose Rs else Rs))) n =
      Some ((p, B), (q, (if i then transpose else fun m => m) (point_matrix (if i then q else p) (if i then p else q) (base_for k vec s))))).
    { apply nth_error_combine. split; [exact Hp|]. apply nth_error_combine. split; [exact Ho|].
      destruct i; [rewrite nth_error_map, HR; reflexivity | exact HR]. }
    etransitivity; [apply (f_equal (option_map _) EC) |]. cbn [option_map]. unfold vec_at. destruct B as [bt bp].
    destruct i; cbn [fst snd].
    + destruct (transpose (point_matrix q p (base_for k vec s))) as [[r1 r2] r3]. reflexivity.
    + destruct (point_matrix p q (base_for k vec s)) as [[r1 r2] r3]. reflexivity.
Qed.

(** Exceptions: only poles of the input or of the image. *)
Lemma tv_total pts inv : suns_for k time (List.length pts) suns -> pts <> [] ->
  (forall p, In p pts -> 0 < fst (fst p) < 180) ->
  (forall q, In q (locs (map fst pts) (inv_of inv)) -> 0 < fst q < 180) ->
  exists out, transform_vectors cfg pts time (Some r) inv dip = Ok out.
Proof.
  intros Hs Hne Hp Hq. pose proof Hs as [Hl _]. unfold transform_vectors.
  rewrite (ref_bases_eq k r cfg dip vec time _ suns Hr Hd Hs). cbn [bind]. fold bs.
  change (match inv with Some i => i | None => false end) with (inv_of inv).
  unfold matrix_geo_to_base. fold (locs (map fst pts) (inv_of inv)). set (i := inv_of inv) in *. cbv zeta.
  assert (N1 : map fst pts <> []) by (destruct pts; [contradiction | discriminate]).
  assert (N2 : locs (map fst pts) i <> []).
  { intros E. apply (f_equal (@List.length _)) in E. rewrite locs_len in E; rewrite map_length in *; [|exact Hl].
    destruct pts; [contradiction | discriminate]. }
  destruct (use_total (map fst pts) N1) as [u1 E1].
  { intros x Hx. apply in_map_iff in Hx. destruct Hx as (y & <- & Hy). apply Hp. exact Hy. }
  destruct (use_total (locs (map fst pts) i) N2 Hq) as [u2 E2].
  destruct i; rewrite E1, E2; cbn [bind]; eexists; reflexivity.
Qed.

Lemma tv_raises pts inv : suns_for k time (List.length pts) suns ->
  (forall p, In p pts -> 0 <= fst (fst p) <= 180) ->
  (forall q, In q (locs (map fst pts) (inv_of inv)) -> 0 <= fst q <= 180) ->
  (pts = [] \/ (exists p, In p pts /\ (fst (fst p) = 0 \/ fst (fst p) = 180)) \/
   (exists q, In q (locs (map fst pts) (inv_of inv)) /\ (fst q = 0 \/ fst q = 180))) ->
  transform_vectors cfg pts time (Some r) inv dip = Err ValueError.
Proof.
  intros Hs Hp Hq H. pose proof Hs as [Hl _]. unfold transform_vectors.
  rewrite (ref_bases_eq k r cfg dip vec time _ suns Hr Hd Hs). cbn [bind]. fold bs.
  change (match inv with Some i => i | None => false end) with (inv_of inv).
  unfold matrix_geo_to_base. fold (locs (map fst pts) (inv_of inv)). set (i := inv_of inv) in *. cbv zeta.
  assert (Hp' : forall x, In x (map fst pts) -> 0 <= fst x <= 180).
  { intros x Hx. apply in_map_iff in Hx. destruct Hx as (y & <- & Hy). apply Hp. exact Hy. }
  assert (all_or : forall l : list (R * R), (forall x, In x l -> 0 <= fst x <= 180) ->
    (exists us, basevectors_use l = Ok us) \/ basevectors_use l = Err ValueError).
  { intros l Hl'. destruct l as [|x l']; [right; reflexivity|].
    destruct (Exists_dec (fun p => fst p = 0 \/ fst p = 180) (x :: l')) as [X|X].
    - intros p. destruct (Req_EM_T (fst p) 0); [left; auto|]. destruct (Req_EM_T (fst p) 180); [left; auto | right; tauto].
    - right. apply use_raises; [exact Hl'|]. right. apply Exists_exists in X. exact X.
    - left. apply use_total; [discriminate|]. intros p Hpp. pose proof (Hl' p Hpp).
      assert (~ (fst p = 0 \/ fst p = 180)). { intros Y. apply X. apply Exists_exists. exists p. auto. }
      lra. }
  assert (S : basevectors_use (map fst pts) = Err ValueError \/ basevectors_use (locs (map fst pts) i) = Err ValueError).
  { destruct H as [->|[(p & A & B)|(q & A & B)]].
    - left. reflexivity.
    - left. apply use_raises; [exact Hp'|]. right. exists (fst p). split; [apply in_map; exact A | exact B].
    - right. apply use_raises; [exact Hq|]. right. exists q. auto. }
  destruct i; cbn [bind].
  - destruct S as [S|S].
    + destruct (all_or _ Hq) as [[us Eu]|Eu]; rewrite Eu; cbn [bind]; [rewrite S|]; reflexivity.
    + rewrite S. reflexivity.
  - destruct S as [S|S].
    + rewrite S. reflexivity.
    + destruct (all_or _ Hp') as [[us Eu]|Eu]; rewrite Eu; cbn [bind]; [rewrite S|]; reflexivity.
Qed.

(** ** Meaning of one element *)
Hypothesis Hu : unit_vec vec.

Lemma elem_fwd p B s : nondegenerate k vec (sun_vec s) ->
  let '(t', p') := geo_to_base (fst p) (snd p) (base_for k vec s) false in
  let B' := vec_at p (t', p') (base_for k vec s) false B in
  exists e1 e2 e3, base_for k vec s = (e1, e2, e3) /\ frame_of k vec (sun_vec s) e1 e2 e3 /\
    0 <= t' <= 180 /\ -180 < p' <= 180 /\
    direction t' p' = resolve e1 e2 e3 (direction (fst p) (snd p)) /\
    tangent t' p' (fst B') (snd B') = resolve e1 e2 e3 (tangent (fst p) (snd p) (fst B) (snd B)).
Proof.
  intros Hn. pose proof (base_for_ok k vec s Hu Hn) as F.
  destruct (base_for k vec s) as [[e1 e2] e3] eqn:Eb.
  pose proof (frame_rho _ _ _ _ _ _ F) as H.
  pose proof (geo_to_base_fwd (fst p) (snd p) e1 e2 e3 H) as G.
  destruct (geo_to_base (fst p) (snd p) (e1, e2, e3) false) as [t' p']. destruct G as (D & R1 & R2).
  cbv zeta. exists e1, e2, e3. repeat (split; [tauto|]).
  pose proof (tangent_fwd (fst p) (snd p) t' p' e1 e2 e3 (fst B) (snd B) H D) as T. cbv zeta in T.
  rewrite <- T. unfold vec_at. rewrite matmul_entries. cbn [fst snd vx vy vz]. reflexivity.
Qed.

Lemma elem_inv p B s : nondegenerate k vec (sun_vec s) ->
  let '(t', p') := geo_to_base (fst p) (snd p) (base_for k vec s) true in
  let B' := vec_at (t', p') p (base_for k vec s) true B in
  exists e1 e2 e3, base_for k vec s = (e1, e2, e3) /\ frame_of k vec (sun_vec s) e1 e2 e3 /\
    0 <= t' <= 180 /\ -180 < p' <= 180 /\
    resolve e1 e2 e3 (direction t' p') = direction (fst p) (snd p) /\
    resolve e1 e2 e3 (tangent t' p' (fst B') (snd B')) = tangent (fst p) (snd p) (fst B) (snd B).
Proof.
  intros Hn. pose proof (base_for_ok k vec s Hu Hn) as F.
  destruct (base_for k vec s) as [[e1 e2] e3] eqn:Eb.
  pose proof (frame_rho _ _ _ _ _ _ F) as H.
  pose proof (geo_to_base_inv (fst p) (snd p) e1 e2 e3 H) as G.
  destruct (geo_to_base (fst p) (snd p) (e1, e2, e3) true) as [t' p']. destruct G as (D & R1 & R2).
  cbv zeta. exists e1, e2, e3. split; [reflexivity|]. split; [exact F|]. split; [exact R1|]. split; [exact R2|].
  split; [rewrite D; apply resolve_compose; exact H|].
  pose proof (tangent_inv t' p' (fst p) (snd p) e1 e2 e3 (fst B) (snd B) H D) as T. cbv zeta in T.
  unfold vec_at. rewrite matmul_entries. unfold transpose, cols_of. cbn [fst snd vx vy vz].
  rewrite T. apply resolve_compose. exact H.
Qed.

(** round trip at one element *)
Lemma elem_round i p B s : nondegenerate k vec (sun_vec s) -> 0 < fst p < 180 -> -180 < snd p <= 180 ->
  let b := base_for k vec s in
  let q := geo_to_base (fst p) (snd p) b i in
  let B' := vec_at (if i then q else p) (if i then p else q) b i B in
  geo_to_base (fst q) (snd q) b (negb i) = p /\
  vec_at (if negb i then p else q) (if negb i then q else p) b (negb i) B' = B.
Proof.
  intros Hn Ht Hp b q B'.
  assert (Eq : geo_to_base (fst q) (snd q) b (negb i) = p).
  { unfold q, b. pose proof (base_for_rho k vec s Hu Hn) as Hrho.
    destruct (base_for k vec s) as [[e1 e2] e3]. cbn [is_rho] in Hrho.
    pose proof (geo_roundtrip (fst p) (snd p) e1 e2 e3 i Hrho) as G.
    destruct (geo_to_base (fst p) (snd p) (e1, e2, e3) i) as [t' p']. cbn [fst snd].
    destruct (geo_to_base t' p' (e1, e2, e3) (negb i)) as [t'' p'']. destruct G as [_ G].
    rewrite (G Ht Hp). destruct p; reflexivity. }
  split; [exact Eq|].
  destruct i; cbn [negb] in *.
  - pose proof (elem_inv p B s Hn) as A. fold b q in A. destruct q as [t' p'] eqn:E.
    cbv zeta in A. destruct A as (e1 & e2 & e3 & Eb & F & _ & _ & D & T). unfold B' in *.
    set (C := vec_at (t', p') p b true B) in *.
    pose proof (elem_fwd (t', p') C s Hn) as A. fold b in A. cbn [fst snd] in A, Eq. rewrite Eq in A.
    destruct p as [t0 p0]. cbv zeta in A. destruct A as (f1 & f2 & f3 & Eb' & _ & _ & _ & D' & T').
    fold b in Eb, Eb'. assert ((f1, f2, f3) = (e1, e2, e3)) by congruence. injection H; intros; subst f1 f2 f3.
    cbn [fst snd] in *. rewrite T in T'. apply tangent_inj in T'. destruct T' as [X Y].
    rewrite (surjective_pairing (vec_at _ _ _ _ C)), X, Y. destruct B; reflexivity.
  - pose proof (elem_fwd p B s Hn) as A. fold b q in A. destruct q as [t' p'] eqn:E.
    cbv zeta in A. destruct A as (e1 & e2 & e3 & Eb & F & _ & _ & D & T). unfold B' in *.
    set (C := vec_at p (t', p') b false B) in *.
    pose proof (elem_inv (t', p') C s Hn) as A. fold b in A. cbn [fst snd] in A, Eq. rewrite Eq in A.
    destruct p as [t0 p0]. cbv zeta in A. destruct A as (f1 & f2 & f3 & Eb' & _ & _ & _ & D' & T').
    fold b in Eb, Eb'. assert ((f1, f2, f3) = (e1, e2, e3)) by congruence. injection H; intros; subst f1 f2 f3.
    cbn [fst snd] in *. rewrite T in T'.
    apply (f_equal (compose e1 e2 e3)) in T'. rewrite !rho_expand in T' by exact (frame_rho _ _ _ _ _ _ F).
    apply tangent_inj in T'. destruct T' as [X Y].
    rewrite (surjective_pairing (vec_at _ _ _ _ C)), X, Y. destruct B; reflexivity.
Qed.

End Fixed.
