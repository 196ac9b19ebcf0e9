(** C54-C56 at the level of the public functions (lists of elements). *)
From Coq Require Import Reals List Bool String Ascii ZArith Lra Lia Psatz.
From Verif Require Import M_Prelude Spec_Coord M_Coord Spec_CoordApi P_Coord P_Coord2 P_Coord3.
Import ListNotations.
Open Scope R_scope.

Lemma nth_error_combine {A B} (l : list A) (m : list B) i a b :
  nth_error (combine l m) i = Some (a, b) <-> nth_error l i = Some a /\ nth_error m i = Some b.
Proof.
  revert m i; induction l as [|x l IH]; intros m i; cbn.
  - destruct i; cbn; split; [discriminate | intros [H _]; discriminate H | discriminate | intros [H _]; discriminate H].
  - destruct m as [|y m]; cbn.
    + destruct i; cbn; split; try discriminate; intros [_ H]; discriminate H.
    + destruct i; cbn.
      * split; [intros H; injection H; intros; subst; auto | intros [H1 H2]; congruence].
      * apply IH.
Qed.

(** ** extrema of a list *)
Lemma fold_min_spec l x : (fold_left Rmin l x = x \/ In (fold_left Rmin l x) l) /\
  (fold_left Rmin l x <= x /\ forall y, In y l -> fold_left Rmin l x <= y).
Proof.
  revert x; induction l as [|a l IH]; intros x; cbn [fold_left In].
  - repeat split; auto; try lra. intros y [].
  - destruct (IH (Rmin x a)) as ([E|I] & L & M).
    + split.
      * rewrite E. unfold Rmin. destruct (Rle_dec x a); auto.
      * split; [pose proof (Rmin_l x a); lra|].
        intros y [<-|Hy]; [pose proof (Rmin_r x a); lra | apply M; exact Hy].
    + split; [right; right; exact I|].
      split; [pose proof (Rmin_l x a); lra|].
      intros y [<-|Hy]; [pose proof (Rmin_r x a); lra | apply M; exact Hy].
Qed.

Lemma fold_max_spec l x : (fold_left Rmax l x = x \/ In (fold_left Rmax l x) l) /\
  (x <= fold_left Rmax l x /\ forall y, In y l -> y <= fold_left Rmax l x).
Proof.
  revert x; induction l as [|a l IH]; intros x; cbn [fold_left In].
  - repeat split; auto; try lra. intros y [].
  - destruct (IH (Rmax x a)) as ([E|I] & L & M).
    + split.
      * rewrite E. unfold Rmax. destruct (Rle_dec x a); auto.
      * split; [pose proof (Rmax_l x a); lra|].
        intros y [<-|Hy]; [pose proof (Rmax_r x a); lra | apply M; exact Hy].
    + split; [right; right; exact I|].
      split; [pose proof (Rmax_l x a); lra|].
      intros y [<-|Hy]; [pose proof (Rmax_r x a); lra | apply M; exact Hy].
Qed.

(** ** basevectors_use *)
Lemma use_success pts us : basevectors_use pts = Ok us ->
  us = map (fun p => (direction (fst p) (snd p), south (fst p) (snd p), east (snd p))) pts.
Proof.
  unfold basevectors_use. destruct (np_amin _); cbn; [|discriminate].
  destruct (Req_EM_T a 0); [discriminate|]. destruct (np_amax _); cbn; [|discriminate].
  destruct (Req_EM_T a0 PI); [discriminate|]. intros H. injection H. intros <-. apply map_ext. intros. apply use_eq.
Qed.

Lemma use_total pts : pts <> [] -> (forall p, In p pts -> 0 < fst p < 180) ->
  exists us, basevectors_use pts = Ok us.
Proof.
  intros Hn Hp. destruct pts as [|p0 pts]; [contradiction|].
  assert (Hr : forall y, In y (map (fun p => np_radians (fst p)) (p0 :: pts)) -> 0 < y < PI).
  { intros y Hy. apply in_map_iff in Hy. destruct Hy as (q & <- & Hq). apply rad_theta_in. apply Hp. exact Hq. }
  unfold basevectors_use. cbn [map np_amin np_amax bind].
  destruct (fold_min_spec (map (fun p => np_radians (fst p)) pts) (np_radians (fst p0))) as ([E|I] & _).
  - destruct (Req_EM_T _ 0) as [Z|_]; [pose proof (Hr (np_radians (fst p0)) (or_introl eq_refl)); lra|].
    destruct (Req_EM_T _ PI) as [Z|_]; [|eexists; reflexivity].
    destruct (fold_max_spec (map (fun p => np_radians (fst p)) pts) (np_radians (fst p0))) as ([E'|I'] & _).
    + pose proof (Hr (np_radians (fst p0)) (or_introl eq_refl)); lra.
    + pose proof (Hr _ (or_intror I')); lra.
  - destruct (Req_EM_T _ 0) as [Z|_]; [pose proof (Hr _ (or_intror I)); lra|].
    destruct (Req_EM_T _ PI) as [Z|_]; [|eexists; reflexivity].
    destruct (fold_max_spec (map (fun p => np_radians (fst p)) pts) (np_radians (fst p0))) as ([E'|I'] & _).
    + pose proof (Hr (np_radians (fst p0)) (or_introl eq_refl)); lra.
    + pose proof (Hr _ (or_intror I')); lra.
Qed.

Lemma use_raises pts : (forall p, In p pts -> 0 <= fst p <= 180) ->
  (pts = [] \/ exists p, In p pts /\ (fst p = 0 \/ fst p = 180)) -> basevectors_use pts = Err ValueError.
Proof.
  intros Hd [->|(p & Hp & H)]; [reflexivity|].
  destruct pts as [|p0 pts]; [contradiction|].
  assert (Hr : forall y, In y (map (fun p => np_radians (fst p)) (p0 :: pts)) -> 0 <= y <= PI).
  { intros y Hy. apply in_map_iff in Hy. destruct Hy as (q & <- & Hq). destruct (Hd q Hq) as [A B].
    apply radians_le in A. apply radians_le in B. rewrite radians_0, radians_180 in *. lra. }
  assert (Hin : In (np_radians (fst p)) (np_radians (fst p0) :: map (fun p => np_radians (fst p)) pts)).
  { apply in_map_iff with (f := fun p => np_radians (fst p)) (l := p0 :: pts). exists p. auto. }
  unfold basevectors_use. cbn [map np_amin np_amax bind].
  destruct (fold_min_spec (map (fun p => np_radians (fst p)) pts) (np_radians (fst p0))) as (Hmi & Hml & Hm).
  destruct (fold_max_spec (map (fun p => np_radians (fst p)) pts) (np_radians (fst p0))) as (Hxi & Hxl & Hx).
  set (mn := fold_left Rmin _ _) in *. set (mx := fold_left Rmax _ _) in *.
  assert (Bmn : 0 <= mn <= PI) by (apply Hr; destruct Hmi as [->|]; [left; reflexivity | right; assumption]).
  assert (Bmx : 0 <= mx <= PI) by (apply Hr; destruct Hxi as [->|]; [left; reflexivity | right; assumption]).
  destruct (Req_EM_T mn 0); [reflexivity|]. destruct (Req_EM_T mx PI); [reflexivity|exfalso].
  destruct H as [H|H]; rewrite H in Hin.
  - rewrite radians_0 in Hin. destruct Hin as [E|I]; [lra | pose proof (Hm _ I); lra].
  - rewrite radians_180 in Hin. destruct Hin as [E|I]; [lra | pose proof (Hx _ I); lra].
Qed.

(** ** names of reference systems *)
Lemma lower_spelling k r : In r (spellings k) ->
  lower r = match k with GSM => "gsm" | SM => "sm" | MAG => "mag" end%string.
Proof. destruct k; cbn; intuition; subst; reflexivity. Qed.

Lemma lower_g c : lower_char c = "g"%char -> c = "g"%char \/ c = "G"%char.
Proof. destruct c as [[] [] [] [] [] [] [] []]; cbv; intros H; try discriminate H; auto. Qed.
Lemma lower_s c : lower_char c = "s"%char -> c = "s"%char \/ c = "S"%char.
Proof. destruct c as [[] [] [] [] [] [] [] []]; cbv; intros H; try discriminate H; auto. Qed.
Lemma lower_m c : lower_char c = "m"%char -> c = "m"%char \/ c = "M"%char.
Proof. destruct c as [[] [] [] [] [] [] [] []]; cbv; intros H; try discriminate H; auto. Qed.
Lemma lower_a c : lower_char c = "a"%char -> c = "a"%char \/ c = "A"%char.
Proof. destruct c as [[] [] [] [] [] [] [] []]; cbv; intros H; try discriminate H; auto. Qed.

Lemma lower_inv_gsm r : lower r = "gsm"%string -> In r (spellings GSM).
Proof.
  destruct r as [|c1 [|c2 [|c3 [|c4 r]]]]; cbn [lower]; intros H; try discriminate H.
  assert (lower_char c1 = "g" /\ lower_char c2 = "s" /\ lower_char c3 = "m")%char as (H1 & H2 & H3) by (repeat split; congruence).
  destruct (lower_g _ H1) as [-> | ->], (lower_s _ H2) as [-> | ->], (lower_m _ H3) as [-> | ->]; cbn; tauto.
Qed.
Lemma lower_inv_sm r : lower r = "sm"%string -> In r (spellings SM).
Proof.
  destruct r as [|c1 [|c2 [|c3 r]]]; cbn [lower]; intros H; try discriminate H.
  assert (lower_char c1 = "s" /\ lower_char c2 = "m")%char as (H1 & H2) by (repeat split; congruence).
  destruct (lower_s _ H1) as [-> | ->], (lower_m _ H2) as [-> | ->]; cbn; tauto.
Qed.
Lemma lower_inv_mag r : lower r = "mag"%string -> In r (spellings MAG).
Proof.
  destruct r as [|c1 [|c2 [|c3 [|c4 r]]]]; cbn [lower]; intros H; try discriminate H.
  assert (lower_char c1 = "m" /\ lower_char c2 = "a" /\ lower_char c3 = "g")%char as (H1 & H2 & H3) by (repeat split; congruence).
  destruct (lower_m _ H1) as [-> | ->], (lower_a _ H2) as [-> | ->], (lower_g _ H3) as [-> | ->]; cbn; tauto.
Qed.

(** ** reference_bases *)
Definition sun_vec (s : R * R) : vec3 := direction (fst s) (snd s).

Definition mag_base (vec : vec3) : base :=
  let e2 := np_divs (np_cross (V3 0 0 1) vec) (np_norm (np_cross (V3 0 0 1) vec)) in
  (np_cross e2 vec, e2, vec).

Definition base_for (k : ref_system) (vec : vec3) (s : R * R) : base :=
  match k with GSM => gsm_base vec s | SM => sm_base vec s | MAG => mag_base vec end.

Lemma sun_len times suns : sun_position times = Ok suns -> List.length times = List.length suns.
Proof.
  unfold sun_position. destruct (forallb sun_check times); [|discriminate]. intros H; injection H; intros <-.
  symmetry. apply map_length.
Qed.

Lemma repeat_map {A B} (b : B) (l : list A) : repeat b (List.length l) = map (fun _ => b) l.
Proof. induction l; cbn; congruence. Qed.

Lemma ref_bases_eq k r cfg dip vec time n suns :
  In r (spellings k) -> dipole_to_vec cfg dip = Ok vec -> suns_for k time n suns ->
  reference_bases cfg n time (Some r) dip = Ok (map (base_for k vec) suns).
Proof.
  intros Hr Hd [Hl Hs]. unfold reference_bases. cbn [str_opt]. rewrite (lower_spelling k r Hr).
  set (dip' := match dip with DNone => _ | _ => _ end).
  assert (Hd' : dipole_to_vec cfg dip' = Ok vec).
  { rewrite <- Hd. unfold dip'. destruct dip; try reflexivity. destruct cfg as [[g h] q]. reflexivity. }
  clearbody dip'.
  destruct k; cbn [String.eqb Ascii.eqb Bool.eqb].
  - destruct Hs as (times & -> & Hs). unfold basevectors_gsm. rewrite Hd'. cbn. rewrite Hs. cbn.
    rewrite (sun_len _ _ Hs), Hl, Nat.eqb_refl. reflexivity.
  - destruct Hs as (times & -> & Hs). unfold basevectors_sm. rewrite Hd'. cbn. rewrite Hs. cbn.
    rewrite (sun_len _ _ Hs), Hl, Nat.eqb_refl. reflexivity.
  - unfold basevectors_mag. rewrite Hd'. cbn. rewrite <- Hl, repeat_map. reflexivity.
Qed.

Lemma base_for_ok k vec s : unit_vec vec -> nondegenerate k vec (sun_vec s) ->
  let '(e1, e2, e3) := base_for k vec s in frame_of k vec (sun_vec s) e1 e2 e3.
Proof.
  intros Hv Hn. destruct k; cbn [base_for frame_of nondegenerate] in *.
  - exact (gsm_ok vec s Hv Hn).
  - exact (sm_ok vec s Hv Hn).
  - destruct (mag_ok vec Hv Hn) as (A & B & C). unfold mag_base, mag_frame. auto.
Qed.

Lemma frame_rho k vec s e1 e2 e3 : frame_of k vec s e1 e2 e3 -> right_handed_orthonormal e1 e2 e3.
Proof. destruct k; intros H; apply H. Qed.

Lemma base_for_rho k vec s : unit_vec vec -> nondegenerate k vec (sun_vec s) -> is_rho (base_for k vec s).
Proof.
  intros Hv Hn. pose proof (base_for_ok k vec s Hv Hn) as F. destruct (base_for k vec s) as [[e1 e2] e3].
  exact (frame_rho _ _ _ _ _ _ F).
Qed.

(** A frame is determined by its defining directions. *)
Lemma neg_scale_unit u v k : unit_vec u -> unit_vec v -> u = vscale k v -> k = 1 \/ k = -1.
Proof.
  intros Hu Hv ->. unfold unit_vec in *. rewrite vdot_scale_l, vdot_scale_r, Hv in Hu.
  assert ((k - 1) * (k + 1) = 0) by lra. apply Rmult_integral in H. lra.
Qed.

Lemma rho_turn e1 e2 e3 : right_handed_orthonormal e1 e2 e3 ->
  right_handed_orthonormal e3 (vscale (-1) e2) e1.
Proof.
  intros H. destruct (rho_cyc _ _ _ H) as [X Y]. destruct H as (U1 & U2 & U3 & A & B & C & E).
  unfold right_handed_orthonormal, unit_vec in *. rewrite !vdot_scale_r, !vdot_scale_l.
  split; [exact U3|]. split; [rewrite U2; ring|]. split; [exact U1|].
  split; [rewrite (vdot_comm e3 e2), B; ring|]. split; [rewrite (vdot_comm e2 e1), A; ring|].
  split; [rewrite vdot_comm; exact C|]. rewrite <- X. apply vec3_eq; cbn; ring.
Qed.

Lemma frame_unique k axis sun e1 e2 e3 f1 f2 f3 :
  frame_of k axis sun e1 e2 e3 -> frame_of k axis sun f1 f2 f3 ->
  e1 = f1 /\ e2 = f2 /\ e3 = f3.
Proof.
  (* generic: two right-handed frames sharing one axis u, with a vector w
     orthogonal to both second axes and positive on both third *)
  assert (core : forall u a b a' b' w, 
    right_handed_orthonormal u a b -> right_handed_orthonormal u a' b' ->
    vdot w a = 0 -> vdot w a' = 0 -> vdot w b * vdot w b' > 0 -> a = a' /\ b = b').
  { intros u a b a' b' w H H' W W' P.
    assert (Ea : a = compose u a' b' (resolve u a' b' a)) by (symmetry; apply rho_expand; exact H').
    assert (Ew : w = compose u a' b' (resolve u a' b' w)) by (symmetry; apply rho_expand; exact H').
    unfold compose, resolve in Ea, Ew; cbn [vx vy vz] in Ea, Ew.
    assert (Ub : unit_vec a) by apply H.
    pose proof H as (U1 & U2 & U3 & A & B & C & E). pose proof H' as (U1' & U2' & U3' & A' & B' & C' & E').
    rewrite A in Ea. set (c := vdot a' a) in *. set (s := vdot b' a) in *.
    assert (Wa : vdot w a = s * vdot w b').
    { rewrite Ea at 1. rewrite !vdot_add_r, !vdot_scale_r, W'. ring. }
    assert (S0 : s = 0). { rewrite W in Wa. destruct (Rmult_integral s (vdot w b')) as [Q|Q]; [lra | exact Q |].
      rewrite Q, Rmult_0_r in P. lra. }
    assert (Eac : a = vscale c a'). { rewrite Ea at 1. rewrite S0. apply vec3_eq; cbn; ring. }
    destruct (neg_scale_unit a a' c U2 U2' Eac) as [K|K]; rewrite K in Eac.
    - assert (a = a') as -> by (rewrite Eac; apply vec3_eq; cbn; ring).
      split; [reflexivity | congruence].
    - exfalso. assert (b = vscale (-1) b').
      { rewrite <- E, <- E', Eac. apply vec3_eq; cbn; ring. }
      rewrite H0, vdot_scale_r in P. nra. }
  destruct k; cbn [frame_of]; unfold gsm_frame, sm_frame, mag_frame.
  - intros (H & -> & W & P) (H' & -> & W' & P').
    destruct (core sun e2 e3 f2 f3 axis) as [-> ->]; auto; nra.
  - intros (H & -> & W & P) (H' & -> & W' & P').
    (* shared axis third: rotate cyclically (e3, -e2?, e1) *)
    assert (R1 : right_handed_orthonormal axis (vscale (-1) e2) e1).
    { apply rho_turn. exact H. }
    assert (R2 : right_handed_orthonormal axis (vscale (-1) f2) f1).
    { apply rho_turn. exact H'. }
    destruct (core axis (vscale (-1) e2) e1 (vscale (-1) f2) f1 sun) as [E2 ->]; auto.
    + rewrite vdot_scale_r, W. ring.
    + rewrite vdot_scale_r, W'. ring.
    + nra.
    + split; [reflexivity | split; [|reflexivity]].
      apply (f_equal (vscale (-1))) in E2. 
      assert (D : forall v, vscale (-1) (vscale (-1) v) = v) by (intros; apply vec3_eq; cbn; ring).
      rewrite !D in E2. exact E2.
  - intros (H & -> & W & P) (H' & -> & W' & P').
    assert (R1 : right_handed_orthonormal axis (vscale (-1) e2) e1).
    { apply rho_turn. exact H. }
    assert (R2 : right_handed_orthonormal axis (vscale (-1) f2) f1).
    { apply rho_turn. exact H'. }
    destruct (core axis (vscale (-1) e2) e1 (vscale (-1) f2) f1 zhat) as [E2 ->]; auto.
    + rewrite vdot_scale_r, W. ring.
    + rewrite vdot_scale_r, W'. ring.
    + nra.
    + split; [reflexivity | split; [|reflexivity]].
      apply (f_equal (vscale (-1))) in E2. 
      assert (D : forall v, vscale (-1) (vscale (-1) v) = v) by (intros; apply vec3_eq; cbn; ring).
      rewrite !D in E2. exact E2.
Qed.
