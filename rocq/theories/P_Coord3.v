(** C54-C56: frames, rotation of points and vectors. *)
From Coq Require Import Reals List Bool String Ascii ZArith Lra Lia Psatz.
From Verif Require Import M_Prelude Spec_Coord M_Coord P_Coord P_Coord2.
Import ListNotations.
Open Scope R_scope.

Definition compose (e1 e2 e3 w : vec3) : vec3 :=
  vadd (vadd (vscale (vx w) e1) (vscale (vy w) e2)) (vscale (vz w) e3).

Lemma rho_cyc e1 e2 e3 : right_handed_orthonormal e1 e2 e3 ->
  vprod e2 e3 = e1 /\ vprod e3 e1 = e2.
Proof.
  intros (U1 & U2 & U3 & A & B & C & E). split.
  - rewrite <- E, vprod_comm, lagrange, U2, A. apply vec3_eq; cbn; ring.
  - rewrite <- E, lagrange, U1, (vdot_comm e2 e1), A. apply vec3_eq; cbn; ring.
Qed.

Lemma rho_expand e1 e2 e3 v : right_handed_orthonormal e1 e2 e3 ->
  compose e1 e2 e3 (resolve e1 e2 e3 v) = v.
Proof.
  intros H. destruct (rho_cyc _ _ _ H) as [H1 H2]. destruct H as (U1 & U2 & U3 & A & B & C & E).
  (* e3 x (v x e3) = v - (e3.v) e3 *)
  assert (P : vprod e3 (vprod v e3) = vadd v (vscale (- vdot e3 v) e3)).
  { rewrite vprod_comm, lagrange, U3, (vdot_comm v e3). apply vec3_eq; cbn; ring. }
  assert (Q : vprod v e3 = vadd (vscale (vdot e2 v) e1) (vscale (- vdot e1 v) e2)).
  { rewrite <- E, vprod_comm, lagrange. apply vec3_eq; cbn; ring. }
  rewrite Q in P.
  assert (S : vprod e3 (vadd (vscale (vdot e2 v) e1) (vscale (- vdot e1 v) e2)) =
              vadd (vscale (vdot e2 v) (vprod e3 e1)) (vscale (vdot e1 v) (vprod e2 e3))).
  { apply vec3_eq; cbn; ring. }
  rewrite S, H1, H2 in P. unfold compose, resolve; cbn [vx vy vz].
  set (d1 := vdot e1 v) in *. set (d2 := vdot e2 v) in *. set (d3 := vdot e3 v) in *. clearbody d1 d2 d3.
  apply (f_equal (fun w => vadd w (vscale d3 e3))) in P.
  transitivity (vadd (vadd (vscale d2 e2) (vscale d1 e1)) (vscale d3 e3)).
  - apply vec3_eq; cbn; ring.
  - rewrite P. apply vec3_eq; cbn; ring.
Qed.

Lemma vdot_add_r u v w : vdot u (vadd v w) = vdot u v + vdot u w.
Proof. unfold vdot; cbn; ring. Qed.
Lemma vdot_scale_r u k v : vdot u (vscale k v) = k * vdot u v.
Proof. unfold vdot; cbn; ring. Qed.
Lemma vdot_add_l u v w : vdot (vadd v w) u = vdot v u + vdot w u.
Proof. unfold vdot; cbn; ring. Qed.
Lemma vdot_scale_l u k v : vdot (vscale k v) u = k * vdot v u.
Proof. unfold vdot; cbn; ring. Qed.

Lemma resolve_compose e1 e2 e3 w : right_handed_orthonormal e1 e2 e3 ->
  resolve e1 e2 e3 (compose e1 e2 e3 w) = w.
Proof.
  intros (U1 & U2 & U3 & A & B & C & E). unfold resolve, compose.
  rewrite !vdot_add_r, !vdot_scale_r.
  rewrite (vdot_comm e1 e3), (vdot_comm e2 e1), (vdot_comm e3 e2), A, B, C.
  rewrite (U1 : vdot e1 e1 = 1), (U2 : vdot e2 e2 = 1), (U3 : vdot e3 e3 = 1).
  apply vec3_eq; cbn; ring.
Qed.

Lemma resolve_dot e1 e2 e3 u v : right_handed_orthonormal e1 e2 e3 ->
  vdot (resolve e1 e2 e3 u) (resolve e1 e2 e3 v) = vdot u v.
Proof.
  intros H. rewrite <- (rho_expand e1 e2 e3 v H) at 2.
  unfold compose. rewrite !vdot_add_r, !vdot_scale_r. unfold resolve; cbn.
  rewrite (vdot_comm u e1), (vdot_comm u e2), (vdot_comm u e3). unfold vdot; cbn. ring.
Qed.

Lemma compose_dot e1 e2 e3 u v : right_handed_orthonormal e1 e2 e3 ->
  vdot (compose e1 e2 e3 u) (compose e1 e2 e3 v) = vdot u v.
Proof.
  intros H. rewrite <- (resolve_compose e1 e2 e3 u H) at 2.
  rewrite <- (resolve_compose e1 e2 e3 v H) at 2. symmetry. apply resolve_dot. exact H.
Qed.

Lemma resolve_lin e1 e2 e3 a u b v :
  resolve e1 e2 e3 (vadd (vscale a u) (vscale b v)) =
  vadd (vscale a (resolve e1 e2 e3 u)) (vscale b (resolve e1 e2 e3 v)).
Proof. unfold resolve. rewrite !vdot_add_r, !vdot_scale_r. reflexivity. Qed.

Lemma compose_dot_resolve e1 e2 e3 u w : vdot (compose e1 e2 e3 w) u = vdot w (resolve e1 e2 e3 u).
Proof. unfold compose. rewrite !vdot_add_l, !vdot_scale_l. unfold resolve, vdot at 4; cbn. reflexivity. Qed.

(** ** geo_to_base *)
Definition is_rho (b : base) : Prop := let '(e1, e2, e3) := b in right_handed_orthonormal e1 e2 e3.

Lemma geo_to_base_fwd t p e1 e2 e3 : right_handed_orthonormal e1 e2 e3 ->
  let '(t', p') := geo_to_base t p (e1, e2, e3) false in
  direction t' p' = resolve e1 e2 e3 (direction t p) /\ 0 <= t' <= 180 /\ -180 < p' <= 180.
Proof.
  intros H. unfold geo_to_base. rewrite spherical_direction. cbv zeta.
  set (w := V3 _ _ _).
  assert (E : w = resolve e1 e2 e3 (direction t p)) by reflexivity.
  assert (U : unit_vec w).
  { rewrite E. unfold unit_vec. rewrite resolve_dot by exact H. apply direction_unit. }
  pose proof (direction_of_unit w U) as D. pose proof (theta_range w) as T. pose proof (phi_range w) as P.
  destruct (cartesian_to_spherical w) as [[r t'] p']. cbn [fst snd] in *.
  rewrite D, E. auto.
Qed.

Lemma geo_to_base_inv t p e1 e2 e3 : right_handed_orthonormal e1 e2 e3 ->
  let '(t', p') := geo_to_base t p (e1, e2, e3) true in
  direction t' p' = compose e1 e2 e3 (direction t p) /\ 0 <= t' <= 180 /\ -180 < p' <= 180.
Proof.
  intros H. unfold geo_to_base. rewrite spherical_direction. cbv zeta.
  set (w := V3 _ _ _).
  assert (E : w = compose e1 e2 e3 (direction t p)).
  { unfold w, compose. set (d := direction t p). apply vec3_eq; cbn; ring. }
  assert (U : unit_vec w).
  { rewrite E. unfold unit_vec. rewrite compose_dot by exact H. apply direction_unit. }
  pose proof (direction_of_unit w U) as D. pose proof (theta_range w) as T. pose proof (phi_range w) as P.
  destruct (cartesian_to_spherical w) as [[r t'] p']. cbn [fst snd] in *.
  rewrite D, E. auto.
Qed.

(** colatitude strictly inside is visible in the direction *)
Lemma direction_pole t p : 0 <= t <= 180 -> direction t p = zhat \/ direction t p = vscale (-1) zhat -> t = 0 \/ t = 180.
Proof.
  intros Ht [E|E]; apply (f_equal vz) in E; cbn in E.
  - left. apply cos_deg_inj; [lra|lra|]. rewrite deg_0, cos_0. exact E.
  - right. apply cos_deg_inj; [lra|lra|]. rewrite deg_180, cos_PI. lra.
Qed.

Lemma direction_at_0 p : direction 0 p = zhat.
Proof. unfold direction, zhat. rewrite deg_0, sin_0, cos_0. apply vec3_eq; cbn; ring. Qed.
Lemma direction_at_180 p : direction 180 p = vscale (-1) zhat.
Proof. unfold direction, zhat. rewrite deg_180, sin_PI, cos_PI. apply vec3_eq; cbn; ring. Qed.

Lemma direction_inj' t p t' p' : 0 < t < 180 -> -180 < p <= 180 -> 0 <= t' <= 180 -> -180 < p' <= 180 ->
  direction t' p' = direction t p -> (t', p') = (t, p).
Proof.
  intros Ht Hp Ht' Hp' E. symmetry. apply direction_inj; auto.
  assert (t' <> 0 /\ t' <> 180); [| lra].
  split; intros ->.
  - rewrite direction_at_0 in E. destruct (direction_pole t p) as [|]; auto; lra.
  - rewrite direction_at_180 in E. destruct (direction_pole t p) as [|]; auto; lra.
Qed.

Lemma geo_roundtrip t p e1 e2 e3 (i : bool) : right_handed_orthonormal e1 e2 e3 ->
  let '(t', p') := geo_to_base t p (e1, e2, e3) i in
  let '(t'', p'') := geo_to_base t' p' (e1, e2, e3) (negb i) in
  direction t'' p'' = direction t p /\ (0 < t < 180 -> -180 < p <= 180 -> (t'', p'') = (t, p)).
Proof.
  intros H. destruct i; cbn [negb].
  - pose proof (geo_to_base_inv t p e1 e2 e3 H) as A.
    destruct (geo_to_base t p (e1, e2, e3) true) as [t' p']. destruct A as (D & _ & _).
    pose proof (geo_to_base_fwd t' p' e1 e2 e3 H) as B.
    destruct (geo_to_base t' p' (e1, e2, e3) false) as [t'' p'']. destruct B as (D' & R1 & R2).
    assert (E : direction t'' p'' = direction t p) by (rewrite D', D; apply resolve_compose; exact H).
    split; [exact E|]. intros. apply direction_inj'; auto.
  - pose proof (geo_to_base_fwd t p e1 e2 e3 H) as A.
    destruct (geo_to_base t p (e1, e2, e3) false) as [t' p']. destruct A as (D & _ & _).
    pose proof (geo_to_base_inv t' p' e1 e2 e3 H) as B.
    destruct (geo_to_base t' p' (e1, e2, e3) true) as [t'' p'']. destruct B as (D' & R1 & R2).
    assert (E : direction t'' p'' = direction t p) by (rewrite D', D; apply rho_expand; exact H).
    split; [exact E|]. intros. apply direction_inj'; auto.
Qed.

(** ** the rotation matrix at one point *)
Definition point_matrix (geo ref : R * R) (b : base) : mat3 :=
  matmul (rows_of (use_base (fst ref) (snd ref))) (matmul (rows_of b) (cols_of (use_base (fst geo) (snd geo)))).

Lemma matmul_entries geo ref e1 e2 e3 :
  let d := direction (fst geo) (snd geo) in let s := south (fst geo) (snd geo) in let e := east (snd geo) in
  let d' := direction (fst ref) (snd ref) in let s' := south (fst ref) (snd ref) in let e' := east (snd ref) in
  let rs := resolve e1 e2 e3 in
  point_matrix geo ref (e1, e2, e3) =
  (V3 (vdot d' (rs d)) (vdot d' (rs s)) (vdot d' (rs e)),
   V3 (vdot s' (rs d)) (vdot s' (rs s)) (vdot s' (rs e)),
   V3 (vdot e' (rs d)) (vdot e' (rs s)) (vdot e' (rs e))).
Proof.
  cbv zeta. unfold point_matrix. rewrite !use_eq. unfold rows_of.
  set (d := direction (fst geo) (snd geo)). set (s := south (fst geo) (snd geo)). set (e := east (snd geo)).
  set (d' := direction (fst ref) (snd ref)). set (s' := south (fst ref) (snd ref)). set (e' := east (snd ref)).
  clearbody d s e d' s' e'. destruct d, s, e. reflexivity.
Qed.

(** resolving a tangent vector at a point gives a tangent vector at the image *)
Lemma tangent_fwd t p t' p' e1 e2 e3 bt bp : right_handed_orthonormal e1 e2 e3 ->
  direction t' p' = resolve e1 e2 e3 (direction t p) ->
  let rs := resolve e1 e2 e3 in
  tangent t' p' (vdot (south t' p') (rs (south t p)) * bt + vdot (south t' p') (rs (east p)) * bp)
                (vdot (east p') (rs (south t p)) * bt + vdot (east p') (rs (east p)) * bp)
  = rs (tangent t p bt bp).
Proof.
  intros H D rs. set (v := rs (tangent t p bt bp)).
  pose proof (use_rho t' p') as R'. pose proof (use_rho t p) as R0.
  assert (Lin : v = vadd (vscale bt (rs (south t p))) (vscale bp (rs (east p)))) by apply resolve_lin.
  assert (Z : vdot (direction t' p') v = 0).
  { unfold v. rewrite D. unfold rs. rewrite resolve_dot by exact H.
    destruct R0 as (_ & _ & _ & A & B & C & _). unfold tangent.
    rewrite vdot_add_r, !vdot_scale_r, A, (vdot_comm _ (east p)), C. ring. }
  rewrite <- (rho_expand _ _ _ v R') at 1. unfold compose, resolve at 1 2 3; cbn [vx vy vz].
  rewrite Z. unfold tangent. rewrite Lin. rewrite !vdot_add_r, !vdot_scale_r.
  apply vec3_eq; cbn [vx vy vz vadd vscale]; ring.
Qed.

Lemma tangent_inv t p t' p' e1 e2 e3 bt bp : right_handed_orthonormal e1 e2 e3 ->
  direction t p = compose e1 e2 e3 (direction t' p') ->
  let rs := resolve e1 e2 e3 in
  tangent t p (vdot (south t' p') (rs (south t p)) * bt + vdot (east p') (rs (south t p)) * bp)
              (vdot (south t' p') (rs (east p)) * bt + vdot (east p') (rs (east p)) * bp)
  = compose e1 e2 e3 (tangent t' p' bt bp).
Proof.
  intros H D rs. set (v := compose e1 e2 e3 (tangent t' p' bt bp)).
  pose proof (use_rho t' p') as R'. pose proof (use_rho t p) as R0.
  assert (Dt : forall u, vdot v u = bt * vdot (south t' p') (rs u) + bp * vdot (east p') (rs u)).
  { intros u. unfold v. rewrite compose_dot_resolve. fold rs. unfold tangent.
    rewrite vdot_add_l, !vdot_scale_l. reflexivity. }
  assert (Z : vdot (direction t p) v = 0).
  { unfold v. rewrite D. rewrite compose_dot by exact H.
    destruct R' as (_ & _ & _ & A & B & C & _). unfold tangent.
    rewrite vdot_add_r, !vdot_scale_r, A, (vdot_comm _ (east p')), C. ring. }
  rewrite <- (rho_expand _ _ _ v R0) at 1. unfold compose, resolve at 1 2 3; cbn [vx vy vz].
  rewrite Z. unfold tangent. rewrite (vdot_comm (south t p) v), (vdot_comm (east p) v), !Dt.
  apply vec3_eq; cbn [vx vy vz vadd vscale]; ring.
Qed.

(** tangent components are unique *)
Lemma tangent_inj t p a b a' b' : tangent t p a b = tangent t p a' b' -> a = a' /\ b = b'.
Proof.
  intros E. destruct (use_rho t p) as (U1 & U2 & U3 & A & B & C & _).
  split.
  - apply (f_equal (vdot (south t p))) in E. unfold tangent in E.
    rewrite !vdot_add_r, !vdot_scale_r, B in E. rewrite (U2 : vdot _ _ = 1) in E. lra.
  - apply (f_equal (vdot (east p))) in E. unfold tangent in E.
    rewrite !vdot_add_r, !vdot_scale_r, (vdot_comm (east p)), B in E. rewrite (U3 : vdot _ _ = 1) in E. lra.
Qed.

Lemma tangent_len t p a b : vdot (tangent t p a b) (tangent t p a b) = a * a + b * b.
Proof.
  destruct (use_rho t p) as (U1 & U2 & U3 & A & B & C & _). unfold tangent.
  rewrite !vdot_add_r, !vdot_scale_r, !vdot_add_l, !vdot_scale_l, (vdot_comm (east p) (south t p)), B.
  rewrite (U2 : vdot (south t p) _ = 1), (U3 : vdot (east p) _ = 1). ring.
Qed.
