(** The field on one sphere determines the coefficients of internal and
    external sources. *)
From Coq Require Import Reals List Arith Lia Lra ZArith Bool String.
From Coquelicot Require Import Coquelicot.
From Verif Require Import M_Prelude M_ND Spec_Legendre Spec_Field Spec_Analysis Spec_Coord M_Coord M_Legendre M_Synth M_SynthArr M_Rotate M_Analysis
  P_Legendre2 P_LegendreTab P_Synth P_SynthClosed P_SynthProps P_SynthProps2 P_Spline P_Quad P_Ortho P_Gauss P_SHC2 P_Analysis P_Coord3 P_RotSH P_RotGauss P_Addition P_RotOrtho P_Gauss2 W_Analysis.
Import ListNotations.
Open Scope R_scope.

(** ** Surfaces *)
Lemma surface_degree0 N g h t p : surface 0 N g h t p = g 0%nat 0%nat + surface 1 N g h t p.
Proof.
  unfold surface, range_incl. replace (N + 1 - 0)%nat with (S N) by lia. replace (N + 1 - 1)%nat with N by lia.
  cbn [seq]. rewrite map_cons, Rsum_cons. f_equal. cbn [Nat.add Nat.sub seq map]. rewrite Rsum_cons. change (Rsum []) with 0.
  change (INR 0) with 0. rewrite !Rmult_0_l, cos_0, sin_0, schmidt_00. lra.
Qed.
Lemma surface_unique0 N g h c : (forall theta phi, surface 1 N g h theta phi = c) ->
  (forall n m, (1 <= n <= N)%nat -> (m <= n)%nat -> g n m = 0) /\
  (forall n m, (1 <= n <= N)%nat -> (1 <= m <= n)%nat -> h n m = 0).
Proof.
  destruct N as [|N].
  { intros _. split; intros; lia. }
  intros H. destruct (gauss_rule_exists (S N + 1) ltac:(lia)) as (x & w & G).
  set (z := fun (a : nat -> nat -> R) n m => if Nat.eqb n 0 then 0 else a n m).
  set (k := fun n m : nat => if Nat.eqb n 0 then c else 0).
  assert (Z : forall theta phi, surface 0 (S N) (z g) (z h) theta phi = c).
  { intros. rewrite surface_degree0. unfold z at 1. cbn [Nat.eqb]. rewrite Rplus_0_l. rewrite <- (H theta phi).
    apply Rsum_map_ext. intros n Hn. apply range_incl_spec in Hn. apply Rsum_map_ext. intros m _. unfold z. destruct (Nat.eqb_spec n 0); [lia|reflexivity]. }
  assert (Z' : forall theta phi, surface 0 (S N) k (fun _ _ => 0) theta phi = c).
  { intros. rewrite surface_degree0. unfold k at 1. cbn [Nat.eqb]. unfold surface. rewrite (Rsum_map_0 _ (range_incl 1 (S N))); [lra|].
    intros n Hn. apply range_incl_spec in Hn. apply Rsum_map_0. intros m _. unfold k. destruct (Nat.eqb_spec n 0); [lia|ring]. }
  pose proof (sh_analysis_exact 0 (fun _ => (x, w)) (surface 0 (S N) (z g) (z h)) (S N) None (S N) (z g) (z h)) as A.
  pose proof (sh_analysis_exact 0 (fun _ => (x, w)) (surface 0 (S N) (z g) (z h)) (S N) None (S N) k (fun _ _ => 0)) as B.
  cbv beta iota zeta in A, B. specialize (A ltac:(lia) ltac:(lia) G (fun _ _ _ => eq_refl)).
  specialize (B ltac:(lia) ltac:(lia) G ltac:(intros; rewrite Z, Z'; reflexivity)).
  rewrite A in B. assert (E : gauss_list 1 (S N) (S N) (z g) (z h) = gauss_list 1 (S N) (S N) k (fun _ _ => 0)) by congruence.
  rewrite !gauss_lay in E.
  split; intros n m Hn Hm.
  - pose proof (f_equal (fun l => nth (g_position n m) l 0) E) as F. cbv beta in F. rewrite !lay_nth_g in F by lia.
    unfold z, k in F. destruct (Nat.eqb_spec n 0); [lia|exact F].
  - pose proof (f_equal (fun l => nth (h_position n m) l 0) E) as F. cbv beta in F. rewrite !lay_nth_h in F by lia.
    unfold z in F. destruct (Nat.eqb_spec n 0); [lia|exact F].
Qed.

Lemma surface_add N g h g' h' t p : surface 1 N g h t p + surface 1 N g' h' t p = surface 1 N (fun n m => g n m + g' n m) (fun n m => h n m + h' n m) t p.
Proof.
  unfold surface. rewrite <- Rsum_map_plus. apply Rsum_map_ext. intros n _. rewrite <- Rsum_map_plus. apply Rsum_map_ext. intros m _. ring.
Qed.
Lemma surface_sub N g h g' h' t p : surface 1 N g h t p - surface 1 N g' h' t p = surface 1 N (fun n m => g n m - g' n m) (fun n m => h n m - h' n m) t p.
Proof.
  pose proof (surface_add N g' h' (fun n m => g n m - g' n m) (fun n m => h n m - h' n m) t p) as E.
  assert (E' : surface 1 N (fun n m => g' n m + (g n m - g' n m)) (fun n m => h' n m + (h n m - h' n m)) t p = surface 1 N g h t p).
  { apply Rsum_map_ext. intros n _. apply Rsum_map_ext. intros m _. ring. }
  lra.
Qed.
Lemma surface_pad L N g h t p : (L <= N)%nat -> surface 1 L g h t p = surface 1 N (up_to L g) (up_to L h) t p.
Proof.
  intros H. unfold surface, range_incl. replace (N + 1 - 1)%nat with (L + (N - L))%nat by lia. replace (L + 1 - 1)%nat with L by lia.
  rewrite seq_app, map_app, P_Synth.Rsum_app.
  rewrite (Rsum_map_0 _ (seq (1 + L) (N - L))).
  2:{ intros n Hn. apply in_seq in Hn. apply Rsum_map_0. intros m _. unfold up_to. destruct (Nat.leb_spec n L); [lia|ring]. }
  rewrite Rplus_0_r. apply Rsum_map_ext. intros n Hn. apply in_seq in Hn. apply Rsum_map_ext. intros m _. unfold up_to. destruct (Nat.leb_spec n L); [reflexivity|lia].
Qed.
Lemma surface_direction N g h t p t' p' : direction t p = direction t' p' -> surface 1 N g h t p = surface 1 N g h t' p'.
Proof.
  intros E. apply Rsum_map_ext. intros n _. apply Rsum_map_ext. intros m Hm. apply range_incl_spec in Hm.
  destruct (harmonic_of_direction n m t p t' p' E) as [A B]. 
  transitivity (g n m * (schmidt n m (rad t) * cos (INR m * rad p)) + h n m * (schmidt n m (rad t) * sin (INR m * rad p))); [ring|]. rewrite A, B. ring.
Qed.
Lemma every_direction t p : exists t' p', 0 <= t' <= 180 /\ direction t p = direction t' p'.
Proof.
  destruct (directions_exist (V3 1 0 0, V3 0 1 0, V3 0 0 1) t p) as (t' & p' & D & B & _).
  { unfold right_handed_axes, right_handed_orthonormal, unit_vec, vdot, vprod. cbn. repeat split; try lra; f_equal; lra. }
  exists t', p'. split; [exact B|]. cbn [same_direction] in D. rewrite D. unfold resolve, vdot, direction. cbn [vx vy vz]. f_equal; ring.
Qed.
Lemma everywhere N g h g' h' : (forall t p, 0 <= t <= 180 -> surface 1 N g h t p = surface 1 N g' h' t p) ->
  forall t p, surface 1 N g h t p = surface 1 N g' h' t p.
Proof.
  intros H t p. destruct (every_direction t p) as (t' & p' & B & D).
  rewrite (surface_direction _ _ _ _ _ _ _ D), (surface_direction _ g' _ _ _ _ _ D). apply H, B.
Qed.
Lemma everywhere_const N g h c : (forall t p, 0 <= t <= 180 -> surface 1 N g h t p = c) -> forall t p, surface 1 N g h t p = c.
Proof. intros H t p. destruct (every_direction t p) as (t' & p' & B & D). rewrite (surface_direction _ _ _ _ _ _ _ D). apply H, B. Qed.
Lemma surface_pole N g h p p' : surface 1 N g h 0 p = surface 1 N g h 0 p'.
Proof. apply surface_direction. unfold direction. rewrite !deg_rad. replace (rad 0) with 0 by (unfold rad; field). rewrite sin_0. f_equal; ring. Qed.

(** ** The field components as surfaces *)
Lemma clo_r_surface s a L g h r t p : clo_r s a 1 L L g h r (rad t) (rad p) =
  surface 1 L (fun n m => rr s (r / a) n * kk s n * g n m) (fun n m => rr s (r / a) n * kk s n * h n m) t p.
Proof.
  apply Rsum_map_ext. intros n Hn. apply range_incl_spec in Hn. unfold sum_r. rewrite Nat.min_l by lia. rewrite <- Rmult_assoc, <- Rsum_map_scal.
  apply Rsum_map_ext. intros m _. unfold ang. ring.
Qed.
Lemma pot_surface s a L g h r t p : 0 < a -> 0 < r -> potential s a 1 L L g h r (rad t) (rad p) =
  surface 1 L (fun n m => r * rr s (r / a) n * g n m) (fun n m => r * rr s (r / a) n * h n m) t p.
Proof.
  intros Ha Hr. unfold potential. rewrite <- Rsum_map_scal. apply Rsum_map_ext. intros n Hn. apply range_incl_spec in Hn. rewrite Nat.min_l by lia.
  rewrite <- Rmult_assoc, radial_rr by (assumption || lia). rewrite <- Rsum_map_scal.
  apply Rsum_map_ext. intros m _. ring.
Qed.

Lemma zero_derivative (f : R -> R) b : (forall t, 0 <= t <= b -> is_derive f t 0) -> forall t, 0 <= t <= b -> f t = f 0.
Proof.
  intros H t Ht. destruct (Req_dec t 0) as [->|N]; [reflexivity|]. symmetry.
  apply (eq_is_derive f 0 t); [|lra]. intros u Hu. apply H. lra.
Qed.

(** ** Separation *)
Section Sep.
Variables (a r : R) (L K : nat) (g h g' h' q s q' s' : nat -> nat -> R).
Hypotheses (Ha : 0 < a) (Hr : 0 < r).

Let N := Nat.max L K.
Let mix (ci ce : nat -> R) (u v : nat -> nat -> R) (n m : nat) : R := up_to L (fun n m => ci n * u n m) n m + up_to K (fun n m => ce n * v n m) n m.

Lemma mix_surface ci ce t p : surface 1 L (fun n m => ci n * g n m) (fun n m => ci n * h n m) t p + surface 1 K (fun n m => ce n * q n m) (fun n m => ce n * s n m) t p
  = surface 1 N (mix ci ce g q) (mix ci ce h s) t p.
Proof. unfold mix. rewrite (surface_pad L N), (surface_pad K N) by (unfold N; lia). apply surface_add. Qed.
Lemma mix_surface' ci ce t p : surface 1 L (fun n m => ci n * g' n m) (fun n m => ci n * h' n m) t p + surface 1 K (fun n m => ce n * q' n m) (fun n m => ce n * s' n m) t p
  = surface 1 N (mix ci ce g' q') (mix ci ce h' s') t p.
Proof. unfold mix. rewrite (surface_pad L N), (surface_pad K N) by (unfold N; lia). apply surface_add. Qed.

Let ri n := rr Internal (r / a) n * kk Internal n.
Let re n := rr External (r / a) n * kk External n.
Let ti n := r * rr Internal (r / a) n.
Let te n := r * rr External (r / a) n.

Definition radial_same := forall t p, 0 <= t <= 180 ->
  clo_r Internal a 1 L L g h r (rad t) (rad p) + clo_r External a 1 K K q s r (rad t) (rad p) =
  clo_r Internal a 1 L L g' h' r (rad t) (rad p) + clo_r External a 1 K K q' s' r (rad t) (rad p).
Definition south_same := forall t p, 0 <= t <= 180 ->
  clo_t Internal a 1 L L g h r (rad t) (rad p) + clo_t External a 1 K K q s r (rad t) (rad p) =
  clo_t Internal a 1 L L g' h' r (rad t) (rad p) + clo_t External a 1 K K q' s' r (rad t) (rad p).

Lemma radial_mix : radial_same ->
  (forall n m, (1 <= n <= N)%nat -> (m <= n)%nat -> mix ri re g q n m = mix ri re g' q' n m) /\
  (forall n m, (1 <= n <= N)%nat -> (1 <= m <= n)%nat -> mix ri re h s n m = mix ri re h' s' n m).
Proof.
  intros H. apply surface_unique. apply everywhere. intros t p B. rewrite <- (mix_surface ri re t p), <- (mix_surface' ri re t p).
  pose proof (H t p B) as E. rewrite !clo_r_surface in E. exact E.
Qed.

Lemma south_mix : (1 <= L)%nat -> (1 <= K)%nat -> south_same ->
  (forall n m, (1 <= n <= N)%nat -> (m <= n)%nat -> mix ti te g q n m = mix ti te g' q' n m) /\
  (forall n m, (1 <= n <= N)%nat -> (1 <= m <= n)%nat -> mix ti te h s n m = mix ti te h' s' n m).
Proof.
  intros HL HK H.
  pose (V := fun t p => (potential Internal a 1 L L g h r t p + potential External a 1 K K q s r t p) -
                        (potential Internal a 1 L L g' h' r t p + potential External a 1 K K q' s' r t p)).
  assert (VS : forall t p, V (rad t) (rad p) = surface 1 N (fun n m => mix ti te g q n m - mix ti te g' q' n m) (fun n m => mix ti te h s n m - mix ti te h' s' n m) t p).
  { intros t p. unfold V. rewrite !pot_surface by assumption. rewrite <- surface_sub, <- (mix_surface ti te t p), <- (mix_surface' ti te t p). reflexivity. }
  assert (D : forall p t, 0 <= t <= PI -> is_derive (fun u => V u (rad p)) t 0).
  { intros p t Ht. unfold V. 
    assert (Et : t = rad (t * 180 / PI)) by (unfold rad; field; apply PI_neq0).
    assert (B : 0 <= t * 180 / PI <= 180).
    { pose proof PI_RGT_0. split; [apply Rle_mult_inv_pos; nra|]. apply (Rmult_le_reg_r PI); [assumption|]. unfold Rdiv. rewrite Rmult_assoc, Rinv_l by lra. nra. }
    pose proof (H _ p B) as E. rewrite <- Et in E.
    eapply is_derive_eq.
    - apply @is_derive_minus; apply @is_derive_plus; apply grad_t; (assumption || lia).
    - unfold minus, plus, opp; cbn. nra. }
  assert (C : forall t p, 0 <= t <= 180 -> V (rad t) (rad p) = V (rad 0) (rad 0)).
  { intros t p B. transitivity (V (rad 0) (rad p)); [|rewrite !VS; apply surface_pole].
    replace (rad 0) with 0 by (unfold rad; field). apply (zero_derivative (fun u => V u (rad p)) PI (D p)).
    unfold rad. pose proof PI_RGT_0. split; [nra|]. nra. }
  destruct (surface_unique0 N (fun n m => mix ti te g q n m - mix ti te g' q' n m) (fun n m => mix ti te h s n m - mix ti te h' s' n m) (V (rad 0) (rad 0))) as [A B].
  { apply everywhere_const. intros t p B. rewrite <- VS. apply C, B. }
  split; intros n m Hn Hm; [specialize (A n m Hn Hm)|specialize (B n m Hn Hm)]; lra.
Qed.

Lemma rr_nz z n : rr z (r / a) n <> 0.
Proof. assert (P : r / a <> 0) by (apply Rgt_not_eq, Rdiv_lt_0_compat; assumption). destruct z; cbn [rr]; [apply Rinv_neq_0_compat|]; apply pow_nonzero, P. Qed.

Lemma unmix u v u' v' n m : (1 <= n)%nat -> mix ri re u v n m = mix ri re u' v' n m -> mix ti te u v n m = mix ti te u' v' n m ->
  ((n <= L)%nat -> u n m = u' n m) /\ ((n <= K)%nat -> v n m = v' n m).
Proof.
  intros Hn A B. unfold mix, up_to, ri, re, ti, te in A, B. cbn [kk] in A, B. rewrite plus_INR in A. change (INR 1) with 1 in A.
  pose proof (rr_nz Internal n) as Zi. pose proof (rr_nz External n) as Ze. pose proof (le_INR 1 n Hn) as P. change (INR 1) with 1 in P.
  set (x := rr Internal (r / a) n) in *. set (y := rr External (r / a) n) in *. set (k := INR n) in *.
  destruct (Nat.leb_spec n L) as [X|X]; destruct (Nat.leb_spec n K) as [Y0|Y0].
  - assert (B' : x * (u n m - u' n m) = - (y * (v n m - v' n m))) by (apply (Rmult_eq_reg_l r); [|lra]; lra).
    assert (A' : (k + 1) * (x * (u n m - u' n m)) = k * (y * (v n m - v' n m))) by lra.
    rewrite B' in A'. assert (Wz : y * (v n m - v' n m) = 0) by nra.
    split; intros _.
    + rewrite Wz in B'. destruct (Rmult_integral x (u n m - u' n m)); lra.
    + destruct (Rmult_integral _ _ Wz); lra.
  - split; [intros _|lia]. assert (B' : (r * x) * (u n m - u' n m) = 0) by lra. destruct (Rmult_integral _ _ B') as [Z|]; [|lra].
    destruct (Rmult_integral _ _ Z); lra.
  - split; [lia|intros _]. assert (B' : (r * y) * (v n m - v' n m) = 0) by lra. destruct (Rmult_integral _ _ B') as [Z|]; [|lra].
    destruct (Rmult_integral _ _ Z); lra.
  - split; lia.
Qed.

Lemma separate : (1 <= L)%nat -> (1 <= K)%nat -> radial_same -> south_same ->
  (forall n m, (1 <= n <= L)%nat -> (m <= n)%nat -> g n m = g' n m) /\ (forall n m, (1 <= n <= L)%nat -> (1 <= m <= n)%nat -> h n m = h' n m) /\
  (forall n m, (1 <= n <= K)%nat -> (m <= n)%nat -> q n m = q' n m) /\ (forall n m, (1 <= n <= K)%nat -> (1 <= m <= n)%nat -> s n m = s' n m).
Proof.
  intros HL HK A B. destruct (radial_mix A) as [A1 A2]. destruct (south_mix HL HK B) as [B1 B2].
  split; [|split; [|split]]; intros n m Hn Hm.
  - apply (unmix g q g' q' n m); [lia|apply A1; unfold N; lia|apply B1; unfold N; lia|lia].
  - apply (unmix h s h' s' n m); [lia|apply A2; unfold N; lia|apply B2; unfold N; lia|lia].
  - apply (unmix g q g' q' n m); [lia|apply A1; unfold N; lia|apply B1; unfold N; lia|lia].
  - apply (unmix h s h' s' n m); [lia|apply A2; unfold N; lia|apply B2; unfold N; lia|lia].
Qed.
End Sep.
