(** Closed form of the synthesised field on [0, 180], gradient, limits. *)
From Coq Require Import Reals List Arith ZArith Lia Lra Bool.
From Coquelicot Require Import Coquelicot.
From Verif Require Import M_Prelude Spec_Legendre Spec_Field M_Legendre P_Legendre P_Legendre2 P_LegendreTab
  P_LegendreProps M_Synth P_Synth.
Import ListNotations.
Open Scope R_scope.

(** derivative of P_n^m and P_n^m / sin *)
Definition rawd (n m : nat) (t : R) : R :=
  cn n m * (INR m * sin t ^ (pred m) * cos t * Qf n m (cos t) - sin t ^ (S m) * Qf n (S m) (cos t)).
Definition reg (n m : nat) (t : R) : R := cn n m * sin t ^ (pred m) * Qf n m (cos t).

Lemma reg_sin n m t : (1 <= m)%nat -> sin t * reg n m t = schmidt n m t.
Proof. intros H. unfold reg. rewrite schmidt_Q. destruct m; [lia|]. cbn [pred pow]. ring. Qed.

Lemma sin_rad_pos t : 0 < t < 180 -> 0 < sin (rad t).
Proof. intros H. apply sin_gt_0; unfold rad; pose proof PI_RGT_0; nra. Qed.

Lemma is_pole_spec t : is_pole t = true <-> (t = 0 \/ t = 180).
Proof.
  unfold is_pole. destruct (Req_EM_T t 0); [split; auto|].
  destruct (Req_EM_T t 180); [split; auto|]. split; [discriminate|tauto].
Qed.

Lemma sin_pole t : t = 0 \/ t = 180 -> sin (rad t) = 0 /\ cos (rad t) * cos (rad t) = 1.
Proof.
  intros H.
  assert (S0 : sin (rad t) = 0).
  { destruct H as [-> | ->]; unfold rad.
    - replace (0 * PI / 180) with 0 by field. apply sin_0.
    - replace (180 * PI / 180) with PI by field. apply sin_PI. }
  split; [exact S0|]. pose proof (cos_sin2 (rad t)) as E. rewrite S0 in E. lra.
Qed.

Section Closed.
Variables (oob : R) (nmax : nat) (theta : R).
Hypothesis Hn : (1 <= nmax)%nat.
Hypothesis Ht : 0 <= theta <= 180.

Lemma table_closed P : legendre_poly oob nmax theta = Ok P ->
  (forall n m, (m <= n <= nmax)%nat -> P n m = schmidt n m (rad theta)) /\
  (forall n m, (m <= n <= nmax)%nat -> P m (n + 1)%nat = rawd n m (rad theta)).
Proof.
  intros E. destruct (legendre_poly_entries _ _ _ _ Ht E) as [A B]. split; [exact A|].
  intros n m Hm. specialize (B n m Hm). apply is_derive_unique in B. rewrite <- B.
  apply is_derive_unique. apply is_derive_schmidt_raw.
Qed.

Lemma div_closed P pole : legendre_poly oob nmax theta = Ok P ->
  (pole = true <-> theta = 0 \/ theta = 180) ->
  forall n m, (1 <= m <= n)%nat -> (n <= nmax)%nat ->
  div_P P (P 1%nat 1%nat) pole n m = reg n m (rad theta).
Proof.
  intros E Hp n m Hm Hn'. destruct (table_closed P E) as [A B]. unfold div_P.
  destruct pole.
  - destruct (sin_pole theta (proj1 Hp eq_refl)) as [S0 C1].
    rewrite B, A by lia. rewrite ex_schmidt_1_0. unfold rawd, reg. rewrite S0.
    destruct m as [|[|m]]; [lia| |]; cbn [pred pow INR].
    + transitivity (cn n 1 * Qf n 1 (cos (rad theta)) * (cos (rad theta) * cos (rad theta))); [ring|]. rewrite C1. ring.
    + ring.
  - rewrite !A by lia. rewrite ex_schmidt_1_1.
    assert (Hi : 0 < theta < 180).
    { split; apply Rnot_le_lt; intros Hl; assert (X : false = true) by (apply Hp; lra); discriminate. }
    pose proof (sin_rad_pos _ Hi). rewrite <- (reg_sin n m) by lia. field. lra.
Qed.
End Closed.

(** closed forms, angles in radians *)
Definition clo_r s a nmin nmax mmax g h r t p : R :=
  Rsum (map (sum_r s (r / a) p mmax g h (fun n m => schmidt n m t)) (range_incl nmin nmax)).
Definition clo_t s a nmin nmax mmax g h r t p : R :=
  Rsum (map (sum_t s (r / a) p mmax g h (fun n m => rawd n m t)) (range_incl nmin nmax)).
Definition clo_p s a nmin nmax mmax g h r t p : R :=
  Rsum (map (sum_p s (r / a) p mmax g h (fun n m => reg n m t)) (range_incl nmin nmax)).

Lemma rn_init_rr s r n : rn_init s r n = rr s r n. Proof. reflexivity. Qed.

Lemma synth_point_closed oob s a nmin nmax mmax poles g h rest radius theta phi :
  (1 <= nmin <= nmax)%nat -> 0 <= theta <= 180 ->
  (poles = false -> 0 < theta < 180) ->
  synth_point oob s a nmin nmax mmax poles (gauss_list nmin nmax mmax g h ++ rest) radius theta phi
  = Ok (clo_r s a nmin nmax mmax g h radius (rad theta) (rad phi),
        clo_t s a nmin nmax mmax g h radius (rad theta) (rad phi),
        clo_p s a nmin nmax mmax g h radius (rad theta) (rad phi)).
Proof.
  intros Hn Ht Hp. unfold synth_point.
  destruct (legendre_poly_ok oob nmax theta) as (P & E & _); [lia|exact Ht|]. rewrite E. cbn [bind].
  rewrite gauss_list_blk, rn_init_rr, rad_radians.
  replace (nmax + 1)%nat with (nmin + (nmax + 1 - nmin))%nat at 1 by lia.
  rewrite (synth_n_loop _ _ _ _ _ _ _ rest mmax g h nmin); [|lia|reflexivity].
  cbn [bind a_br a_bt a_bp]. unfold clo_r, clo_t, clo_p.
  destruct (table_closed oob nmax theta Ht P E) as [A B].
  assert (Hpole : (poles && is_pole theta)%bool = true <-> theta = 0 \/ theta = 180).
  { rewrite andb_true_iff, is_pole_spec. split; [tauto|]. intros H. split; [|exact H].
    destruct poles; [reflexivity|]. specialize (Hp eq_refl). lra. }
  pose proof (div_closed oob nmax theta ltac:(lia) Ht P _ E Hpole) as D.
  f_equal. f_equal; [f_equal|].
  - apply Rsum_map_ext. intros n Hin. apply range_incl_spec in Hin. unfold sum_r. do 2 f_equal.
    apply Rsum_map_ext. intros m Hm. apply range_incl_spec in Hm. rewrite A by lia. reflexivity.
  - apply Rsum_map_ext. intros n Hin. apply range_incl_spec in Hin. unfold sum_t. f_equal.
    apply Rsum_map_ext. intros m Hm. apply range_incl_spec in Hm. rewrite B by lia. reflexivity.
  - apply Rsum_map_ext. intros n Hin. apply range_incl_spec in Hin. unfold sum_p. f_equal.
    apply Rsum_map_ext. intros m Hm. apply range_incl_spec in Hm. destruct m as [|m]; [cbn [INR]; ring|].
    rewrite D by lia. reflexivity.
Qed.

(** ** Gradient *)
Lemma is_derive_Rsum {A} (f : A -> R -> R) (d : A -> R) l x :
  (forall a, In a l -> is_derive (f a) x (d a)) ->
  is_derive (fun y => Rsum (map (fun a => f a y) l)) x (Rsum (map d l)).
Proof.
  induction l as [|a l IH]; intros H; cbn [map].
  - apply (@is_derive_const R_AbsRing R_NormedModule).
  - apply (is_derive_addR (f a) (fun y => Rsum (map (fun a => f a y) l))).
    + apply H; left; reflexivity.
    + apply IH. intros; apply H; right; assumption.
Qed.

Lemma is_derive_eq (f : R -> R) x l l' : is_derive f x l -> l = l' -> is_derive f x l'.
Proof. intros H <-. exact H. Qed.

Lemma Rsum_scal_l l k : Rsum (map (fun x => k * x) l) = k * Rsum l.
Proof. rewrite Rsum_map_scal, map_id. reflexivity. Qed.

Lemma is_derive_radial s a r n : 0 < a -> 0 < r -> (1 <= n)%nat ->
  is_derive (fun x => radial s a x n) r (- (kk s n * rr s (r / a) n / a)).
Proof.
  intros Ha Hr Hn. unfold radial, rr, kk. destruct s.
  - auto_derive; [lra|]. unfold Rdiv. rewrite Rpow_mult_distr.
    replace (pred (n + 1)) with n by lia. rewrite !plus_INR. cbn [INR].
    replace (n + 2)%nat with (S (S n)) by lia. cbn [pow]. rewrite !Rpow_mult_distr, !pow_inv.
    field. repeat split; try lra; apply pow_nonzero; lra.
  - auto_derive; [lra|]. replace (pred n) with (n - 1)%nat by lia. unfold Rdiv. ring_simplify. ring.
Qed.

Lemma radial_rr s a r n : 0 < a -> 0 < r -> (1 <= n)%nat -> a * radial s a r n = r * rr s (r / a) n.
Proof.
  intros Ha Hr Hn. unfold radial, rr. destruct s.
  - replace (n + 2)%nat with (S (S n)) by lia. replace (n + 1)%nat with (S n) by lia.
    unfold Rdiv. cbn [pow]. rewrite !Rpow_mult_distr, !pow_inv. field. repeat split; try lra; apply pow_nonzero; lra.
  - destruct n as [|n]; [lia|]. replace (S n - 1)%nat with n by lia. cbn [pow]. field. lra.
Qed.

Section Grad.
Variables (s : src) (a : R) (nmin nmax mmax : nat) (g h : nat -> nat -> R) (r t p : R).
Hypothesis (Ha : 0 < a) (Hr : 0 < r) (Hn : (1 <= nmin <= nmax)%nat).

Lemma grad_r : is_derive (fun x => potential s a nmin nmax mmax g h x t p) r (- clo_r s a nmin nmax mmax g h r t p).
Proof.
  unfold potential. eapply is_derive_eq.
  - apply is_derive_scalR. apply (is_derive_Rsum
      (fun n x => radial s a x n * Rsum (map (fun m => (g n m * cos (INR m * p) + h n m * sin (INR m * p)) * schmidt n m t) (range_incl 0 (Nat.min n mmax))))
      (fun n => Rsum (map (fun m => (g n m * cos (INR m * p) + h n m * sin (INR m * p)) * schmidt n m t) (range_incl 0 (Nat.min n mmax))) * - (kk s n * rr s (r / a) n / a))).
    intros n Hin. apply range_incl_spec in Hin.
    apply (is_derive_ext (fun x => Rsum (map (fun m => (g n m * cos (INR m * p) + h n m * sin (INR m * p)) * schmidt n m t) (range_incl 0 (Nat.min n mmax))) * radial s a x n)).
    { intros x. apply Rmult_comm. }
    apply is_derive_scalR, is_derive_radial; [exact Ha|exact Hr|lia].
  - unfold clo_r. rewrite <- Rsum_map_scal.
    replace (- Rsum (map (sum_r s (r / a) p mmax g h (fun n m => schmidt n m t)) (range_incl nmin nmax)))
      with ((-1) * Rsum (map (sum_r s (r / a) p mmax g h (fun n m => schmidt n m t)) (range_incl nmin nmax))) by ring.
    rewrite <- Rsum_map_scal. apply Rsum_map_ext. intros n _. unfold sum_r, ang. field. lra.
Qed.

Lemma grad_t : is_derive (fun x => potential s a nmin nmax mmax g h r x p) t (- (r * clo_t s a nmin nmax mmax g h r t p)).
Proof.
  unfold potential. eapply is_derive_eq.
  - apply is_derive_scalR. apply (is_derive_Rsum
      (fun n x => radial s a r n * Rsum (map (fun m => (g n m * cos (INR m * p) + h n m * sin (INR m * p)) * schmidt n m x) (range_incl 0 (Nat.min n mmax))))
      (fun n => radial s a r n * Rsum (map (fun m => (g n m * cos (INR m * p) + h n m * sin (INR m * p)) * rawd n m t) (range_incl 0 (Nat.min n mmax))))).
    intros n _. apply is_derive_scalR.
    apply (is_derive_Rsum (fun m x => (g n m * cos (INR m * p) + h n m * sin (INR m * p)) * schmidt n m x)
             (fun m => (g n m * cos (INR m * p) + h n m * sin (INR m * p)) * rawd n m t)).
    intros m _. apply is_derive_scalR, is_derive_schmidt_raw.
  - unfold clo_t. rewrite <- !Rsum_map_scal.
    match goal with |- _ = - ?X => replace (- X) with ((-1) * X) by ring end.
    rewrite <- Rsum_map_scal. apply Rsum_map_ext. intros n Hin. apply range_incl_spec in Hin.
    unfold sum_t. rewrite <- Rmult_assoc, radial_rr by (assumption || lia).
    rewrite (Rsum_map_ext (fun m => - ang p (g n) (h n) m * rawd n m t)
               (fun m => (-1) * ((g n m * cos (INR m * p) + h n m * sin (INR m * p)) * rawd n m t))).
    2: { intros m _. unfold ang. ring. }
    rewrite Rsum_map_scal. ring.
Qed.

Lemma grad_p : is_derive (fun x => potential s a nmin nmax mmax g h r t x) p
  (- (r * sin t * clo_p s a nmin nmax mmax g h r t p)).
Proof.
  unfold potential. eapply is_derive_eq.
  - apply is_derive_scalR. apply (is_derive_Rsum
      (fun n x => radial s a r n * Rsum (map (fun m => (g n m * cos (INR m * x) + h n m * sin (INR m * x)) * schmidt n m t) (range_incl 0 (Nat.min n mmax))))
      (fun n => radial s a r n * Rsum (map (fun m => - ang' p (g n) (h n) m * INR m * schmidt n m t) (range_incl 0 (Nat.min n mmax))))).
    intros n _. apply is_derive_scalR.
    apply (is_derive_Rsum (fun m x => (g n m * cos (INR m * x) + h n m * sin (INR m * x)) * schmidt n m t)
             (fun m => - ang' p (g n) (h n) m * INR m * schmidt n m t)).
    intros m _. unfold ang'. auto_derive; [exact I|]. ring.
  - unfold clo_p. rewrite <- !Rsum_map_scal.
    match goal with |- _ = - ?X => replace (- X) with ((-1) * X) by ring end.
    rewrite <- Rsum_map_scal. apply Rsum_map_ext. intros n Hin. apply range_incl_spec in Hin.
    unfold sum_p. rewrite <- Rmult_assoc, radial_rr by (assumption || lia).
    rewrite (Rsum_map_ext (fun m => - ang' p (g n) (h n) m * INR m * schmidt n m t)
               (fun m => (- sin t) * (ang' p (g n) (h n) m * (INR m * reg n m t)))).
    2: { intros m _. destruct m as [|m]; [cbn [INR]; ring|]. rewrite <- (reg_sin n (S m)) by lia. ring. }
    rewrite Rsum_map_scal. ring.
Qed.
End Grad.

(** ** Continuity in theta *)
Lemma continuous_Rsum {A} (f : A -> R -> R) l x :
  (forall a, In a l -> continuous (f a) x) -> continuous (fun y => Rsum (map (fun a => f a y) l)) x.
Proof.
  induction l as [|a l IH]; intros H; cbn [map].
  - apply continuous_const.
  - apply (continuous_plus (f a) (fun y => Rsum (map (fun a => f a y) l))).
    + apply H; left; reflexivity.
    + apply IH. intros; apply H; right; assumption.
Qed.

Lemma ex_derive_Qf_cos n m t : ex_derive (fun t => Qf n m (cos t)) t.
Proof.
  eexists. apply (is_derive_comp (Qf n m) cos); [apply is_derive_Qf|apply is_derive_cos].
Qed.

Lemma continuous_Qf_cos n m t : continuous (fun t => Qf n m (cos t)) t.
Proof. apply (@ex_derive_continuous R_AbsRing R_NormedModule), ex_derive_Qf_cos. Qed.
Lemma continuous_sin_pow k t : continuous (fun t => sin t ^ k) t.
Proof. apply (@ex_derive_continuous R_AbsRing R_NormedModule). auto_derive. exact I. Qed.
Lemma continuous_cosR t : continuous cos t.
Proof. apply (@ex_derive_continuous R_AbsRing R_NormedModule). auto_derive. exact I. Qed.
Lemma continuous_multR (f g : R -> R) x : continuous f x -> continuous g x -> continuous (fun t => f t * g t) x.
Proof. apply (@continuous_mult R_UniformSpace R_AbsRing). Qed.
Lemma continuous_scalR (f : R -> R) k x : continuous f x -> continuous (fun t => k * f t) x.
Proof. intros H. apply (continuous_multR (fun _ => k) f); [apply continuous_const|exact H]. Qed.
Lemma continuous_minusR (f g : R -> R) x : continuous f x -> continuous g x -> continuous (fun t => f t - g t) x.
Proof. apply (@continuous_minus R_UniformSpace R_AbsRing). Qed.

Lemma continuous_schmidt n m t : continuous (schmidt n m) t.
Proof. apply (@ex_derive_continuous R_AbsRing R_NormedModule). eexists; apply is_derive_schmidt_raw. Qed.
Lemma continuous_rawd n m t : continuous (rawd n m) t.
Proof.
  unfold rawd. apply continuous_scalR, continuous_minusR.
  - apply (continuous_multR (fun t => INR m * sin t ^ pred m * cos t)); [|apply continuous_Qf_cos].
    apply (continuous_multR (fun t => INR m * sin t ^ pred m)); [|apply continuous_cosR].
    apply continuous_scalR, continuous_sin_pow.
  - apply (continuous_multR (fun t => sin t ^ S m)); [apply continuous_sin_pow|apply continuous_Qf_cos].
Qed.
Lemma continuous_reg n m t : continuous (reg n m) t.
Proof.
  unfold reg. apply (continuous_multR (fun t => cn n m * sin t ^ pred m)); [|apply continuous_Qf_cos].
  apply continuous_scalR, continuous_sin_pow.
Qed.

Lemma continuous_clo s a nmin nmax mmax g h r t p :
  continuous (fun t => clo_r s a nmin nmax mmax g h r t p) t /\
  continuous (fun t => clo_t s a nmin nmax mmax g h r t p) t /\
  continuous (fun t => clo_p s a nmin nmax mmax g h r t p) t.
Proof.
  unfold clo_r, clo_t, clo_p, sum_r, sum_t, sum_p. repeat split.
  - apply (continuous_Rsum (fun n t => rr s (r / a) n * (kk s n * Rsum (map (fun m => ang p (g n) (h n) m * schmidt n m t) (range_incl 0 (Nat.min n mmax)))))).
    intros n _. apply continuous_scalR, continuous_scalR.
    apply (continuous_Rsum (fun m t => ang p (g n) (h n) m * schmidt n m t)). intros m _. apply continuous_scalR, continuous_schmidt.
  - apply (continuous_Rsum (fun n t => rr s (r / a) n * Rsum (map (fun m => - ang p (g n) (h n) m * rawd n m t) (range_incl 0 (Nat.min n mmax))))).
    intros n _. apply continuous_scalR.
    apply (continuous_Rsum (fun m t => - ang p (g n) (h n) m * rawd n m t)). intros m _. apply continuous_scalR, continuous_rawd.
  - apply (continuous_Rsum (fun n t => rr s (r / a) n * Rsum (map (fun m => ang' p (g n) (h n) m * (INR m * reg n m t)) (range_incl 0 (Nat.min n mmax))))).
    intros n _. apply continuous_scalR.
    apply (continuous_Rsum (fun m t => ang' p (g n) (h n) m * (INR m * reg n m t))). intros m _. apply continuous_scalR, continuous_scalR, continuous_reg.
Qed.
