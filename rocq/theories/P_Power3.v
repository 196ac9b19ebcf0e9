(** Degree correlation; witnesses. *)
From Coq Require Import Reals List Arith ZArith String Bool Lia Lra.
From Coquelicot Require Import Coquelicot.
From Verif Require Import M_Prelude M_ND Spec_Legendre Spec_Field Spec_Power P_Legendre P_Legendre2 M_Synth M_SynthArr M_Spectrum
  P_Synth P_SynthClosed P_Spectrum P_Spectrum2 P_Spectrum3 P_Power P_Power2.
Import ListNotations.
Open Scope R_scope.

Lemma wfac_pos s a r n : 0 < a -> 0 < r -> (1 <= n)%nat -> 0 < wfac s a r n.
Proof.
  intros Ha Hr Hn. assert (0 < INR n) by (apply lt_0_INR; lia). unfold wfac. destruct s.
  - apply Rmult_lt_0_compat; [apply lt_0_INR; lia|]. apply pow_lt, Rdiv_lt_0_compat; assumption.
  - apply Rmult_lt_0_compat; [assumption|]. apply pow_lt, Rdiv_lt_0_compat; assumption.
Qed.

Lemma C115_correlation oob a l1 l2 N v n s r :
  0 < a -> 0 < r -> List.length l1 = (N * (N + 2))%nat -> List.length l2 = (N * (N + 2))%nat ->
  degree_correlation (vec 0 l1) (vec 0 l2) = Ok v -> (1 <= n <= N)%nat ->
  ~ degree_vanishes l1 n -> ~ degree_vanishes l2 n ->
  exists (F1 F2 : R -> R -> field) c12 c11 c22,
    (forall t p, 0 <= t <= PI -> call oob a (degree_block l1 n) r n n s t p = Ok (F1 t p)) /\
    (forall t p, 0 <= t <= PI -> call oob a (degree_block l2 n) r n n s t p = Ok (F2 t p)) /\
    sphere_mean (fun t p => f_r (F1 t p) [] * f_r (F2 t p) [] + f_t (F1 t p) [] * f_t (F2 t p) [] + f_p (F1 t p) [] * f_p (F2 t p) []) c12 /\
    sphere_mean (fun t p => f_r (F1 t p) [] ^ 2 + f_t (F1 t p) [] ^ 2 + f_p (F1 t p) [] ^ 2) c11 /\
    sphere_mean (fun t p => f_r (F2 t p) [] ^ 2 + f_t (F2 t p) [] ^ 2 + f_p (F2 t p) [] ^ 2) c22 /\
    0 < c11 /\ 0 < c22 /\ nth (n - 1) v NaN = Fin (c12 / (sqrt c11 * sqrt c22)).
Proof.
  intros Ha Hr L1 L2 E Hn V1 V2.
  destruct (C37_value l1 l2 N v n L1 L2 E Hn) as [_ [[[X|X] _]|(_ & _ & c & Q1 & Q2 & _)]]; [contradiction..|].
  destruct (C115_product oob a l1 l2 r s N n Ha Hr L1 L2 Hn) as (F & F' & A & A' & M12 & M11 & M22).
  pose proof (wfac_pos s a r n Ha Hr ltac:(lia)) as W. apply power_pos in V1. apply power_pos in V2.
  exists F, F'. do 3 eexists. split; [exact A|]. split; [exact A'|]. split; [exact M12|]. split; [exact M11|]. split; [exact M22|].
  split; [apply Rmult_lt_0_compat; assumption|]. split; [apply Rmult_lt_0_compat; assumption|].
  rewrite Q1, Q2. f_equal. rewrite !sqrt_mult by lra.
  set (w := wfac s a r n) in *. assert (Hw : sqrt w * sqrt w = w) by (apply sqrt_sqrt; lra).
  pose proof (sqrt_lt_R0 _ W). pose proof (sqrt_lt_R0 _ V1). pose proof (sqrt_lt_R0 _ V2).
  rewrite <- Hw at 1. field. repeat split; lra.
Qed.

Lemma toroidal_exists l N : exists Bt Bp : R -> R -> R,
  (forall t p, 0 < t < PI -> is_derive (fun x => toroidal_scalar l N t x) p (sin t * Bt t p)) /\
  (forall t p, 0 < t < PI -> is_derive (fun x => toroidal_scalar l N x p) t (- Bp t p)).
Proof.
  exists (fun t p => / sin t * Derive (fun x => toroidal_scalar l N t x) p), (fun t p => - Derive (fun x => toroidal_scalar l N x p) t).
  split; intros t p Ht.
  - assert (0 < sin t) by (apply sin_gt_0; lra).
    replace (sin t * (/ sin t * Derive (fun x => toroidal_scalar l N t x) p)) with (Derive (fun x => toroidal_scalar l N t x) p) by (field; lra).
    apply Derive_correct. eexists. unfold toroidal_scalar.
    apply (is_derive_Rsum (fun n x => Rsum (map (fun m => (nth (g_position n m) l 0 * cos (INR m * x) + nth (h_position n m) l 0 * sin (INR m * x)) * schmidt n m t) (range_incl 0 n)))).
    intros n _. apply (is_derive_Rsum (fun m x => (nth (g_position n m) l 0 * cos (INR m * x) + nth (h_position n m) l 0 * sin (INR m * x)) * schmidt n m t)).
    intros m _. apply Derive_correct. auto_derive. exact I.
  - rewrite Ropp_involutive. apply Derive_correct. eexists. unfold toroidal_scalar.
    apply (is_derive_Rsum (fun n x => Rsum (map (fun m => (nth (g_position n m) l 0 * cos (INR m * p) + nth (h_position n m) l 0 * sin (INR m * p)) * schmidt n m x) (range_incl 0 n)))).
    intros n _. apply (is_derive_Rsum (fun m x => (nth (g_position n m) l 0 * cos (INR m * p) + nth (h_position n m) l 0 * sin (INR m * p)) * schmidt n m x)).
    intros m _. apply is_derive_scalR. apply is_derive_schmidt_raw.
Qed.

Lemma dipole_case oob : exists F : R -> R -> field,
    (forall t p, 0 <= t <= PI -> call oob 1 [5; 0; 0] 2 1 1 Internal t p = Ok (F t p)) /\
    sphere_mean (fun t p => f_r (F t p) [] ^ 2 + f_t (F t p) [] ^ 2 + f_p (F t p) [] ^ 2) (50 / 64).
Proof.
  destruct (C35_success 1 [5; 0; 0] 2 "internal" None 1 eq_refl (or_introl eq_refl) I) as [W E].
  destruct (C113_degree oob 1 [5; 0; 0] 2 Internal 1 W 1 ltac:(lra) ltac:(lra) eq_refl E ltac:(lia)) as (F & A & B).
  exists F. split; [exact A|]. destruct (spectrum_value Internal 1 [5; 0; 0] 2 1 W ltac:(lra) ltac:(lra) eq_refl E) as [_ V].
  rewrite (V 1%nat) in B by lia. unfold wfac, degree_power in B. cbn in B.
  match type of B with sphere_mean _ ?x => replace (50 / 64) with x by field end. exact B.
Qed.
