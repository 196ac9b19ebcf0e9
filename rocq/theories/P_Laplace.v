(** The synthesised field is free of divergence (Laplace's equation). *)
From Coq Require Import Reals List Arith ZArith String Bool Lia Lra.
From Coquelicot Require Import Coquelicot.
From Verif Require Import M_Prelude M_ND Spec_Legendre Spec_Field M_Legendre P_Legendre P_Legendre2 P_LegendreTab M_Synth M_SynthArr
  P_Synth P_SynthArr P_SynthClosed P_Layout P_Design P_SynthProps.
Import ListNotations.
Open Scope R_scope.

Lemma is_derive_sin_rawd n m t :
  is_derive (fun x => sin x * rawd n m x) t
    (cn n m * (INR m ^ 2 * sin t ^ pred m - INR n * (INR n + 1) * sin t ^ S m) * Qf n m (cos t)).
Proof.
  apply (is_derive_ext (fun x => cn n m * (INR m * sin x ^ m * (cos x * Qf n m (cos x)) - sin x ^ S (S m) * Qf n (S m) (cos x)))).
  { intros x. change (@eq R (cn n m * (INR m * sin x ^ m * (cos x * Qf n m (cos x)) - sin x ^ S (S m) * Qf n (S m) (cos x))) (sin x * rawd n m x)).
    unfold rawd. destruct m as [|m]; cbn [pred pow INR]; ring. }
  eapply is_derive_eq.
  - apply is_derive_scalR.
    apply (is_derive_minus (fun x => INR m * sin x ^ m * (cos x * Qf n m (cos x))) (fun x => sin x ^ S (S m) * Qf n (S m) (cos x))).
    + apply (is_derive_mult (fun x => INR m * sin x ^ m) (fun x => cos x * Qf n m (cos x))); [| |exact Rmult_comm].
      * apply is_derive_scalR, is_derive_pow, is_derive_sin.
      * apply (is_derive_mult cos (fun x => Qf n m (cos x))); [apply is_derive_cos| |exact Rmult_comm].
        apply (is_derive_comp (Qf n m) cos); [apply is_derive_Qf|apply is_derive_cos].
    + apply (is_derive_mult (fun x => sin x ^ S (S m)) (fun x => Qf n (S m) (cos x))); [| |exact Rmult_comm].
      * apply is_derive_pow, is_derive_sin.
      * apply (is_derive_comp (Qf n (S m)) cos); [apply is_derive_Qf|apply is_derive_cos].
  - unfold minus, plus, opp, mult, scal; cbn -[INR pow Qf cn]. unfold mult; cbn -[INR pow Qf cn].
    pose proof (Qf_ode n m (cos t)) as O. pose proof (cos_sin2 t) as C.
    set (Q := Qf n m (cos t)) in *. set (Q1 := Qf n (S m) (cos t)) in *. set (Q2 := Qf n (S (S m)) (cos t)) in *.
    rewrite !S_INR.
    assert (E : sin t ^ 2 * Q2 = 2 * (INR m + 1) * cos t * Q1 - (INR n * (INR n + 1) - INR m * (INR m + 1)) * Q).
    { rewrite C. nra. }
    cbn [pred].
    transitivity (cn n m * (INR m * INR m * (sin t ^ pred m * cos t ^ 2) * Q - INR m * sin t ^ m * sin t * Q
       - (2 * (INR m + 1)) * (sin t ^ S m * cos t * Q1) + sin t ^ S m * (sin t ^ 2 * Q2))).
    + destruct m as [|m]; cbn [pred pow INR]; ring.
    + rewrite E. replace (cos t ^ 2) with (1 - sin t ^ 2) by lra.
      destruct m as [|m]; cbn [pred pow INR]; ring.
Qed.

Lemma is_derive_r2rr s a r n : 0 < a -> 0 < r -> (1 <= n)%nat ->
  is_derive (fun x => x ^ 2 * (kk s n * rr s (x / a) n)) r (- (INR n * (INR n + 1)) * (r * rr s (r / a) n)).
Proof.
  intros Ha Hr Hn. unfold kk, rr. destruct s.
  - assert (Hne : forall k, (r / a) ^ k <> 0).
    { intros k. apply pow_nonzero. apply Rgt_not_eq, Rdiv_lt_0_compat; lra. }
    auto_derive; [apply Hne|].
    rewrite !plus_INR. cbn [INR]. replace (pred (n + 2)) with (S n) by lia. replace (n + 2)%nat with (S (S n)) by lia.
    rewrite <- !tech_pow_Rmult. rewrite ?Rmult_1_r.
    set (y := (r / a) ^ n). assert (y <> 0) by apply Hne. cbn [pow]. change (r * / a) with (r / a). fold y. field. repeat split; try lra; try assumption.
  - auto_derive; [exact I|]. destruct n as [|[|n]]; [lia| |].
    + cbn. ring.
    + replace (S (S n) - 1)%nat with (S n) by lia. change (Init.Nat.pred (S n)) with n. rewrite !S_INR. cbn [pow].
      change (r * / a) with (r / a). generalize ((r / a) ^ n). intros y. field. lra.
Qed.

Section Div.
Variables (s : src) (a : R) (nmin nmax mmax : nat) (g h : nat -> nat -> R) (r t p : R).
Hypothesis (Ha : 0 < a) (Hr : 0 < r) (Hn : (1 <= nmin <= nmax)%nat) (Ht : sin t <> 0).

Let SP n := Rsum (map (fun m => ang p (g n) (h n) m * schmidt n m t) (range_incl 0 (Nat.min n mmax))).
Let SM n := Rsum (map (fun m => ang p (g n) (h n) m * (INR m ^ 2 * reg n m t)) (range_incl 0 (Nat.min n mmax))).

Lemma div_r : is_derive (fun x => x ^ 2 * clo_r s a nmin nmax mmax g h x t p) r
  (Rsum (map (fun n => - (INR n * (INR n + 1)) * (r * rr s (r / a) n) * SP n) (range_incl nmin nmax))).
Proof.
  apply (is_derive_ext (fun x => Rsum (map (fun n => SP n * (x ^ 2 * (kk s n * rr s (x / a) n))) (range_incl nmin nmax)))).
  { intros x. unfold clo_r. rewrite <- Rsum_map_scal. apply Rsum_map_ext. intros n _. unfold sum_r, SP. ring. }
  apply (is_derive_Rsum (fun n x => SP n * (x ^ 2 * (kk s n * rr s (x / a) n)))).
  intros n Hin. apply range_incl_spec in Hin. eapply is_derive_eq; [apply is_derive_scalR, is_derive_r2rr; (assumption || lia)|].
  match goal with |- ?A = ?B => change (@eq R A B) end. ring.
Qed.

Lemma rawd_ode n m : (m <= n)%nat -> cn n m * (INR m ^ 2 * sin t ^ pred m - INR n * (INR n + 1) * sin t ^ S m) * Qf n m (cos t)
  = INR m ^ 2 * reg n m t - INR n * (INR n + 1) * sin t * schmidt n m t.
Proof. intros _. unfold reg. rewrite schmidt_Q. cbn [pow]. ring. Qed.

Lemma div_t : is_derive (fun x => sin x * clo_t s a nmin nmax mmax g h r x p) t
  (Rsum (map (fun n => rr s (r / a) n * (INR n * (INR n + 1) * sin t * SP n - SM n)) (range_incl nmin nmax))).
Proof.
  apply (is_derive_ext (fun x => Rsum (map (fun n => rr s (r / a) n * Rsum (map (fun m => - ang p (g n) (h n) m * (sin x * rawd n m x)) (range_incl 0 (Nat.min n mmax)))) (range_incl nmin nmax)))).
  { intros x. unfold clo_t. rewrite <- Rsum_map_scal. apply Rsum_map_ext. intros n _. unfold sum_t.
    transitivity (rr s (r / a) n * (sin x * Rsum (map (fun m : nat => - ang p (g n) (h n) m * rawd n m x) (range_incl 0 (Nat.min n mmax))))); [|ring].
    f_equal. rewrite <- Rsum_map_scal. apply Rsum_map_ext. intros m _. ring. }
  apply (is_derive_Rsum (fun n x => rr s (r / a) n * Rsum (map (fun m => - ang p (g n) (h n) m * (sin x * rawd n m x)) (range_incl 0 (Nat.min n mmax))))).
  intros n Hin. eapply is_derive_eq.
  - apply is_derive_scalR. apply (is_derive_Rsum (fun m x => - ang p (g n) (h n) m * (sin x * rawd n m x))
      (fun m => - ang p (g n) (h n) m * (INR m ^ 2 * reg n m t - INR n * (INR n + 1) * sin t * schmidt n m t))).
    intros m Hm. apply range_incl_spec in Hm. apply is_derive_scalR. eapply is_derive_eq; [apply is_derive_sin_rawd|].
    apply rawd_ode. lia.
  - f_equal. unfold SP, SM. rewrite <- Rsum_map_scal.
    match goal with |- _ = ?A - ?B => replace (A - B) with (A + (-1) * B) by ring end.
    rewrite <- Rsum_map_scal, <- Rsum_map_plus. apply Rsum_map_ext. intros m _. ring.
Qed.

Lemma div_p : is_derive (fun x => clo_p s a nmin nmax mmax g h r t x) p
  (Rsum (map (fun n => rr s (r / a) n * SM n) (range_incl nmin nmax))).
Proof.
  unfold clo_p, sum_p. apply (is_derive_Rsum (fun n x => rr s (r / a) n * Rsum (map (fun m => ang' x (g n) (h n) m * (INR m * reg n m t)) (range_incl 0 (Nat.min n mmax))))).
  intros n _. apply is_derive_scalR.
  apply (is_derive_Rsum (fun m x => ang' x (g n) (h n) m * (INR m * reg n m t))).
  intros m _. unfold ang', ang. auto_derive; [exact I|]. ring.
Qed.

Lemma div_zero :
  (Rsum (map (fun n => - (INR n * (INR n + 1)) * (r * rr s (r / a) n) * SP n) (range_incl nmin nmax))) / r ^ 2
  + (Rsum (map (fun n => rr s (r / a) n * (INR n * (INR n + 1) * sin t * SP n - SM n)) (range_incl nmin nmax))) / (r * sin t)
  + (Rsum (map (fun n => rr s (r / a) n * SM n) (range_incl nmin nmax))) / (r * sin t) = 0.
Proof.
  assert (X : forall x y, x / y = / y * x) by (intros; unfold Rdiv; ring).
  rewrite (X _ (r ^ 2)), !(X _ (r * sin t)). rewrite <- !Rsum_map_scal, <- !Rsum_map_plus. apply Rsum_map_0. intros n _. field. split; [exact Ht|lra].
Qed.
End Div.

Lemma C72 oob a l nmin nmax mmax s r theta phi :
  0 < a -> 0 < r -> 0 < theta < 180 -> (1 <= nmin <= nmax)%nat -> (count mmax nmin (nmax + 1) <= List.length l)%nat ->
  let B r t p := synth_values oob a (cvec l) (scalar r) (scalar (t * 180 / PI)) (scalar (p * 180 / PI))
               (Some (Z.of_nat nmin)) (Some (Z.of_nat nmax)) (Some (Z.of_nat mmax)) (Some (src_name s)) false in
  let t := rad theta in let p := rad phi in
  exists d_r d_t d_p,
    is_derive (fun x => x ^ 2 * comp_r (B x t p)) r d_r /\
    is_derive (fun x => sin x * comp_t (B r x p)) t d_t /\
    is_derive (fun x => comp_p (B r t x)) p d_p /\
    d_r / r ^ 2 + d_t / (r * sin t) + d_p / (r * sin t) = 0.
Proof.
  intros Ha Hr Ht Hn L B t p. destruct (rep_ex mmax nmin nmax l ltac:(lia) L) as (g & h & rest & E).
  pose proof PI_RGT_0 as HPI.
  assert (RD : forall x, rad (x * 180 / PI) = x) by (intros x; unfold rad; field; lra).
  assert (Tr : 0 < t < PI) by (unfold t, rad; nra).
  assert (Ts : 0 < sin t) by (apply sin_gt_0; lra).
  assert (C : forall x t p, 0 <= t <= PI ->
     comp_r (B x t p) = clo_r s a nmin nmax mmax g h x t p /\
     comp_t (B x t p) = clo_t s a nmin nmax mmax g h x t p /\
     comp_p (B x t p) = clo_p s a nmin nmax mmax g h x t p).
  { intros x t' p' H'.
    destruct (sv_scalar oob a l x (t' * 180 / PI) (p' * 180 / PI) nmin nmax mmax s g h rest Hn) as (F & EF & _ & X1 & X2 & X3).
    - split; [apply Rmult_le_pos; [nra|left; apply Rinv_0_lt_compat; lra]|].
      apply (Rmult_le_reg_r PI); [lra|]. unfold Rdiv. rewrite Rmult_assoc, Rinv_l by lra. nra.
    - exact E.
    - unfold B. rewrite EF. cbn [comp_r comp_t comp_p]. rewrite !RD in X1, X2, X3. auto. }
  eexists _, _, _. split; [|split; [|split]].
  - apply (is_derive_ext (fun x => x ^ 2 * clo_r s a nmin nmax mmax g h x t p)).
    + intros x. f_equal. symmetry. apply C. lra.
    + apply div_r; (assumption || lra).
  - apply (is_derive_ext_loc (fun x => sin x * clo_t s a nmin nmax mmax g h r x p)).
    + assert (Hp : 0 < Rmin t (PI - t)) by (apply Rmin_glb_lt; lra).
      exists (mkposreal _ Hp). intros x Hx. change (Rabs (x - t) < Rmin t (PI - t)) in Hx.
      pose proof (Rmin_l t (PI - t)). pose proof (Rmin_r t (PI - t)). apply Rabs_def2 in Hx.
      f_equal. symmetry. apply C. lra.
    + apply div_t; (assumption || lra).
  - apply (is_derive_ext (fun x => clo_p s a nmin nmax mmax g h r t x)).
    + intros x. symmetry. apply C. lra.
    + apply div_p; (assumption || lra).
  - apply div_zero; lra || assumption.
Qed.
