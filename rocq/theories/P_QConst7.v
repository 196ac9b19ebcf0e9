(** The two power series: independence, absence of zeros, partial sums *)
From Coq Require Import Reals List Lia Lra Psatz.
From Coquelicot Require Import Coquelicot.
From Verif Require Import M_Rotate M_QConst Spec_Induction Spec_InductionC P_Response P_Response2 P_Induction P_QConst1 P_QConst2 P_QConst3 P_QConst4 P_QConst6.
Import ListNotations.
Open Scope R_scope.

(** ** A solution that is bounded at the centre has no zero *)
Section bounded.
Variables (w mu0 : R) (n : nat) (s : R) (u du ddu v dv : R -> C) (d B : R).
Hypothesis Hs : forall x, 0 < x -> solves w mu0 n s u du ddu x.
Hypothesis Hd : 0 < d.
Hypothesis HB : 0 <= B.
Hypothesis Hb : forall x, 0 < x < d -> Cmod (u x) <= B.
Hypothesis HW : forall x, 0 < x -> wron u du v dv x <> RtoC 0.

Lemma bounded_energy x : 0 < x -> 0 <= energy u du x.
Proof.
  intros Hx. destruct (Rle_dec 0 (energy u du x)) as [H|H]; [exact H|exfalso]. apply Rnot_le_lt in H.
  set (c := - energy u du x). assert (0 < c) by (unfold c; lra).
  assert (Grow : forall y, 0 < y -> y <= x -> 2 * c / y - 2 * c / x <= size u y).
  { intros y Hy Hyx. assert ((2 * c / y - size u y) <= (2 * c / x - size u x)).
    { apply (der_nondecr (fun r => 2 * c / r - size u r) (fun r => - (2 * c) / r ^ 2 - size' u du r)); [exact Hyx | |].
      - intros z Hz. apply (is_derive_minus (fun r => 2 * c / r) (size u)).
        + auto_derive; [lra | field; lra].
        + apply (size_der w mu0 n s _ _ ddu). apply Hs. lra.
      - intros z Hz. assert (energy u du z <= energy u du x) by (apply (energy_mono w mu0 n s u du ddu); [lra | intros; apply Hs; lra]).
        unfold size'. unfold energy at 1 in H1. assert (0 < z ^ 2) by (apply pow_lt; lra).
        assert (dotC (du z) (u z) <= - c / z ^ 2).
        { apply (Rmult_le_reg_l (z ^ 2)); [lra|]. replace (z ^ 2 * (- c / z ^ 2)) with (- c) by (field; lra). unfold c. lra. }
        replace (- (2 * c) / z ^ 2) with (2 * (- c / z ^ 2)) by (field; lra). lra. }
    pose proof (dot_nonneg (u x)). unfold size in *. lra. }
  set (K := B * B + 2 * c / x + 1). assert (0 < 2 * c / x) by (apply Rdiv_lt_0_compat; lra).
  assert (0 < K) by (unfold K; pose proof (Rle_0_sqr B); unfold Rsqr in *; lra).
  set (y := Rmin (Rmin x (d / 2)) (2 * c / K)).
  assert (0 < 2 * c / K) by (apply Rdiv_lt_0_compat; lra).
  assert (0 < y) by (unfold y; repeat apply Rmin_case; lra).
  assert (y <= Rmin x (d / 2)) by apply Rmin_l. assert (Rmin x (d / 2) <= x) by apply Rmin_l. assert (Rmin x (d / 2) <= d / 2) by apply Rmin_r.
  assert (y <= 2 * c / K) by apply Rmin_r.
  specialize (Grow y H4 ltac:(lra)). pose proof (Hb y ltac:(lra)) as HP.
  assert (K <= 2 * c / y).
  { apply (Rmult_le_reg_r y); [assumption|]. replace (2 * c / y * y) with (2 * c) by (field; lra).
    apply Rle_trans with (K * (2 * c / K)); [apply Rmult_le_compat_l; lra | right; field; lra]. }
  unfold size in Grow. rewrite dot_mod in Grow. pose proof (Cmod_ge_0 (u y)).
  assert (Cmod (u y) * Cmod (u y) <= B * B) by (apply Rmult_le_compat; lra). unfold K in *. lra.
Qed.

Lemma bounded_ne x : 0 < x -> u x <> RtoC 0.
Proof.
  intros Hx E.
  assert (Z0 : forall y, x / 2 <= y <= x -> u y = RtoC 0).
  { intros y Hy. apply dot_zero. apply Rle_antisym; [|apply dot_nonneg].
    assert (size u y <= size u x).
    { apply (size_mono w mu0 n s u du ddu); [lra | lra | intros; apply Hs; lra | apply bounded_energy; lra]. }
    unfold size in H. rewrite E, dot_zero_l in H. exact H. }
  apply (HW (x / 2)); [lra|]. unfold wron. rewrite (Z0 (x / 2)) by lra.
  destruct (Hs (x / 2) ltac:(lra)) as ([U1 U2] & _).
  assert (A1 := zero_right _ (x / 2) x _ ltac:(lra) (fun y Hy => f_equal fst (Z0 y Hy)) U1).
  assert (A2 := zero_right _ (x / 2) x _ ltac:(lra) (fun y Hy => f_equal snd (Z0 y Hy)) U2).
  assert (Ed : du (x / 2) = RtoC 0) by (destruct (du (x / 2)); cbn [fst snd] in *; unfold RtoC; f_equal; assumption).
  rewrite Ed. ring.
Qed.
End bounded.

(** ** The pair of series *)
Section pair.
Variables (n : nat) (kap w mu0 s : R).
Hypothesis Hkap : 0 < kap.
Hypothesis Hw : w * mu0 * s = kap.
Definition alp : R := INR n.
Definition alq : R := - (INR n + 1).
Lemma alp_ok j : 2 * INR j + 2 * alp + 3 <> 0.
Proof. unfold alp. pose proof (pos_INR j). pose proof (pos_INR n). lra. Qed.
Lemma alq_ok j : 2 * INR j + 2 * alq + 3 <> 0.
Proof.
  unfold alq. intros E. assert (X : INR (2 * j + 1) = INR (2 * n)) by (rewrite plus_INR, !mult_INR; cbn [INR]; lra).
  apply INR_eq in X. lia.
Qed.
Definition up := us kap alp.  Definition dup := dus kap alp.  Definition ddup := ddus kap alp.
Definition uq := us kap alq.  Definition duq := dus kap alq.  Definition dduq := ddus kap alq.
Lemma up_solves x : 0 < x -> solves w mu0 n s up dup ddup x.
Proof. intros Hx. apply us_solves; [exact Hkap | apply alp_ok | exact Hx | unfold alp; ring | exact Hw]. Qed.
Lemma uq_solves x : 0 < x -> solves w mu0 n s uq duq dduq x.
Proof. intros Hx. apply us_solves; [exact Hkap | apply alq_ok | exact Hx | unfold alq; ring | exact Hw]. Qed.

Definition Hf (x : R) : C :=
  Cminus (Cmult (ff kap alp (x ^ 2)) (Cplus (Cmult (RtoC alq) (ff kap alq (x ^ 2))) (Cmult (RtoC (2 * x ^ 2)) (df kap alq (x ^ 2)))))
         (Cmult (Cplus (Cmult (RtoC alp) (ff kap alp (x ^ 2))) (Cmult (RtoC (2 * x ^ 2)) (df kap alp (x ^ 2)))) (ff kap alq (x ^ 2))).
Lemma smooth_ofR (f : R -> R) x l : is_derive f x l -> smooth (fun r => RtoC (f r)) x.
Proof. intros H. eexists. apply Cder_ofR. exact H. Qed.
Lemma Hf_smooth x : smooth Hf x.
Proof.
  assert (F1 : forall al, (forall j, 2 * INR j + 2 * al + 3 <> 0) -> smooth (fun r => ff kap al (r ^ 2)) x).
  { intros al Ha. eexists. apply (Cder_sq _ (df kap al)). apply ff_der; assumption. }
  assert (F2 : forall al, (forall j, 2 * INR j + 2 * al + 3 <> 0) -> smooth (fun r => df kap al (r ^ 2)) x).
  { intros al Ha. eexists. apply (Cder_sq _ (ddf kap al)). apply df_der; assumption. }
  assert (F3 : smooth (fun r => RtoC (2 * r ^ 2)) x).
  { apply (smooth_ofR (fun r => 2 * r ^ 2) x (4 * x)). auto_derive; [exact I | ring]. }
  assert (F4 : forall al, (forall j, 2 * INR j + 2 * al + 3 <> 0) ->
     smooth (fun r => Cplus (Cmult (RtoC al) (ff kap al (r ^ 2))) (Cmult (RtoC (2 * r ^ 2)) (df kap al (r ^ 2)))) x).
  { intros al Ha. apply (smooth_plus (fun r => Cmult (RtoC al) (ff kap al (r ^ 2))) (fun r => Cmult (RtoC (2 * r ^ 2)) (df kap al (r ^ 2)))).
    - apply (smooth_mult (fun _ => RtoC al) (fun r => ff kap al (r ^ 2))); [apply smooth_const | apply F1; exact Ha].
    - apply (smooth_mult (fun r => RtoC (2 * r ^ 2)) (fun r => df kap al (r ^ 2))); [exact F3 | apply F2; exact Ha]. }
  apply (smooth_minus
    (fun r => Cmult (ff kap alp (r ^ 2)) (Cplus (Cmult (RtoC alq) (ff kap alq (r ^ 2))) (Cmult (RtoC (2 * r ^ 2)) (df kap alq (r ^ 2)))))
    (fun r => Cmult (Cplus (Cmult (RtoC alp) (ff kap alp (r ^ 2))) (Cmult (RtoC (2 * r ^ 2)) (df kap alp (r ^ 2)))) (ff kap alq (r ^ 2)))).
  - apply (smooth_mult (fun r => ff kap alp (r ^ 2)) (fun r => Cplus (Cmult (RtoC alq) (ff kap alq (r ^ 2))) (Cmult (RtoC (2 * r ^ 2)) (df kap alq (r ^ 2))))).
    + apply F1, alp_ok.
    + apply F4, alq_ok.
  - apply (smooth_mult (fun r => Cplus (Cmult (RtoC alp) (ff kap alp (r ^ 2))) (Cmult (RtoC (2 * r ^ 2)) (df kap alp (r ^ 2)))) (fun r => ff kap alq (r ^ 2))).
    + apply F4, alp_ok.
    + apply F1, alq_ok.
Qed.
Lemma Hf_0 : Hf 0 = RtoC (- (2 * INR n + 1)).
Proof.
  unfold Hf. replace (0 ^ 2) with 0 by ring. rewrite !ff_0. rewrite Rmult_0_r. unfold alp, alq.
  rewrite !RC_opp, !RC_plus, RC_mult, two_c. ring.
Qed.
Lemma xa_prod x : 0 < x -> xa alp x * xa alq x = / x.
Proof.
  intros Hx. unfold xa, alp, alq. rewrite <- exp_plus. replace (INR n * ln x + - (INR n + 1) * ln x) with (- ln x) by ring.
  rewrite exp_Ropp, exp_ln by exact Hx. reflexivity.
Qed.
Lemma wron_Hf x : 0 < x -> wron up dup uq duq x = Hf x.
Proof.
  intros Hx. unfold wron, up, dup, uq, duq, us, dus, vs.
  pose proof (xa_prod x Hx) as E. set (a := xa alp x) in *. set (b := xa alq x) in *.
  assert (Eb : RtoC b = Cdiv (RtoC (/ x)) (RtoC a)).
  { assert (0 < a) by apply exp_pos. rewrite <- RC_div by lra. f_equal. rewrite <- E. field. lra. }
  rewrite Eb. unfold Hf. rewrite RC_inv by lra. assert (RtoC a <> RtoC 0) by (apply RtoC_neq; assert (0 < a) by apply exp_pos; lra).
  assert (RtoC x <> RtoC 0) by (apply RtoC_neq; lra). 
  rewrite !(RC_mult 2 (x ^ 2)). replace (RtoC (x ^ 2)) with (Cmult (RtoC x) (RtoC x)) by (rewrite <- RC_mult; f_equal; ring). 
  field. split; assumption.
Qed.
Lemma wron_pq_ne x : 0 < x -> wron up dup uq duq x <> RtoC 0.
Proof.
  intros Hx E.
  assert (Same : forall a, 0 < a -> wron up dup uq duq a = RtoC 0).
  { intros a Ha. rewrite <- E. destruct (Rle_dec a x) as [H|H].
    - symmetry. apply (wron_const w mu0 n s _ _ ddup _ _ dduq); [exact H | intros; apply up_solves; lra | intros; apply uq_solves; lra].
    - apply (wron_const w mu0 n s _ _ ddup _ _ dduq); [lra | intros; apply up_solves; lra | intros; apply uq_solves; lra]. }
  destruct (smooth_close Hf 0 1 (Hf_smooth 0)) as (d & Hd & H); [lra|].
  specialize (H (d / 2)). rewrite Rminus_0_r, Rabs_pos_eq in H by lra. specialize (H ltac:(lra)).
  rewrite <- wron_Hf in H by lra. rewrite Same in H by lra. rewrite Hf_0 in H.
  replace (Cminus (RtoC 0) (RtoC (- (2 * INR n + 1)))) with (RtoC (2 * INR n + 1)) in H by (rewrite RC_opp; ring).
  pose proof (pos_INR n). rewrite Cmod_R, Rabs_pos_eq in H by lra. lra.
Qed.
Lemma xa_pow x : 0 < x -> xa alp x = x ^ n.
Proof. intros Hx. unfold xa, alp. change (Rpower x (INR n) = x ^ n). apply Rpower_pow. exact Hx. Qed.
Lemma up_ne x : 0 < x -> up x <> RtoC 0.
Proof.
  destruct (smooth_close (fun r => ff kap alp (r ^ 2)) 0 1) as (d & Hd & H).
  { eexists. apply (Cder_sq _ (df kap alp)). apply ff_der; [exact Hkap | apply alp_ok]. }
  { lra. }
  apply (bounded_ne w mu0 n s up dup ddup uq duq (Rmin 1 d) 2 up_solves).
  - apply Rmin_case; lra.
  - intros y Hy. assert (y < 1) by (pose proof (Rmin_l 1 d); lra). assert (y < d) by (pose proof (Rmin_r 1 d); lra).
    specialize (H y). rewrite Rminus_0_r, Rabs_pos_eq in H by lra. specialize (H ltac:(lra)).
    replace (0 ^ 2) with 0 in H by ring. rewrite ff_0 in H.
    unfold up, us. rewrite Cmod_mult, Cmod_R, xa_pow by lra. rewrite Rabs_pos_eq by (apply pow_le; lra).
    set (z := ff kap alp (y ^ 2)) in *. pose proof (Cmod_triangle (Cminus z (RtoC 1)) (RtoC 1)) as T1.
    replace (Cplus (Cminus z (RtoC 1)) (RtoC 1)) with z in T1 by ring. rewrite (Cmod_R 1), Rabs_R1 in T1.
    assert (y ^ n <= 1) by (rewrite <- (pow1 n); apply pow_incr; lra). assert (0 <= y ^ n) by (apply pow_le; lra). pose proof (Cmod_ge_0 z). nra.
  - apply wron_pq_ne.
Qed.
End pair.

(** ** Partial sums *)
Section partial_sums.
Variables (kap al : R).
Hypothesis Hkap : 0 < kap.
Hypothesis Hal : forall j, 2 * INR j + 2 * al + 3 <> 0.
Definition term (zz : C) (j : nat) : C := Cmult (RtoC (cc al j)) (cpow zz j).

Lemma term_parts t j : term (0, kap / 2 * t) j = (aR kap al j * t ^ j, aI kap al j * t ^ j).
Proof.
  unfold term. replace ((0, kap / 2 * t) : C) with (Cmult (RtoC (kap / 2 * t)) Ci).
  - rewrite cpow_mul, cpow_R, Rpow_mult_distr. unfold aR, aI, cm, Cmult, RtoC. cbn [fst snd]. f_equal; ring.
  - unfold Cmult, RtoC, Ci. cbn [fst snd]. f_equal; ring.
Qed.

Definition Ctends (f : nat -> C) (l : C) : Prop := forall e, 0 < e -> exists N, forall m, (N <= m)%nat -> Cmod (Cminus (f m) l) < e.

Lemma csum_fst f m : fst (csum f (S m)) = sum_n (fun j => fst (f j)) m.
Proof.
  induction m.
  - rewrite sum_O. cbn [csum]. unfold Cplus, RtoC. cbn [fst snd]. ring.
  - rewrite sum_Sn. change (csum f (S (S m))) with (Cplus (csum f (S m)) (f (S m))). unfold Cplus. cbn [fst]. rewrite IHm. reflexivity.
Qed.
Lemma csum_snd f m : snd (csum f (S m)) = sum_n (fun j => snd (f j)) m.
Proof.
  induction m.
  - rewrite sum_O. cbn [csum]. unfold Cplus, RtoC. cbn [fst snd]. ring.
  - rewrite sum_Sn. change (csum f (S (S m))) with (Cplus (csum f (S m)) (f (S m))). unfold Cplus. cbn [snd]. rewrite IHm. reflexivity.
Qed.
Lemma sum_lim (a : nat -> R) (t : R) : CV_radius a = p_infty -> is_lim_seq (sum_n (fun j => a j * t ^ j)) (PSeries a t).
Proof.
  intros H. assert (P := PSeries_correct a t (CV_radius_inside a t ltac:(rewrite H; exact I))). unfold is_pseries, is_series in P.
  eapply filterlim_ext; [|exact P]. intros m. apply sum_n_ext. intros j. rewrite pow_n_pow. unfold scal; cbn. unfold mult; cbn. ring.
Qed.
Lemma Rtends (f : nat -> R) (l : R) : is_lim_seq f l -> forall e, 0 < e -> exists N, forall m, (N <= m)%nat -> Rabs (f m - l) < e.
Proof.
  intros H e He. apply is_lim_seq_spec in H. destruct (H (mkposreal e He)) as (N & HN). exists N. exact HN.
Qed.
Lemma Ctends_parts (f : nat -> C) (a b : R) : is_lim_seq (fun m => fst (f (S m))) a -> is_lim_seq (fun m => snd (f (S m))) b -> Ctends f (a, b).
Proof.
  intros A B e He. destruct (Rtends _ _ A (e / 2)) as (N1 & H1); [lra|]. destruct (Rtends _ _ B (e / 2)) as (N2 & H2); [lra|].
  exists (S (Nat.max N1 N2)). intros [|m] Hm; [lia|]. specialize (H1 m ltac:(lia)). specialize (H2 m ltac:(lia)).
  eapply Rle_lt_trans; [apply Cmod_sum|]. unfold Cminus, Cplus, Copp. cbn [fst snd]. unfold Rminus in *. lra.
Qed.

Lemma sum_tends t : Ctends (csum (term (0, kap / 2 * t))) (ff kap al t).
Proof.
  apply Ctends_parts.
  - eapply is_lim_seq_ext; [|apply (sum_lim (aR kap al) t), aR_radius; assumption]. intros m. cbv beta. rewrite csum_fst. apply sum_n_ext. intros j. rewrite term_parts. reflexivity.
  - eapply is_lim_seq_ext; [|apply (sum_lim (aI kap al) t), aI_radius; assumption]. intros m. cbv beta. rewrite csum_snd. apply sum_n_ext. intros j. rewrite term_parts. reflexivity.
Qed.

Lemma lin_lim (a : nat -> R) (t : R) : CV_radius a = p_infty ->
  is_lim_seq (sum_n (fun j => (2 * INR j + al) * (a j * t ^ j))) (al * PSeries a t + 2 * t * PSeries (PS_derive a) t).
Proof.
  intros H.
  assert (L1 := sum_lim a t H). assert (L2 := sum_lim (PS_incr_1 (PS_derive a)) t ltac:(rewrite CV_radius_incr_1, CV_radius_derive; exact H)).
  rewrite PSeries_incr_1 in L2.
  assert (L3 := is_lim_seq_plus' _ _ _ _ (is_lim_seq_scal_l _ al _ L1) (is_lim_seq_scal_l _ 2 _ L2)).
  replace (al * PSeries a t + 2 * t * PSeries (PS_derive a) t) with (al * PSeries a t + 2 * (t * PSeries (PS_derive a) t)) by ring.
  eapply is_lim_seq_ext; [|exact L3]. intros m. cbv beta.
  rewrite <- !(sum_n_mult_l (K := R_Ring)). rewrite <- (sum_n_plus (G := R_AbelianGroup)). apply sum_n_ext. intros j. unfold plus, mult; cbn -[INR].
  unfold PS_incr_1, PS_derive. destruct j; [unfold zero; cbn|]; match goal with |- ?a = ?b => change (@eq R a b) end; ring.
Qed.
Lemma dsum_tends t : Ctends (csum (fun j => Cmult (RtoC (2 * INR j + al)) (term (0, kap / 2 * t) j)))
  (Cplus (Cmult (RtoC al) (ff kap al t)) (Cmult (RtoC (2 * t)) (df kap al t))).
Proof.
  replace (Cplus (Cmult (RtoC al) (ff kap al t)) (Cmult (RtoC (2 * t)) (df kap al t)))
    with ((al * PSeries (aR kap al) t + 2 * t * PSeries (PS_derive (aR kap al)) t, al * PSeries (aI kap al) t + 2 * t * PSeries (PS_derive (aI kap al)) t) : C).
  2:{ unfold ff, df, Cplus, Cmult, RtoC. cbn [fst snd]. f_equal; ring. }
  apply Ctends_parts.
  - eapply is_lim_seq_ext; [|apply (lin_lim (aR kap al) t), aR_radius; assumption]. intros m. cbv beta. rewrite csum_fst. apply sum_n_ext. intros j. rewrite term_parts.
    unfold Cmult, RtoC. cbn [fst snd]. match goal with |- ?a = ?b => change (@eq R a b) end. ring.
  - eapply is_lim_seq_ext; [|apply (lin_lim (aI kap al) t), aI_radius; assumption]. intros m. cbv beta. rewrite csum_snd. apply sum_n_ext. intros j. rewrite term_parts.
    unfold Cmult, RtoC. cbn [fst snd]. match goal with |- ?a = ?b => change (@eq R a b) end. ring.
Qed.
End partial_sums.

(** Terms go to zero for every argument *)
Lemma Cmod_cpow z j : Cmod (cpow z j) = Cmod z ^ j.
Proof. induction j; cbn [cpow pow]; [rewrite Cmod_R, Rabs_R1; reflexivity|]. rewrite Cmod_mult, IHj. reflexivity. Qed.
Lemma term_small al zz e : (forall j, 2 * INR j + 2 * al + 3 <> 0) -> 0 < e -> exists N, forall m, (N <= m)%nat -> Cmod (term al zz m) <= e.
Proof.
  intros Hal He. destruct (Ceq_dec zz (RtoC 0)) as [->|N0].
  - exists 1%nat. intros [|m] Hm; [lia|]. unfold term. cbn [cpow]. rewrite !Cmod_mult, Cmod_0. rewrite Rmult_0_l, Rmult_0_r. lra.
  - set (kap := 2 * Cmod zz). assert (Hz : 0 < Cmod zz) by (apply Cmod_gt_0; exact N0).
    assert (Hk : 0 < kap) by (unfold kap; lra).
    assert (R0 := cm_radius kap al Hk Hal).
    assert (S0 := CV_disk_inside (cm kap al) 1 ltac:(rewrite R0; exact I)).
    apply ex_series_lim_0 in S0. destruct (Rtends _ 0 S0 e He) as (N & HN). exists N. intros m Hm. specialize (HN m Hm).
    unfold term. rewrite Cmod_mult, Cmod_R, Cmod_cpow. rewrite pow1, Rmult_1_r, Rminus_0_r, Rabs_Rabsolu in HN.
    unfold cm in HN. replace (kap / 2) with (Cmod zz) in HN by (unfold kap; field).
    rewrite Rabs_mult in HN. rewrite (Rabs_pos_eq (Cmod zz ^ m)) in HN by (apply pow_le; lra). lra.
Qed.
