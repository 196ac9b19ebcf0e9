(** Power series solutions of the induction equation in a homogeneous shell *)
From Coq Require Import Reals List Lia Lra Psatz.
From Coquelicot Require Import Coquelicot.
From Verif Require Import M_Rotate M_QConst Spec_Induction Spec_InductionC P_Response P_Response2 P_Induction P_QConst1 P_QConst2 P_QConst3 P_QConst4.
Import ListNotations.
Open Scope R_scope.

Lemma Ci_pow_le j : Rabs (fst (cpow Ci j)) <= 1 /\ Rabs (snd (cpow Ci j)) <= 1.
Proof.
  assert (H : Cmod (cpow Ci j) = 1).
  { induction j; cbn [cpow]; [rewrite Cmod_R, Rabs_R1; reflexivity|]. rewrite Cmod_mult, IHj, Rmult_1_r.
    unfold Cmod, Ci. cbn [fst snd]. replace (0 ^ 2 + 1 ^ 2) with 1 by ring. apply sqrt_1. }
  split; rewrite <- H; [apply Cmod_re_le | apply Cmod_im_le].
Qed.

Lemma radius_dominated (a m : nat -> R) : (forall j, Rabs (a j) <= Rabs (m j)) -> CV_radius m = p_infty -> CV_radius a = p_infty.
Proof.
  intros H Hm. destruct (CV_radius_bounded a) as [Ub _]. destruct (CV_radius_bounded m) as [_ Lm].
  assert (L : Rbar_le p_infty (CV_radius a)).
  { rewrite <- Hm. apply Lm. intros r (M & HM). apply Ub. exists M. intros j. eapply Rle_trans; [|apply (HM j)].
    rewrite !Rabs_mult. apply Rmult_le_compat_r; [apply Rabs_pos | apply H]. }
  destruct (CV_radius a); cbn in L; [contradiction | reflexivity | contradiction].
Qed.

(** A series [sum c_j (i kap/2)^j t^j] with real coefficients c_j *)
Section series.
Variables (kap al : R).
Hypothesis Hkap : 0 < kap.
Hypothesis Hal : forall j, 2 * INR j + 2 * al + 3 <> 0.

Fixpoint cc (j : nat) : R := match j with O => 1 | S j => cc j / (INR (S j) * (2 * INR j + 2 * al + 3)) end.
Lemma cc_ne j : cc j <> 0.
Proof.
  induction j; cbn [cc]; [lra|]. unfold Rdiv. apply Rmult_integral_contrapositive_currified; [exact IHj|].
  apply Rinv_neq_0_compat. apply Rmult_integral_contrapositive_currified; [apply not_0_INR; discriminate | apply Hal].
Qed.
Definition cm (j : nat) : R := cc j * (kap / 2) ^ j.
Definition aR (j : nat) : R := cm j * fst (cpow Ci j).
Definition aI (j : nat) : R := cm j * snd (cpow Ci j).

Lemma cm_radius : CV_radius cm = p_infty.
Proof.
  apply CV_radius_infinite_DAlembert.
  - intros j. apply Rmult_integral_contrapositive_currified; [apply cc_ne | apply pow_nonzero; lra].
  - apply (is_lim_seq_ext (fun j => kap / 2 * (/ INR (S j) * Rabs (/ (2 * INR j + 2 * al + 3))))).
    { intros j. unfold cm. cbn [cc pow]. pose proof (cc_ne j). assert (INR (S j) <> 0) by (apply not_0_INR; discriminate). pose proof (Hal j).
      assert (0 < INR (S j)) by (apply lt_0_INR; lia).
      replace (cc j / (INR (S j) * (2 * INR j + 2 * al + 3)) * (kap / 2 * (kap / 2) ^ j) / (cc j * (kap / 2) ^ j))
        with (kap / 2 * (/ INR (S j) * / (2 * INR j + 2 * al + 3))) by (field; repeat split; try assumption; try lra; apply pow_nonzero; lra).
      rewrite !Rabs_mult, !Rabs_inv. rewrite (Rabs_pos_eq (kap / 2)), (Rabs_pos_eq (INR (S j))) by lra. reflexivity. }
    assert (L1 : is_lim_seq (fun j => / INR (S j)) 0).
    { apply (is_lim_seq_inv _ p_infty).
      - apply (is_lim_seq_incr_1 INR). apply is_lim_seq_INR.
      - discriminate. }
    assert (L2 : is_lim_seq (fun j => Rabs (/ (2 * INR j + 2 * al + 3))) 0).
    { apply (is_lim_seq_abs_0 (fun j => / (2 * INR j + 2 * al + 3))). apply (is_lim_seq_inv _ p_infty); [|discriminate].
      apply (is_lim_seq_ext (fun j => 2 * INR j + (2 * al + 3))); [intros; ring|].
      eapply is_lim_seq_plus; [apply (is_lim_seq_scal_l _ 2 p_infty is_lim_seq_INR) | apply is_lim_seq_const |].
      unfold is_Rbar_plus. cbn. destruct (Rle_dec 0 2); [|lra]. destruct (Rle_lt_or_eq_dec 0 2 r); [reflexivity|lra]. }
    assert (L := is_lim_seq_scal_l _ (kap / 2) (Finite (0 * 0)) (is_lim_seq_mult' _ _ 0 0 L1 L2)).
    cbn in L. replace (kap / 2 * (0 * 0)) with 0 in L by ring. exact L.
Qed.
Lemma aR_radius : CV_radius aR = p_infty.
Proof.
  apply (radius_dominated aR cm); [|apply cm_radius]. intros j. unfold aR. rewrite Rabs_mult.
  pose proof (Rabs_pos (cm j)). destruct (Ci_pow_le j) as [L _]. rewrite <- (Rmult_1_r (Rabs (cm j))) at 2. apply Rmult_le_compat_l; assumption.
Qed.
Lemma aI_radius : CV_radius aI = p_infty.
Proof.
  apply (radius_dominated aI cm); [|apply cm_radius]. intros j. unfold aI. rewrite Rabs_mult.
  pose proof (Rabs_pos (cm j)). destruct (Ci_pow_le j) as [_ L]. rewrite <- (Rmult_1_r (Rabs (cm j))) at 2. apply Rmult_le_compat_l; assumption.
Qed.

(** Recursion of the coefficients *)
Lemma aR_step j : INR (S j) * (4 * INR j + (4 * al + 6)) * aR (S j) = - kap * aI j.
Proof.
  unfold aR, aI, cm. cbn [cc cpow pow]. unfold Cmult, Ci. cbn [fst snd]. pose proof (Hal j).
  assert (INR (S j) <> 0) by (apply not_0_INR; discriminate). field. split; assumption.
Qed.
Lemma aI_step j : INR (S j) * (4 * INR j + (4 * al + 6)) * aI (S j) = kap * aR j.
Proof.
  unfold aR, aI, cm. cbn [cc cpow pow]. unfold Cmult, Ci. cbn [fst snd]. pose proof (Hal j).
  assert (INR (S j) <> 0) by (apply not_0_INR; discriminate). field. split; assumption.
Qed.

Definition ff (t : R) : C := (PSeries aR t, PSeries aI t).
Definition df (t : R) : C := (PSeries (PS_derive aR) t, PSeries (PS_derive aI) t).
Definition ddf (t : R) : C := (PSeries (PS_derive (PS_derive aR)) t, PSeries (PS_derive (PS_derive aI)) t).
Lemma ff_der t : Cder ff t (df t).
Proof. split; apply is_derive_PSeries; [rewrite aR_radius | rewrite aI_radius]; exact I. Qed.
Lemma df_der t : Cder df t (ddf t).
Proof. split; apply is_derive_PSeries; rewrite CV_radius_derive; [rewrite aR_radius | rewrite aI_radius]; exact I. Qed.
Lemma ff_0 : ff 0 = RtoC 1.
Proof. unfold ff. rewrite !PSeries_0. unfold aR, aI, cm. cbn. unfold RtoC. f_equal; ring. Qed.

Lemma pseries_equation (a b : nat -> R) (c e t : R) : e <> 0 -> CV_radius a = p_infty -> CV_radius b = p_infty ->
  (forall j, INR (S j) * (4 * INR j + e) * a (S j) = c * b j) ->
  4 * (t * PSeries (PS_derive (PS_derive a)) t) + e * PSeries (PS_derive a) t = c * PSeries b t.
Proof.
  intros Ne Ha Hb H. rewrite <- PSeries_incr_1, <- !PSeries_scal.
  rewrite <- PSeries_plus.
  - apply PSeries_ext. intros j. unfold PS_plus, PS_scal, PS_incr_1, PS_derive. cbn [plus scal mult]. 
    unfold plus, scal, mult; cbn -[INR]. destruct j as [|j].
    + rewrite <- (H O). unfold zero; cbn. ring.
    + rewrite <- (H (S j)). rewrite !S_INR. ring.
  - apply CV_radius_inside. rewrite CV_radius_scal, CV_radius_incr_1, !CV_radius_derive, Ha by lra. exact I.
  - apply CV_radius_inside. rewrite CV_radius_scal, !CV_radius_derive, Ha by exact Ne. exact I.
Qed.

Lemma ff_equation t :
  Cplus (Cmult (RtoC (4 * t)) (ddf t)) (Cmult (RtoC (4 * al + 6)) (df t)) = Cmult (0, kap) (ff t).
Proof.
  assert (Ne : 4 * al + 6 <> 0) by (pose proof (Hal 0) as H0; cbn [INR] in H0; lra).
  assert (E1 := pseries_equation aR aI (- kap) (4 * al + 6) t Ne aR_radius aI_radius aR_step).
  assert (E2 := pseries_equation aI aR kap (4 * al + 6) t Ne aI_radius aR_radius aI_step).
  unfold ddf, df, ff, Cplus, Cmult, RtoC. cbn [fst snd]. f_equal.
  - transitivity (- kap * PSeries aI t); [rewrite <- E1; ring | ring].
  - transitivity (kap * PSeries aR t); [rewrite <- E2; ring | ring].
Qed.

(** u = x^al f(x^2) *)
Definition xa (x : R) : R := exp (al * ln x).
Lemma xa_der x : 0 < x -> is_derive xa x (al * xa x / x).
Proof. intros Hx. unfold xa. auto_derive; [exact Hx | field; lra]. Qed.
Lemma xa_pos x : 0 < xa x.
Proof. apply exp_pos. Qed.

Lemma Cder_sq (f g : R -> C) x : Cder f (x ^ 2) (g (x ^ 2)) -> Cder (fun r => f (r ^ 2)) x (Cmult (RtoC (2 * x)) (g (x ^ 2))).
Proof.
  assert (S2 : is_derive (fun r : R => r ^ 2) x (2 * x)) by (auto_derive; [exact I | ring]).
  intros [D1 D2]. split.
  - eapply is_derive_eq; [apply (is_derive_comp (fun t => fst (f t)) (fun r => r ^ 2) x _ _ D1 S2)|].
    unfold scal; cbn. unfold mult; cbn. ring.
  - eapply is_derive_eq; [apply (is_derive_comp (fun t => snd (f t)) (fun r => r ^ 2) x _ _ D2 S2)|].
    unfold scal; cbn. unfold mult; cbn. ring.
Qed.

Definition us (x : R) : C := Cmult (RtoC (xa x)) (ff (x ^ 2)).
(** x u' *)
Definition vs (x : R) : C := Cmult (RtoC (xa x)) (Cplus (Cmult (RtoC al) (ff (x ^ 2))) (Cmult (RtoC (2 * x ^ 2)) (df (x ^ 2)))).
Definition dus (x : R) : C := Cmult (RtoC (/ x)) (vs x).
Definition dvs (x : R) : C :=
  Cplus (Cmult (RtoC (al * xa x / x)) (Cplus (Cmult (RtoC al) (ff (x ^ 2))) (Cmult (RtoC (2 * x ^ 2)) (df (x ^ 2)))))
        (Cmult (RtoC (xa x)) (Cplus (Cmult (RtoC al) (Cmult (RtoC (2 * x)) (df (x ^ 2))))
           (Cplus (Cmult (RtoC (4 * x)) (df (x ^ 2))) (Cmult (RtoC (2 * x ^ 2)) (Cmult (RtoC (2 * x)) (ddf (x ^ 2))))))).
Definition ddus (x : R) : C := Cplus (Cmult (RtoC (- / x ^ 2)) (vs x)) (Cmult (RtoC (/ x)) (dvs x)).

Lemma us_der x : 0 < x -> Cder us x (dus x).
Proof.
  intros Hx. unfold us. eapply Cder_eq.
  - apply Cder_mult; [apply (Cder_ofR xa x _ (xa_der x Hx)) | apply (Cder_sq ff df x (ff_der _))].
  - unfold dus, vs. rewrite RC_inv, RC_div by lra. rewrite !RC_mult. replace (RtoC (x ^ 2)) with (Cmult (RtoC x) (RtoC x)) by (rewrite <- RC_mult; f_equal; ring).
    field. apply RtoC_neq. lra.
Qed.
Lemma vs_der x : 0 < x -> Cder vs x (dvs x).
Proof.
  intros Hx. unfold vs. eapply Cder_eq.
  - apply Cder_mult; [apply (Cder_ofR xa x _ (xa_der x Hx))|].
    apply Cder_plus; [apply Cder_scal; apply (Cder_sq ff df x (ff_der _))|].
    apply Cder_mult; [apply (Cder_ofR (fun r => 2 * r ^ 2) x (4 * x)); auto_derive; [exact I | ring] | apply (Cder_sq df ddf x (df_der _))].
  - cbv beta. unfold dvs. ring.
Qed.
Lemma us_solves x (n : nat) w mu0 s : 0 < x -> al * (al + 1) = INR n * (INR n + 1) -> w * mu0 * s = kap -> solves w mu0 n s us dus ddus x.
Proof.
  intros Hx Ha Hw. split; [apply us_der; exact Hx|]. split.
  - apply (Cder_mult (fun r => RtoC (/ r)) vs x _ _ (Cder_inv x Hx) (vs_der x Hx)).
  - assert (E := ff_equation (x ^ 2)). set (f := ff (x ^ 2)) in *. set (g := df (x ^ 2)) in *. set (h := ddf (x ^ 2)) in *.
    replace (w * mu0 * (s * x ^ 2)) with (kap * x ^ 2) by (rewrite <- Hw; ring).
    replace ((INR n * (INR n + 1), kap * x ^ 2) : C) with (Cplus (RtoC (al * (al + 1))) (Cmult (RtoC (x ^ 2)) (0, kap))).
    2:{ rewrite Ha. unfold Cplus, Cmult, RtoC. cbn [fst snd]. f_equal; ring. }
    transitivity (Cplus (Cmult (RtoC (al * (al + 1))) (us x)) (Cmult (RtoC (x ^ 2 * xa x)) (Cmult (0, kap) f))).
    2:{ change (us x) with (Cmult (RtoC (xa x)) f). rewrite (RC_mult (x ^ 2) (xa x)). set (q := (0, kap) : C). ring. }
    rewrite <- E. unfold ddus, dus, dvs, vs, us. fold f g h. set (y := xa x).
    unfold Cplus, Cmult, RtoC. cbn [fst snd]. f_equal; field; lra.
Qed.
End series.
