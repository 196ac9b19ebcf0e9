(** Degree one: the second solution of a thin shell has no zero *)
From Coq Require Import Reals List Bool Lia Lra Psatz.
From Coquelicot Require Import Coquelicot.
From Verif Require Import M_Prelude M_Rotate M_QConst Spec_Induction Spec_InductionC P_Response P_Response2 P_Induction P_QConst1 P_QConst2 P_QConst3 P_QConst4 P_QConst5 P_QConst6 P_QConst7 P_QConst8 P_QConst9.
Import ListNotations.
Open Scope R_scope.

(** ** No zero of 4 e^z (z - 1) + 5 e^-z (z + 1) on the diagonal *)
Lemma phase_pos y : 0 < y -> y <= PI / 2 -> 0 < y * cos y - (1 - y ^ 2 / 2) * sin y.
Proof.
  intros H0 H1. set (h := fun t => t * cos t - (1 - t ^ 2 / 2) * sin t).
  assert (D : forall t, is_derive h t (t ^ 2 / 2 * cos t)).
  { intros t. unfold h. auto_derive; [exact I | field]. }
  assert (M : forall a b, 0 <= a -> a < b -> b <= PI / 2 -> h a < h b).
  { intros a b Ha Hab Hb. 
    destruct (MVT_gen h a b (fun t => t ^ 2 / 2 * cos t)) as (c & Hc & E).
    - intros; apply D.
    - intros t _. apply continuity_pt_filterlim. apply (ex_derive_continuous h). eexists. apply D.
    - rewrite Rmin_left, Rmax_right in Hc by lra.
      destruct (MVT_cor2 h (fun t => t ^ 2 / 2 * cos t) a b Hab) as (t & Et & Ht).
      { intros t _. apply is_derive_Reals, D. }
      assert (0 < t ^ 2 / 2) by (assert (0 < t ^ 2) by (apply pow_lt; lra); lra).
      assert (0 < cos t) by (apply cos_gt_0; lra).
      assert (0 < t ^ 2 / 2 * cos t) by (apply Rmult_lt_0_compat; assumption).
      assert (0 < t ^ 2 / 2 * cos t * (b - a)) by (apply Rmult_lt_0_compat; lra). lra. }
  pose proof (M 0 y ltac:(lra) H0 H1) as X. unfold h in X. rewrite sin_0 in X. lra.
Qed.

Lemma exp3_big y : 3 / 2 <= y -> 11 < exp y * exp y.
Proof.
  intros H. rewrite <- exp_plus. assert (exp 3 <= exp (y + y)).
  { destruct (Req_dec 3 (y + y)) as [->|N]; [lra|]. left. apply exp_increasing. lra. }
  assert (E : exp 3 = exp (1/2) ^ 6).
  { cbn [pow]. rewrite Rmult_1_r, <- !exp_plus. f_equal. field. }
  assert (3 / 2 <= exp (1/2)) by (left; replace (3 / 2) with (1 + 1 / 2) by field; apply exp_ineq1; lra).
  assert ((3/2) ^ 6 <= exp (1/2) ^ 6) by (apply pow_incr; lra). lra.
Qed.

Lemma no_root y : 0 < y ->
  let c := exp y * cos y in let s := exp y * sin y in
  4 * (c * (1 - y / 2) + s * (y / 2)) = 5 * (1 + y / 2) -> 4 * (s * (1 - y / 2) - c * (y / 2)) = 5 * (y / 2) -> False.
Proof.
  intros Hy c s E1 E2. destruct (Rle_dec y (PI / 2)) as [H|H].
  - pose proof (phase_pos y Hy H) as P. pose proof (exp_pos y) as PE.
    assert (X : s * (1 - y ^ 2 / 2) - c * y = 0).
    { transitivity ((s * (1 - y / 2) - c * (y / 2)) * (1 + y / 2) - (c * (1 - y / 2) + s * (y / 2)) * (y / 2)); [field|].
      replace (s * (1 - y / 2) - c * (y / 2)) with (5 * (y / 2) / 4) by lra.
      replace (c * (1 - y / 2) + s * (y / 2)) with (5 * (1 + y / 2) / 4) by lra. field. }
    unfold c, s in X. assert (0 < exp y * (y * cos y - (1 - y ^ 2 / 2) * sin y)) by (apply Rmult_lt_0_compat; assumption). lra.
  - pose proof PI2_3_2 as P. assert (B : 11 < exp y * exp y) by (apply exp3_big; lra).
    assert (CS : c * c + s * s = exp y * exp y).
    { unfold c, s. transitivity (exp y * exp y * (Rsqr (sin y) + Rsqr (cos y))); [unfold Rsqr; ring | rewrite sin2_cos2; ring]. }
    assert (X : 16 * ((c * c + s * s) * (1 - y + y ^ 2 / 2)) = 25 * (1 + y + y ^ 2 / 2)).
    { transitivity ((4 * (c * (1 - y / 2) + s * (y / 2))) ^ 2 + (4 * (s * (1 - y / 2) - c * (y / 2))) ^ 2); [field|]. rewrite E1, E2. field. }
    rewrite CS in X. assert (0 < 1 - y + y ^ 2 / 2) by nra.
    assert (11 * (1 - y + y ^ 2 / 2) < exp y * exp y * (1 - y + y ^ 2 / 2)) by (apply Rmult_lt_compat_r; assumption).
    nra.
Qed.

(** ** The series in closed form *)
Section one.
Variables (k : C) (kap w mu0 s : R).
Hypothesis Hkap : 0 < kap.
Hypothesis Hre : 0 < fst k.
Hypothesis Hk : Cmult k k = (0, kap).
Hypothesis Hw : w * mu0 * s = kap.
Let nk : k <> RtoC 0 := k_ne k Hre.
Lemma Hk2' : Cmult k k = (0, w * mu0 * s).
Proof. rewrite Hw. exact Hk. Qed.

Definition ee (tau x : R) : C := cexp (Cmult (Cmult (RtoC (- tau)) k) (RtoC x)).
Definition h1 (tau x : R) : C := Cmult (ee tau x) (Cplus (Cmult (Cinv k) (RtoC x)) (Cmult (RtoC tau) (Cmult (Cinv k) (Cinv k)))).

Lemma F1_eq tau x : F 1 tau k x = Cmult (ee tau x) (Cmult (Zk k x) (Cplus (RtoC 1) (Cmult (RtoC tau) (Zk k x)))).
Proof.
  unfold F, S0, af. cbn [csum cpow cf pow]. unfold lam. cbn [INR].
  replace (tau * 1 * (1 * (1 * (1 + 1) - 0 * (0 + 1)) / (2 * (0 + 1)))) with tau by field.
  replace (1 * 1) with 1 by ring. unfold Ek, ee. ring.
Qed.
Lemma dF1_eq tau x : tau * tau = 1 -> dF 1 tau k x = Cmult k (Cmult (ee tau x) (Copp (Cplus (Cmult (RtoC tau) (Cmult (Zk k x) (Cplus (RtoC 1) (Cmult (RtoC tau) (Zk k x))))) 
   (Cmult (Cmult (Zk k x) (Zk k x)) (Cplus (RtoC 1) (Cmult (RtoC (2 * tau)) (Zk k x))))))).
Proof.
  intros Ht. unfold dF, S0, S1, af. cbn [csum cpow cf pow]. unfold lam. cbn [INR].
  replace (tau * 1 * (1 * (1 * (1 + 1) - 0 * (0 + 1)) / (2 * (0 + 1)))) with tau by field.
  replace (1 * (1 * 1)) with 1 by ring. replace (1 * 1) with 1 by ring. replace ((1 + 1) * tau) with (2 * tau) by ring. unfold Ek, ee. ring.
Qed.
Lemma h1_0 tau : h1 tau 0 = Cmult (RtoC tau) (Cmult (Cinv k) (Cinv k)).
Proof. unfold h1, ee. rewrite Cmult_0_r, cexp_0. ring. Qed.
Lemma ee_0 tau : ee tau 0 = RtoC 1.
Proof. unfold ee. rewrite Cmult_0_r, cexp_0. reflexivity. Qed.
Lemma ee_der tau x : Cder (ee tau) x (Cmult (Cmult (RtoC (- tau)) k) (ee tau x)).
Proof. apply Cder_cexp. Qed.
Lemma h1_der tau x : tau * tau = 1 -> Cder (h1 tau) x (Cmult (RtoC (- tau * x)) (ee tau x)).
Proof.
  intros Ht. unfold h1. eapply Cder_eq.
  - apply Cder_mult; [apply ee_der|]. apply Cder_plus; [apply Cder_scal, Cder_id | apply Cder_const].
  - cbv beta. transitivity (Cplus (Cmult (RtoC (- tau * x)) (ee tau x)) (Cmult (Cmult (RtoC (1 - tau * tau)) (Cinv k)) (ee tau x))).
    + rewrite RC_minus, !RC_mult, !RC_opp. field. exact nk.
    + rewrite Ht. replace (1 - 1) with 0 by ring. ring.
Qed.

(** *** The regular series *)
Definition N1 (tau x : R) : C :=
  Cminus (Cmult (RtoC (- tau * x ^ 2)) (Cmult (ff kap (alp 1) (x ^ 2)) (ee tau x)))
         (Cmult (Cplus (Cmult (RtoC 3) (ff kap (alp 1) (x ^ 2))) (Cmult (RtoC (2 * x ^ 2)) (df kap (alp 1) (x ^ 2)))) (h1 tau x)).
Lemma nX x : 0 < x -> RtoC x <> RtoC 0.
Proof. intros. apply RtoC_neq. lra. Qed.
Lemma wron_up tau x : tau * tau = 1 -> 0 < x -> wron (up 1 kap) (dup 1 kap) (F 1 tau k) (dF 1 tau k) x = N1 tau x.
Proof.
  intros Ht Hx. unfold wron, N1, h1, up, dup, us, dus, vs. rewrite xa_pow by exact Hx. rewrite F1_eq, dF1_eq by exact Ht.
  assert (NX := nX x Hx). unfold Zk. rewrite !RC_inv by lra.
  set (f := ff kap (alp 1) (x ^ 2)). set (d := df kap (alp 1) (x ^ 2)). set (e := ee tau x).
  replace (alp 1) with 1 by reflexivity.
  assert (T2 : Cmult (RtoC tau) (RtoC tau) = RtoC 1) by (rewrite <- RC_mult, Ht; reflexivity).
  rewrite !RC_mult, !RC_opp. rewrite <- !cpow_R. cbn [cpow].
  replace (RtoC 3) with (Cplus (RtoC 2) (RtoC 1)) by (rewrite <- RC_plus; f_equal; ring).
  set (X := RtoC x) in *. set (t := RtoC tau) in *.
  transitivity (Cminus (Copp (Cmult (Cmult f e) (Cplus (Cmult t (Cmult X X)) (Cplus (Cmult (Cplus (Cmult t t) (RtoC 1)) (Cdiv X k)) (Cmult (RtoC 2) (Cdiv t (Cmult k k)))))))
     (Cmult (Cplus f (Cmult (RtoC 2) (Cmult (Cmult X X) d))) (Cmult e (Cplus (Cdiv X k) (Cdiv t (Cmult k k)))))).
  - field. split; assumption.
  - rewrite T2. rewrite two_c. field. exact nk.
Qed.
Lemma const_limit (f : R -> C) c : smooth f 0 -> (forall x, 0 < x -> f x = c) -> f 0 = c.
Proof.
  intros S H. destruct (Ceq_dec (f 0) c) as [E|N]; [exact E|exfalso].
  assert (P : 0 < Cmod (Cminus c (f 0))).
  { apply Cmod_gt_0. intros E. apply N. transitivity (Cminus c (Cminus c (f 0))); [ring | rewrite E; ring]. }
  destruct (smooth_close f 0 _ S P) as (d & Hd & Hc). specialize (Hc (d / 2)). rewrite (H (d / 2)) in Hc by lra.
  rewrite Rminus_0_r, Rabs_pos_eq in Hc by lra. specialize (Hc ltac:(lra)). lra.
Qed.
Lemma ff_smooth al x : (forall j, 2 * INR j + 2 * al + 3 <> 0) -> smooth (fun r => ff kap al (r ^ 2)) x.
Proof. intros Ha. eexists. apply (Cder_sq _ (df kap al)). apply ff_der; assumption. Qed.
Lemma df_smooth al x : (forall j, 2 * INR j + 2 * al + 3 <> 0) -> smooth (fun r => df kap al (r ^ 2)) x.
Proof. intros Ha. eexists. apply (Cder_sq _ (ddf kap al)). apply df_der; assumption. Qed.
Lemma sq_smooth c x : smooth (fun r => RtoC (c * r ^ 2)) x.
Proof. apply (smooth_ofR (fun r => c * r ^ 2) x (2 * c * x)). auto_derive; [exact I | ring]. Qed.
Lemma N1_smooth tau : tau * tau = 1 -> smooth (N1 tau) 0.
Proof.
  intros Ht. apply (smooth_minus
    (fun x => Cmult (RtoC (- tau * x ^ 2)) (Cmult (ff kap (alp 1) (x ^ 2)) (ee tau x)))
    (fun x => Cmult (Cplus (Cmult (RtoC 3) (ff kap (alp 1) (x ^ 2))) (Cmult (RtoC (2 * x ^ 2)) (df kap (alp 1) (x ^ 2)))) (h1 tau x))).
  - apply (smooth_mult (fun x => RtoC (- tau * x ^ 2)) (fun x => Cmult (ff kap (alp 1) (x ^ 2)) (ee tau x))); [apply sq_smooth|].
    apply (smooth_mult (fun x => ff kap (alp 1) (x ^ 2)) (ee tau)); [apply ff_smooth, alp_ok | eexists; apply ee_der].
  - apply (smooth_mult (fun x => Cplus (Cmult (RtoC 3) (ff kap (alp 1) (x ^ 2))) (Cmult (RtoC (2 * x ^ 2)) (df kap (alp 1) (x ^ 2)))) (h1 tau)); [|eexists; apply h1_der; exact Ht].
    apply (smooth_plus (fun x => Cmult (RtoC 3) (ff kap (alp 1) (x ^ 2))) (fun x => Cmult (RtoC (2 * x ^ 2)) (df kap (alp 1) (x ^ 2)))).
    + apply (smooth_mult (fun _ => RtoC 3) (fun x => ff kap (alp 1) (x ^ 2))); [apply smooth_const | apply ff_smooth, alp_ok].
    + apply (smooth_mult (fun x => RtoC (2 * x ^ 2)) (fun x => df kap (alp 1) (x ^ 2))); [apply sq_smooth | apply df_smooth, alp_ok].
Qed.
Lemma F1_solves tau x : tau * tau = 1 -> 0 < x -> solves w mu0 1 s (F 1 tau k) (dF 1 tau k) (ddF 1 tau k) x.
Proof. intros Ht Hx. apply F_solves; [exact Ht | exact nk | exact Hx | exact Hk2']. Qed.
Lemma wron_c (u du ddu v dv ddv : R -> C) a b : 0 < a -> 0 < b -> (forall x, 0 < x -> solves w mu0 1 s u du ddu x) -> (forall x, 0 < x -> solves w mu0 1 s v dv ddv x) ->
  wron u du v dv a = wron u du v dv b.
Proof.
  intros Ha Hb Su Sv. destruct (Rle_dec a b) as [H|H].
  - symmetry. apply (wron_const w mu0 1 s u du ddu v dv ddv); [exact H | intros; apply Su; lra | intros; apply Sv; lra].
  - apply (wron_const w mu0 1 s u du ddu v dv ddv); [lra | intros; apply Su; lra | intros; apply Sv; lra].
Qed.
Lemma wron_up_value tau x : tau * tau = 1 -> 0 < x ->
  wron (up 1 kap) (dup 1 kap) (F 1 tau k) (dF 1 tau k) x = Cmult (RtoC (- 3 * tau)) (Cmult (Cinv k) (Cinv k)).
Proof.
  intros Ht Hx. rewrite <- (const_limit (N1 tau) (wron (up 1 kap) (dup 1 kap) (F 1 tau k) (dF 1 tau k) x)).
  - unfold N1. rewrite h1_0, ee_0. replace (0 ^ 2) with 0 by ring. rewrite ff_0. rewrite !Rmult_0_r. rewrite !RC_mult. 
    replace (RtoC (-3)) with (Copp (RtoC 3)) by (rewrite <- RC_opp; f_equal; ring). ring.
  - apply N1_smooth. exact Ht.
  - intros y Hy. rewrite <- wron_up by assumption.
    apply (wron_c _ _ (ddup 1 kap) _ _ (ddF 1 tau k)); try assumption.
    + intros z Hz. apply up_solves; assumption.
    + intros z Hz. apply F1_solves; assumption.
Qed.

(** *** The singular series *)
Definition M1 (tau x : R) : C :=
  Cplus (Cmult (RtoC 2) (Cmult (h1 tau x) (df kap (alq 1) (x ^ 2)))) (Cmult (RtoC tau) (Cmult (ee tau x) (ff kap (alq 1) (x ^ 2)))).
Lemma wron_uq tau x : tau * tau = 1 -> 0 < x -> M1 tau x = Cmult (wron (F 1 tau k) (dF 1 tau k) (uq 1 kap) (duq 1 kap) x) (RtoC x).
Proof.
  intros Ht Hx. unfold wron, M1, h1, uq, duq, us, dus, vs. rewrite xq_pow by exact Hx. rewrite F1_eq, dF1_eq by exact Ht.
  assert (NX := nX x Hx). unfold Zk. rewrite !RC_inv by (try apply pow_nonzero; lra).
  set (f := ff kap (alq 1) (x ^ 2)). set (d := df kap (alq 1) (x ^ 2)). set (e := ee tau x).
  replace (alq 1) with (-2) by (unfold alq; cbn [INR]; ring).
  assert (T2 : Cmult (RtoC tau) (RtoC tau) = RtoC 1) by (rewrite <- RC_mult, Ht; reflexivity).
  rewrite RC_m2, !RC_mult. rewrite <- !cpow_R. cbn [cpow Nat.add].
  set (X := RtoC x) in *. set (t := RtoC tau) in *.
  transitivity (Cplus (Cmult (Cmult (RtoC 2) d) (Cmult e (Cplus (Cdiv X k) (Cdiv t (Cmult k k)))))
     (Cmult (Cmult e f) (Cplus (Cmult (Cminus (Cmult t t) (RtoC 1)) (Cinv (Cmult k X))) t))).
  - rewrite T2. field. split; assumption.
  - rewrite two_c. field. split; assumption.
Qed.
Lemma Rlin_limit (f : R -> R) c l : is_derive f 0 l -> (forall x, 0 < x -> f x = c * x) -> l = c.
Proof.
  intros D H. 
  assert (Z : f 0 = 0).
  { destruct (Req_dec (f 0) 0) as [E|N]; [exact E|exfalso].
    set (e := Rabs (f 0) / 2). assert (0 < Rabs (f 0)) by (apply Rabs_pos_lt; exact N). assert (He : 0 < e) by (unfold e; lra).
    destruct (Rder_close f 0 l e D He) as (d & Hd & Hc).
    set (y := Rmin (d / 2) (e / (Rabs c + 1))). pose proof (Rabs_pos c).
    assert (0 < e / (Rabs c + 1)) by (apply Rdiv_lt_0_compat; lra).
    assert (0 < y) by (unfold y; apply Rmin_case; lra). assert (y <= d / 2) by apply Rmin_l. assert (y <= e / (Rabs c + 1)) by apply Rmin_r.
    specialize (Hc y). rewrite Rminus_0_r, Rabs_pos_eq in Hc by lra. specialize (Hc ltac:(lra)). rewrite (H y) in Hc by lra.
    assert (Rabs (c * y) <= e).
    { rewrite Rabs_mult, (Rabs_pos_eq y) by lra. apply Rle_trans with ((Rabs c + 1) * (e / (Rabs c + 1))).
      - apply Rmult_le_compat; lra.
      - right. field. lra. }
    assert (Rabs (f 0) <= Rabs (c * y) + Rabs (c * y - f 0)).
    { replace (f 0) with (c * y + - (c * y - f 0)) at 1 by ring. eapply Rle_trans; [apply Rabs_triang|]. rewrite Rabs_Ropp. lra. }
    unfold e in *. lra. }
  assert (D2 : is_derive (fun x => f x - c * x) 0 (l - c)).
  { apply (is_derive_minus f (fun x => c * x)); [exact D|]. auto_derive; [exact I | ring]. }
  pose proof (zero_right (fun x => f x - c * x) 0 1 (l - c) ltac:(lra)) as ZR. 
  assert (l - c = 0); [|lra]. apply ZR; [|exact D2]. intros x Hx. destruct (Req_dec x 0) as [->|N]; [rewrite Z; ring|]. rewrite H by lra. ring.
Qed.
Lemma lin_limit (f : R -> C) c l : Cder f 0 l -> (forall x, 0 < x -> f x = Cmult c (RtoC x)) -> l = c.
Proof.
  intros [D1 D2] H. assert (fst l = fst c).
  { apply (Rlin_limit (fun x => fst (f x)) _ _ D1). intros x Hx. rewrite H by exact Hx. unfold Cmult, RtoC. cbn [fst snd]. ring. }
  assert (snd l = snd c).
  { apply (Rlin_limit (fun x => snd (f x)) _ _ D2). intros x Hx. rewrite H by exact Hx. unfold Cmult, RtoC. cbn [fst snd]. ring. }
  destruct l, c. cbn [fst snd] in *. congruence.
Qed.
Lemma M1_der tau : tau * tau = 1 -> Cder (M1 tau) 0 (Copp k).
Proof.
  intros Ht. eapply Cder_eq.
  - apply (Cder_plus (fun x => Cmult (RtoC 2) (Cmult (h1 tau x) (df kap (alq 1) (x ^ 2)))) (fun x => Cmult (RtoC tau) (Cmult (ee tau x) (ff kap (alq 1) (x ^ 2))))).
    + apply (Cder_scal (RtoC 2) (fun x => Cmult (h1 tau x) (df kap (alq 1) (x ^ 2)))).
      apply (Cder_mult (h1 tau) (fun x => df kap (alq 1) (x ^ 2))); [apply h1_der; exact Ht|].
      apply (Cder_sq _ (ddf kap (alq 1))). apply df_der; [exact Hkap | apply alq_ok].
    + apply (Cder_scal (RtoC tau) (fun x => Cmult (ee tau x) (ff kap (alq 1) (x ^ 2)))).
      apply (Cder_mult (ee tau) (fun x => ff kap (alq 1) (x ^ 2))); [apply ee_der|].
      apply (Cder_sq _ (df kap (alq 1))). apply ff_der; [exact Hkap | apply alq_ok].
  - replace (0 ^ 2) with 0 by ring. rewrite ff_0, ee_0, !Rmult_0_r.
    transitivity (Cmult (RtoC (tau * (- tau))) k); [rewrite RC_mult; ring|].
    replace (tau * - tau) with (-1) by lra. rewrite RC_m1. ring.
Qed.
Lemma wron_uq_value tau x : tau * tau = 1 -> 0 < x -> wron (F 1 tau k) (dF 1 tau k) (uq 1 kap) (duq 1 kap) x = Copp k.
Proof.
  intros Ht Hx. symmetry. apply (lin_limit (M1 tau)); [apply M1_der; exact Ht|].
  intros y Hy. rewrite wron_uq by assumption. f_equal.
  apply (wron_c _ _ (ddF 1 tau k) _ _ (dduq 1 kap)); try assumption.
  - intros z Hz. apply F1_solves; assumption.
  - intros z Hz. apply uq_solves; assumption.
Qed.

(** *** The code's second function *)
Lemma FF_wron x : 0 < x -> wron (F 1 (-1) k) (dF 1 (-1) k) (F 1 1 k) (dF 1 1 k) x = Cmult (RtoC (-2)) (Cinv k).
Proof.
  intros Hx. pose proof (Exps k x) as EE. unfold wron. rewrite !F1_eq, !dF1_eq by ring. unfold Ek in EE. fold (ee (-1) x) in EE. fold (ee 1 x) in EE.
  set (a := ee (-1) x) in *. set (b := ee 1 x) in *.
  assert (NX := nX x Hx). unfold Zk. rewrite !RC_inv by lra. rewrite <- cpow_R. cbn [cpow]. replace (2 * 1) with 2 by ring.
  replace (RtoC (2 * -1)) with (Copp (RtoC 2)) by (rewrite <- RC_opp; f_equal; ring). rewrite RC_m1, RC_m2.
  transitivity (Cmult (Cmult a b) (Cmult (Copp (RtoC 2)) (Cinv k))); [|rewrite EE; ring].
  rewrite two_c. field. split; assumption.
Qed.
Lemma plucker (u du v dv q dq : R -> C) x : Cmult (u x) (wron v dv q dq x) = Cminus (Cmult (wron u du q dq x) (v x)) (Cmult (wron u du v dv x) (q x)).
Proof. unfold wron. ring. Qed.
Lemma wron_anti (u du v dv : R -> C) x : wron u du v dv x = Copp (wron v dv u du x).
Proof. unfold wron. ring. Qed.
Lemma up_closed x : 0 < x -> Cmult (RtoC 2) (Cmult k (up 1 kap x)) = Cmult (RtoC 3) (Cplus (F 1 (-1) k x) (F 1 1 k x)).
Proof.
  intros Hx. pose proof (plucker (up 1 kap) (dup 1 kap) (F 1 (-1) k) (dF 1 (-1) k) (F 1 1 k) (dF 1 1 k) x) as P.
  rewrite FF_wron, !wron_up_value in P by (try ring; exact Hx). replace (- 3 * 1) with (-(3)) in P by ring. replace (-3 * -1) with 3 in P by ring.
  rewrite RC_opp, RC_m2 in P. 
  transitivity (Cmult (Copp (Cmult k k)) (Cmult (up 1 kap x) (Cmult (Copp (RtoC 2)) (Cinv k)))); [field; exact nk|].
  rewrite P. field. exact nk.
Qed.
Lemma uq_closed x : 0 < x -> Cmult (RtoC 2) (uq 1 kap x) = Cmult (Cmult k k) (Cminus (F 1 1 k x) (F 1 (-1) k x)).
Proof.
  intros Hx. pose proof (plucker (uq 1 kap) (duq 1 kap) (F 1 (-1) k) (dF 1 (-1) k) (F 1 1 k) (dF 1 1 k) x) as P.
  rewrite FF_wron in P by exact Hx. rewrite !(wron_anti (uq 1 kap)), !wron_uq_value in P by (try ring; exact Hx). rewrite RC_m2 in P.
  transitivity (Cmult (Copp k) (Cmult (uq 1 kap x) (Cmult (Copp (RtoC 2)) (Cinv k)))); [field; exact nk|].
  rewrite P. ring.
Qed.
Lemma diag : snd k = fst k.
Proof.
  destruct k as [a b]. cbn [fst snd] in *. unfold Cmult in Hk. cbn [fst snd] in Hk. injection Hk as E1 E2.
  assert (0 < b) by (apply Rnot_le_lt; intro; nra). nra.
Qed.
Lemma Kx_ne_1 x : 0 < x -> Kx 1 k kap x <> RtoC 0.
Proof.
  intros Hx E. unfold Kx in E.
  assert (E1 : Cmult (Cc 1) (Cminus (Cmult (Ac 1 k) (up 1 kap x)) (Cmult (Bc 1 k) (uq 1 kap x))) = RtoC 0) by (rewrite <- E; ring).
  assert (E2 : Cminus (Cmult (Ac 1 k) (up 1 kap x)) (Cmult (Bc 1 k) (uq 1 kap x)) = RtoC 0).
  { destruct (Ceq_dec (Cminus (Cmult (Ac 1 k) (up 1 kap x)) (Cmult (Bc 1 k) (uq 1 kap x))) (RtoC 0)) as [G|G]; [exact G|].
    exfalso. apply (Cmult_neq_0 _ _ (Cc_ne 1) G). exact E1. }
  clear E E1. unfold Ac, Bc, fac2, fac1, sgn in E2. cbn [cpow fact Nat.add Nat.mul INR pow] in E2.
  replace (-1 * 1 * 1 / (1 + 1 + 1)) with (- / 3) in E2 by field.
  pose proof (up_closed x Hx) as U. pose proof (uq_closed x Hx) as Q.
  assert (N2 : RtoC 2 <> RtoC 0) by (apply RtoC_neq; lra). assert (N3 : RtoC 3 <> RtoC 0) by (apply RtoC_neq; lra).
  assert (N1' : RtoC 1 <> RtoC 0) by (apply RtoC_neq; lra).
  assert (E3 : Cplus (Cmult (RtoC 4) (F 1 (-1) k x)) (Cmult (RtoC 5) (F 1 1 k x)) = RtoC 0).
  { transitivity (Cplus (Cmult (RtoC 3) (Cmult (RtoC (/ 2)) (Cmult (RtoC 3) (Cplus (F 1 (-1) k x) (F 1 1 k x))))) (Cmult (RtoC (/ 2)) (Cminus (F 1 1 k x) (F 1 (-1) k x)))).
    - replace (RtoC 4) with (Cminus (Cmult (RtoC (/ 2)) (RtoC 9)) (RtoC (/ 2))) by (rewrite <- RC_mult, <- RC_minus; f_equal; field).
      replace (RtoC 5) with (Cplus (Cmult (RtoC (/ 2)) (RtoC 9)) (RtoC (/ 2))) by (rewrite <- RC_mult, <- RC_plus; f_equal; field).
      replace (RtoC 9) with (Cmult (RtoC 3) (RtoC 3)) by (rewrite <- RC_mult; f_equal; ring). ring.
    - rewrite <- U.
      transitivity (Cmult (RtoC 3) (Cplus (Cmult k (up 1 kap x)) (Cmult (Cmult (RtoC (/ 3)) (Cinv (Cmult k k))) (uq 1 kap x)))).
      + assert (UQ : uq 1 kap x = Cmult (RtoC (/ 2)) (Cmult (Cmult k k) (Cminus (F 1 1 k x) (F 1 (-1) k x)))).
        { rewrite <- Q. rewrite RC_inv by lra. field. exact N2. }
        rewrite UQ. rewrite !RC_inv by lra. field. repeat split; assumption.
      + transitivity (Cmult (RtoC 3) (RtoC 0)); [|ring]. f_equal. rewrite <- E2. rewrite RC_opp. field. split; assumption. }
  clear U Q E2. rewrite !F1_eq in E3.
  set (a := fst k * x). assert (Ha : 0 < a) by (unfold a; apply Rmult_lt_0_compat; assumption).
  assert (Kd : k = (fst k, fst k)) by (rewrite <- diag at 2; apply surjective_pairing).
  assert (Z : Cmult k (RtoC x) = (a, a)) by (rewrite Kd; unfold Cmult, RtoC, a; cbn [fst snd]; f_equal; ring).
  assert (NX := nX x Hx).
  assert (E4 : Cplus (Cmult (RtoC 4) (Cmult (cexp (a, a)) (Cminus (a, a) (RtoC 1)))) (Cmult (RtoC 5) (Cmult (cexp (- a, - a)) (Cplus (a, a) (RtoC 1)))) = RtoC 0).
  { rewrite <- Z. transitivity (Cmult (Cmult (Cmult k (RtoC x)) (Cmult k (RtoC x))) (RtoC 0)); [|ring]. rewrite <- E3.
    unfold ee. replace (Cmult (Cmult (RtoC (- -1)) k) (RtoC x)) with (Cmult k (RtoC x)) by (replace (- -1) with 1 by ring; ring).
    replace (Cmult (Cmult (RtoC (-(1))) k) (RtoC x)) with ((- a, - a) : C) by (rewrite RC_opp; transitivity (Copp (Cmult k (RtoC x))); [rewrite Z; reflexivity | ring]).
    unfold Zk. rewrite RC_inv by lra. rewrite RC_m1. field. split; assumption. }
  assert (E5 : Cmult (RtoC 4) (Cmult (cexp (2 * a, 2 * a)) (Cminus (RtoC 1) (a, a))) = Cmult (RtoC 5) (Cplus (a, a) (RtoC 1))).
  { assert (X1 : cexp (2 * a, 2 * a) = Cmult (cexp (a, a)) (cexp (a, a))) by (rewrite <- cexp_plus; f_equal; unfold Cplus; cbn [fst snd]; f_equal; ring).
    assert (X2 : Cmult (cexp (a, a)) (cexp (- a, - a)) = RtoC 1) by (rewrite <- cexp_plus, <- cexp_0; f_equal; unfold Cplus, RtoC; cbn [fst snd]; f_equal; ring).
    rewrite X1. transitivity (Cplus (Cmult (RtoC 5) (Cmult (Cmult (cexp (a, a)) (cexp (- a, - a))) (Cplus (a, a) (RtoC 1)))) (Cmult (Copp (cexp (a, a))) (RtoC 0))); [rewrite <- E4; ring | rewrite X2; ring]. }
  apply (no_root (2 * a) ltac:(lra)).
  - apply (f_equal fst) in E5. unfold cexp, Cminus, Cplus, Copp, Cmult, RtoC in E5. cbn [fst snd] in E5. lra.
  - apply (f_equal snd) in E5. unfold cexp, Cminus, Cplus, Copp, Cmult, RtoC in E5. cbn [fst snd] in E5. lra.
Qed.
End one.

Lemma seconds_ok_1 period L : 0 < period -> conducting L -> seconds_ok 1 period L.
Proof.
  intros Hp. induction L as [|[s r] L IH]; [intros; exact I|]. destruct L as [|[s1 r1] L]; [intros; exact I|].
  intros Hc. assert (Hc' := Hc). destruct Hc' as (Hs & H1 & Hr & Hb). split.
  - intros _. apply (Kx_ne_1 _ _ (2 * PI / period) mu s).
    + pose proof (omega_pos period Hp). pose proof mu_pos. apply Rmult_lt_0_compat; [apply Rmult_lt_0_compat|]; assumption.
    + apply k_pos; assumption.
    + apply k_square; assumption.
    + reflexivity.
    + lra.
  - destruct L; [exact I|]. apply IH. exact Hb.
Qed.
