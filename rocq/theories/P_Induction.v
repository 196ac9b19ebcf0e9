(** The layered response solves the induction equation. *)
From Coq Require Import Reals List Bool Arith Lia Lra Psatz.
From Coquelicot Require Import Coquelicot.
From Verif Require Import M_Prelude Spec_Induction M_Rotate P_Response P_Response2.
Import ListNotations.
Open Scope R_scope.

Lemma der_mul (f g h k : R -> R) (x a b c d : R) : is_derive f x a -> is_derive g x b -> is_derive h x c -> is_derive k x d ->
  is_derive (fun r => f r * g r - h r * k r) x (a * g x + f x * b - (c * k x + h x * d)) /\
  is_derive (fun r => f r * g r + h r * k r) x (a * g x + f x * b + (c * k x + h x * d)).
Proof.
  intros U1 U2 V1 V2.
  pose proof (is_derive_mult f g x a b U1 U2 Rmult_comm) as M1. pose proof (is_derive_mult h k x c d V1 V2 Rmult_comm) as M2.
  split; [exact (is_derive_minus _ _ x _ _ M1 M2) | exact (is_derive_plus _ _ x _ _ M1 M2)].
Qed.

Lemma is_derive_eq (f : R -> R) (x a b : R) : is_derive f x a -> a = b -> is_derive f x b.
Proof. intros H <-. exact H. Qed.

Lemma Cder_mult u v x lu lv : Cder u x lu -> Cder v x lv ->
  Cder (fun r => Cmult (u r) (v r)) x (Cplus (Cmult lu (v x)) (Cmult (u x) lv)).
Proof.
  intros [U1 U2] [V1 V2]. unfold Cder, Cmult, Cplus. cbn [fst snd]. split.
  - eapply is_derive_eq; [apply (der_mul _ _ _ _ x _ _ _ _ U1 V1 U2 V2)|]. cbv beta. ring.
  - eapply is_derive_eq; [apply (der_mul _ _ _ _ x _ _ _ _ U1 V2 U2 V1)|]. cbv beta. ring.
Qed.

Lemma Cder_plus u v x lu lv : Cder u x lu -> Cder v x lv -> Cder (fun r => Cplus (u r) (v r)) x (Cplus lu lv).
Proof.
  intros [U1 U2] [V1 V2]. unfold Cder, Cplus. cbn [fst snd].
  split; [apply (is_derive_plus _ _ x _ _ U1 V1) | apply (is_derive_plus _ _ x _ _ U2 V2)].
Qed.

Lemma Cder_const c x : Cder (fun _ => c) x (RtoC 0).
Proof. split; exact (is_derive_const (K := R_AbsRing) (V := R_NormedModule) _ x). Qed.

Lemma Cder_id x : Cder (fun r => RtoC r) x (RtoC 1).
Proof. split; [exact (is_derive_id (K := R_AbsRing) x) | exact (is_derive_const (K := R_AbsRing) (V := R_NormedModule) _ x)]. Qed.

Lemma Cder_eq u x l l' : Cder u x l -> l = l' -> Cder u x l'.
Proof. intros H <-. exact H. Qed.

Lemma Cder_scal c u x l : Cder u x l -> Cder (fun r => Cmult c (u r)) x (Cmult c l).
Proof.
  intros H. eapply Cder_eq; [apply (Cder_mult _ _ _ _ _ (Cder_const c x) H)|]. cbn. ring.
Qed.

Lemma Cder_pow z x : 0 < x -> Cder (fun r => Rcpow r z) x (Cmult (RtoC (/ x)) (Cmult z (Rcpow x z))).
Proof.
  intros Hx. unfold Cder, Rcpow, Cmult, RtoC. cbn [fst snd]. split; auto_derive; auto; field; lra.
Qed.

Lemma Rcpow_plus x z w : Rcpow x (Cplus z w) = Cmult (Rcpow x z) (Rcpow x w).
Proof.
  unfold Rcpow, Cplus, Cmult. cbn [fst snd]. rewrite !Rmult_plus_distr_r, exp_plus, cos_plus, sin_plus. f_equal; ring.
Qed.

Lemma Rcpow_0 x : Rcpow x (RtoC 0) = RtoC 1.
Proof. unfold Rcpow, RtoC. cbn [fst snd]. rewrite !Rmult_0_l, exp_0, cos_0, sin_0. f_equal; ring. Qed.

Lemma Rcpow_1 x : 0 < x -> Rcpow x (RtoC 1) = RtoC x.
Proof. intros H. unfold Rcpow, RtoC. cbn [fst snd]. rewrite Rmult_0_l, Rmult_1_l, exp_ln, cos_0, sin_0 by exact H. f_equal; ring. Qed.

Lemma Rcpow_ne x z : Rcpow x z <> RtoC 0.
Proof. apply C_neq0_mod. rewrite Rcpow_mod. apply exp_pos. Qed.

(** A function with derivative 0 is constant *)
Lemma Cconst f a b : a <= b -> (forall x, a <= x <= b -> Cder f x (RtoC 0)) -> f b = f a.
Proof.
  intros Hab H. destruct (Req_dec a b) as [->|N]; [reflexivity|].
  assert (G : forall g : R -> R, (forall x, a <= x <= b -> is_derive g x 0) -> g b = g a).
  { intros g Hg. destruct (MVT_gen g a b (fun _ => 0)) as (x & _ & E).
    - intros x. rewrite Rmin_left, Rmax_right by lra. intros. apply Hg. lra.
    - intros x. rewrite Rmin_left, Rmax_right by lra. intros Hx. apply continuity_pt_filterlim.
      exact (ex_derive_continuous g x (ex_intro _ 0 (Hg x Hx))).
    - lra. }
  rewrite (surjective_pairing (f b)), (surjective_pairing (f a)). f_equal.
  - apply (G (fun r => fst (f r))). intros x Hx. apply (H x Hx).
  - apply (G (fun r => snd (f r))). intros x Hx. apply (H x Hx).
Qed.

Section conserved.
Variables (w : R) (n : nat) (s r : R) (u du ddu : R -> C) (be : C).
Hypothesis Hbe : Cmult be be = Cplus (RtoC ((INR n + 1 / 2) ^ 2)) (Cmult (0, w) (RtoC (mu * (s * r ^ 2)))).

Definition conserved (x : R) : C :=
  Cmult (Rcpow x (Cminus (RtoC (1 / 2)) be)) (Cplus (Cmult (RtoC x) (du x)) (Cmult (Cplus (RtoC (1 / 2)) be) (u x))).

Lemma rhs_b : (INR n * (INR n + 1), w * mu * (s * r ^ 2)) = Cminus (Cmult be be) (RtoC (1 / 4)).
Proof. rewrite Hbe. unfold Cminus, Cplus, Copp, Cmult, RtoC. cbn [fst snd]. f_equal; field. Qed.

Lemma conserved_der x : 0 < x -> induction_at w mu n (s * r ^ 2) u du ddu x -> Cder conserved x (RtoC 0).
Proof.
  intros Hx (D1 & D2 & E). rewrite rhs_b in E. unfold conserved.
  eapply Cder_eq.
  - apply Cder_mult; [apply Cder_pow; exact Hx|]. apply Cder_plus.
    + apply Cder_mult; [apply Cder_id | exact D2].
    + apply Cder_scal. exact D1.
  - cbv beta. set (P := Rcpow x _). clearbody P.
    assert (Nx : RtoC x <> RtoC 0) by (intros X; injection X; lra).
    assert (Ex : RtoC (/ x) = Cinv (RtoC x)) by (rewrite RtoC_inv by lra; reflexivity).
    assert (Q2 : RtoC (x ^ 2) = Cmult (RtoC x) (RtoC x)) by (unfold RtoC, Cmult; cbn [fst snd]; f_equal; ring).
    assert (Q1 : RtoC (2 * x) = Cmult (Cplus (RtoC 1) (RtoC 1)) (RtoC x)) by (unfold RtoC, Cmult, Cplus; cbn [fst snd]; f_equal; ring).
    assert (Q3 : RtoC (1 / 4) = Cmult (RtoC (1 / 2)) (RtoC (1 / 2))) by (unfold RtoC, Cmult; cbn [fst snd]; f_equal; field).
    assert (Q4 : Cplus (RtoC (1 / 2)) (RtoC (1 / 2)) = RtoC 1) by (unfold RtoC, Cplus; cbn [fst snd]; f_equal; field).
    rewrite Ex. rewrite Q2, Q1, Q3 in E. set (h := RtoC (1 / 2)) in *. clearbody h.
    set (X := RtoC x) in *. clearbody X. set (U := u x) in *. set (V := du x) in *. set (W := ddu x) in *. clearbody U V W.
    transitivity (Cmult (Cmult (Cinv X) P)
       (Cplus (Cminus (Cplus (Cmult (Cmult X X) W) (Cmult (Cmult (Cplus (RtoC 1) (RtoC 1)) X) V)) (Cmult (Cminus (Cmult be be) (Cmult h h)) U))
              (Cmult (Cminus (Cplus h h) (RtoC 1)) (Cmult X V)))).
    + field. exact Nx.
    + rewrite E, Q4. ring.
Qed.
End conserved.

Lemma b_sq w n s r : Cmult (b_of (0, w) n s r) (b_of (0, w) n s r) = Cplus (RtoC ((INR n + 1 / 2) ^ 2)) (Cmult (0, w) (RtoC (mu * (s * r ^ 2)))).
Proof. apply b_square. Qed.

Lemma b_sq' w n s r : Cmult (Copp (b_of (0, w) n s r)) (Copp (b_of (0, w) n s r)) = Cplus (RtoC ((INR n + 1 / 2) ^ 2)) (Cmult (0, w) (RtoC (mu * (s * r ^ 2)))).
Proof. rewrite <- b_square. ring. Qed.

Lemma half_half : Cplus (RtoC (1 / 2)) (RtoC (1 / 2)) = RtoC 1.
Proof. unfold RtoC, Cplus. cbn [fst snd]. f_equal; field. Qed.

Lemma two_c : RtoC 2 = Cplus (RtoC 1) (RtoC 1).
Proof. unfold RtoC, Cplus. cbn [fst snd]. f_equal; ring. Qed.

(** ** Through one layer *)
Lemma layer_relation w n s r r1 u du ddu p1 : 0 < w -> 0 <= s -> 0 < r1 -> r1 < r -> quadrant p1 ->
  (forall x, r1 <= x <= r -> induction_at w mu n (s * r ^ 2) u du ddu x) ->
  Cmult (RtoC r1) (du r1) = Cmult (Cminus p1 (RtoC (1 / 2))) (u r1) ->
  let b := b_of (0, w) n s r in
  let p := step_p b (tau_of (Rcpow (r / r1) (Cmult (RtoC 2) b))) p1 in
  Cmult (RtoC r) (du r) = Cmult (Cminus p (RtoC (1 / 2))) (u r) /\ (u r = RtoC 0 -> u r1 = RtoC 0).
Proof.
  intros Hw Hs Hr1 Hr Hp H E b p.
  assert (Hx : 1 < r / r1) by (apply (Rmult_lt_reg_r r1); [assumption|]; unfold Rdiv; rewrite Rmult_assoc, Rinv_l by lra; lra).
  pose proof (b_sector w n s r (Rlt_le _ _ Hw) Hs) as Sb. fold b in Sb. pose proof Sb as (B1 & _).
  assert (Bn : b <> RtoC 0) by (intros X; rewrite X in B1; cbn in B1; lra).
  destruct (layer_step (r / r1) b p1 Hx Sb Hp) as [D _].
  assert (C1 : conserved u du b r = conserved u du b r1).
  { apply Cconst; [lra|]. intros x Hxx. apply (conserved_der w n s r u du ddu b (b_sq w n s r)); [lra | apply H; exact Hxx]. }
  assert (C2 : conserved u du (Copp b) r = conserved u du (Copp b) r1).
  { apply Cconst; [lra|]. intros x Hxx. apply (conserved_der w n s r u du ddu (Copp b) (b_sq' w n s r)); [lra | apply H; exact Hxx]. }
  unfold conserved in C1, C2. rewrite E in C1, C2.
  set (h := RtoC (1 / 2)) in *.
  assert (Z : Rcpow (r / r1) (Cmult (RtoC 2) b) =
     Cdiv (Cmult (Rcpow r (Cminus h (Copp b))) (Rcpow r1 (Cminus h b))) (Cmult (Rcpow r (Cminus h b)) (Rcpow r1 (Cminus h (Copp b))))).
  { assert (Er : r = r / r1 * r1) by (field; lra).
    assert (Er2 : forall z, Rcpow r z = Cmult (Rcpow (r / r1) z) (Rcpow r1 z)) by (intros z; rewrite Er at 1; apply Rcpow_mult; lra).
    rewrite !Er2.
    replace (Cminus h (Copp b)) with (Cplus (Cmult (RtoC 2) b) (Cminus h b)) by (rewrite two_c; ring).
    rewrite (Rcpow_plus (r / r1)). field. repeat split; apply Rcpow_ne. }
  unfold p in *. clear p. destruct (zeta_ne (r / r1) b Hx B1) as [Z0 Z1]. set (z := Rcpow (r / r1) (Cmult (RtoC 2) b)) in *.
  pose proof (Rcpow_ne r (Cminus h (Copp b))) as N1. pose proof (Rcpow_ne r1 (Cminus h b)) as N2.
  pose proof (Rcpow_ne r (Cminus h b)) as N3. pose proof (Rcpow_ne r1 (Cminus h (Copp b))) as N4.
  set (al' := Rcpow r (Cminus h (Copp b))) in *. set (al1 := Rcpow r1 (Cminus h b)) in *.
  set (al := Rcpow r (Cminus h b)) in *. set (al1' := Rcpow r1 (Cminus h (Copp b))) in *.
  set (v1 := u r1) in *. set (v := u r) in *. set (rd := Cmult (RtoC r) (du r)) in *.
  pose proof half_half as HH. fold h in HH.
  assert (T2 : RtoC 2 <> RtoC 0) by (intros X; injection X; lra).
  set (k := Cdiv (Cmult al1' v1) al').
  assert (X1 : Cplus rd (Cmult (Cplus h b) v) = Cmult k (Cmult z (Cplus p1 b))).
  { transitivity (Cdiv (Cmult al (Cplus rd (Cmult (Cplus h b) v))) al); [field; exact N3|].
    rewrite C1, Z. unfold k. field. auto. }
  assert (X2 : Cplus rd (Cmult (Cminus h b) v) = Cmult k (Cminus p1 b)).
  { transitivity (Cdiv (Cmult al' (Cplus rd (Cmult (Cplus h (Copp b)) v))) al'); [field; exact N1|].
    rewrite C2. unfold k. field. auto. }
  assert (Dn : Cminus (Cmult z (Cplus p1 b)) (Cminus p1 b) <> RtoC 0).
  { intros X. apply D. unfold tau_of.
    transitivity (Cdiv (Cminus (Cmult z (Cplus p1 b)) (Cminus p1 b)) (Cplus (RtoC 1) z)); [field; exact Z1|]. rewrite X. field. exact Z1. }
  assert (P : step_p b (tau_of z) p1 = Cdiv (Cmult b (Cplus (Cmult z (Cplus p1 b)) (Cminus p1 b))) (Cminus (Cmult z (Cplus p1 b)) (Cminus p1 b))).
  { unfold step_p, tau_of. field. repeat split; try assumption. }
  assert (Y1 : Cmult (Cmult (RtoC 2) b) v = Cmult k (Cminus (Cmult z (Cplus p1 b)) (Cminus p1 b))).
  { transitivity (Cminus (Cplus rd (Cmult (Cplus h b) v)) (Cplus rd (Cmult (Cminus h b) v))); [rewrite two_c; ring|]. rewrite X1, X2. ring. }
  split.
  - rewrite P. apply (f_equal (Cmult (RtoC 2))) in X1 as X1'.
    assert (Y2 : Cmult (RtoC 2) (Cplus rd (Cmult h v)) = Cmult k (Cplus (Cmult z (Cplus p1 b)) (Cminus p1 b))).
    { transitivity (Cplus (Cplus rd (Cmult (Cplus h b) v)) (Cplus rd (Cmult (Cminus h b) v))); [rewrite two_c; ring|]. rewrite X1, X2. ring. }
    set (N := Cplus (Cmult z (Cplus p1 b)) (Cminus p1 b)) in *. set (M := Cminus (Cmult z (Cplus p1 b)) (Cminus p1 b)) in *. clearbody N M.
    assert (V : v = Cdiv (Cmult k M) (Cmult (RtoC 2) b)).
    { rewrite <- Y1. field. split; assumption. }
    assert (W : Cplus rd (Cmult h v) = Cdiv (Cmult k N) (RtoC 2)).
    { rewrite <- Y2. field. assumption. }
    transitivity (Cminus (Cplus rd (Cmult h v)) (Cmult h v)); [ring|]. rewrite W.
    transitivity (Cminus (Cmult (Cdiv (Cmult b N) M) v) (Cmult h v)); [|ring]. f_equal. rewrite V. field. auto.
  - intros V0. rewrite V0, Cmult_0_r in Y1. symmetry in Y1.
    destruct (Ceq_dec v1 (RtoC 0)) as [->|Nv]; [reflexivity|]. exfalso. revert Y1. apply Cmult_neq_0; [|exact Dn].
    unfold k. intros X. apply (f_equal (fun y => Cmult y al')) in X. unfold Cdiv in X. rewrite <- Cmult_assoc, Cinv_l, Cmult_1_r, Cmult_0_l in X by exact N1.
    revert X. apply Cmult_neq_0; assumption.
Qed.

(** ** Core *)
Lemma exp_mono x y : x <= y -> exp x <= exp y.
Proof. intros [H| ->]; [left; apply exp_increasing; exact H | right; reflexivity]. Qed.

Lemma b_re w n s r : 0 < w -> 0 <= s -> (1 <= n)%nat -> 3 / 2 <= fst (b_of (0, w) n s r).
Proof.
  intros Hw Hs Hn. destruct (b_sector w n s r (Rlt_le _ _ Hw) Hs) as (B1 & _). pose proof (b_sq w n s r) as E.
  set (b := b_of _ n s r) in *. clearbody b. apply (f_equal fst) in E. unfold Cmult, Cplus, RtoC in E. cbn [fst snd] in E.
  assert (1 <= INR n) by (apply (le_INR 1); exact Hn).
  assert (0 <= snd b * snd b) by (pose proof (Rle_0_sqr (snd b)) as X; unfold Rsqr in X; exact X).
  assert ((3 / 2) * (3 / 2) <= fst b * fst b) by nra. nra.
Qed.

Lemma core_relation w n s r u du ddu : 0 < w -> 0 <= s -> (1 <= n)%nat -> 0 < r ->
  (forall x, 0 < x <= r -> induction_at w mu n (s * r ^ 2) u du ddu x) ->
  (exists M d, 0 < d /\ forall x, 0 < x < d -> Cmod (u x) <= M) ->
  Cmult (RtoC r) (du r) = Cmult (Cminus (b_of (0, w) n s r) (RtoC (1 / 2))) (u r).
Proof.
  intros Hw Hs Hn Hr H (M & d & Hd & HM). pose proof (b_re w n s r Hw Hs Hn) as Hb. set (b := b_of (0, w) n s r) in *.
  set (h := RtoC (1 / 2)).
  assert (C1 : forall x, 0 < x <= r -> conserved u du b x = conserved u du b r).
  { intros x Hx. symmetry. apply Cconst; [lra|]. intros y Hy.
    apply (conserved_der w n s r u du ddu b (b_sq w n s r)); [lra | apply H; lra]. }
  assert (C2 : forall x, 0 < x <= r -> conserved u du (Copp b) x = conserved u du (Copp b) r).
  { intros x Hx. symmetry. apply Cconst; [lra|]. intros y Hy.
    apply (conserved_der w n s r u du ddu (Copp b) (b_sq' w n s r)); [lra | apply H; lra]. }
  set (cp := conserved u du b r) in *. set (cm := conserved u du (Copp b) r) in *.
  assert (M0 : 0 <= M) by (eapply Rle_trans; [apply Cmod_ge_0 | apply (HM (d / 2)); lra]).
  (* cm is arbitrarily small *)
  assert (Cmod2 : Cmod (Cmult (RtoC 2) b) = 2 * Cmod b) by (rewrite Cmod_mult, Cmod_R, Rabs_pos_eq by lra; reflexivity).
  assert (B : forall x, 0 < x <= r -> x < d -> x <= 1 -> Cmod cm <= x * (Cmod cp + 2 * Cmod b * M)).
  { intros x Hx Hxd Hx1. specialize (HM x ltac:(lra)).
    assert (E : cm = Cmult (Rcpow x (Cplus h b)) (Cminus (Cmult (Rcpow x (Cminus b h)) cp) (Cmult (Cmult (RtoC 2) b) (u x)))).
    { rewrite <- (C1 x Hx), <- (C2 x Hx). unfold conserved. fold h.
      replace (Cmult (Rcpow x (Cminus b h)) (Cmult (Rcpow x (Cminus h b)) (Cplus (Cmult (RtoC x) (du x)) (Cmult (Cplus h b) (u x)))))
        with (Cplus (Cmult (RtoC x) (du x)) (Cmult (Cplus h b) (u x))).
      - replace (Cminus h (Copp b)) with (Cplus h b) by ring. rewrite two_c. ring.
      - rewrite Cmult_assoc, <- Rcpow_plus. replace (Cplus (Cminus b h) (Cminus h b)) with (RtoC 0) by ring.
        rewrite Rcpow_0. ring. }
    rewrite E, Cmod_mult.
    assert (L : ln x <= 0) by (destruct (Req_dec x 1) as [->|]; [rewrite ln_1; lra | left; rewrite <- ln_1; apply ln_increasing; lra]).
    assert (P1 : Cmod (Rcpow x (Cplus h b)) <= x).
    { rewrite Rcpow_mod. unfold h, Cplus, RtoC. cbn [fst]. rewrite <- (exp_ln x) at 2 by lra. apply exp_mono. nra. }
    assert (P2 : Cmod (Rcpow x (Cminus b h)) <= 1).
    { rewrite Rcpow_mod. unfold h, Cminus, Cplus, Copp, RtoC. cbn [fst]. apply Rle_trans with (exp 0); [apply exp_mono; nra | rewrite exp_0; lra]. }
    apply Rmult_le_compat; [apply Cmod_ge_0 | apply Cmod_ge_0 | exact P1 |].
    unfold Cminus. eapply Rle_trans; [apply Cmod_triangle|]. rewrite Cmod_opp, !Cmod_mult.
    apply Rplus_le_compat.
    - rewrite <- (Rmult_1_l (Cmod cp)) at 2. apply Rmult_le_compat_r; [apply Cmod_ge_0 | exact P2].
    - rewrite Cmod_R, Rabs_pos_eq by lra. apply Rmult_le_compat_l; [|exact HM]. pose proof (Cmod_ge_0 b). lra. }
  assert (Z : cm = RtoC 0).
  { destruct (Ceq_dec cm (RtoC 0)) as [|N]; [assumption|]. exfalso.
    apply Cmod_gt_0 in N. set (K := Cmod cp + 2 * Cmod b * M) in *.
    assert (HK : 0 <= K) by (unfold K; pose proof (Cmod_ge_0 cp); pose proof (Cmod_ge_0 b); assert (0 <= Cmod b * M) by (apply Rmult_le_pos; assumption); lra).
    set (x := Rmin (Rmin r (d / 2)) (Rmin 1 (Cmod cm / (2 * (K + 1))))).
    assert (Hq : 0 < Cmod cm / (2 * (K + 1))) by (apply Rdiv_lt_0_compat; lra).
    assert (Hx0 : 0 < x) by (unfold x; repeat apply Rmin_glb_lt; lra).
    assert (X1 : x <= r) by (unfold x; eapply Rle_trans; [apply Rmin_l | apply Rmin_l]).
    assert (X2 : x <= d / 2) by (unfold x; eapply Rle_trans; [apply Rmin_l | apply Rmin_r]).
    assert (X3 : x <= 1) by (unfold x; eapply Rle_trans; [apply Rmin_r | apply Rmin_l]).
    assert (X4 : x <= Cmod cm / (2 * (K + 1))) by (unfold x; eapply Rle_trans; [apply Rmin_r | apply Rmin_r]).
    specialize (B x ltac:(lra) ltac:(lra) X3).
    assert (x * (2 * (K + 1)) <= Cmod cm).
    { replace (Cmod cm) with (Cmod cm / (2 * (K + 1)) * (2 * (K + 1))) by (field; lra). apply Rmult_le_compat_r; lra. }
    nra. }
  unfold cm, conserved in Z. fold h in Z.
  assert (Y : Cplus (Cmult (RtoC r) (du r)) (Cmult (Cplus h (Copp b)) (u r)) = RtoC 0).
  { destruct (Ceq_dec (Cplus (Cmult (RtoC r) (du r)) (Cmult (Cplus h (Copp b)) (u r))) (RtoC 0)) as [|N]; [assumption|].
    exfalso. revert Z. apply Cmult_neq_0; [apply Rcpow_ne | exact N]. }
  transitivity (Cminus (Cplus (Cmult (RtoC r) (du r)) (Cmult (Cplus h (Copp b)) (u r))) (Cmult (Cplus h (Copp b)) (u r))); [ring|].
  rewrite Y. ring.
Qed.

(** ** Every field inside has r u' = (p - 1/2) u at the top *)
Lemma field_relation w n layers v dv : 0 < w -> (1 <= n)%nat -> field_in w mu n layers v dv -> earthlike layers ->
  Cmult (RtoC (top layers)) dv = Cmult (Cminus (p_of (0, w) n layers) (RtoC (1 / 2))) v.
Proof.
  intros Hw Hn F. induction F as [s r u du ddu H B | s r s1 r1 l u du ddu v dv F IH H E1 E2]; intros E.
  - cbn in E. destruct E as [Hs Hr]. rewrite p_core by (apply q_ne; assumption).
    apply (core_relation w n s r u du ddu Hw Hs Hn Hr H B).
  - pose proof E as (Hs & Hr & E'). specialize (IH E'). pose proof (earthlike_top _ E') as H1. cbn in H1.
    unfold top in IH. cbn [nth snd] in IH. subst v dv.
    destruct (p_step w n s r s1 r1 l Hw Hs Hr E') as [P _]. rewrite P.
    apply (layer_relation w n s r r1 u du ddu _ Hw Hs H1 Hr (p_quadrant w n _ Hw E') H IH).
Qed.

(** ** Fields exist *)
Definition power_field (A B b : C) (x : R) : C :=
  Cplus (Cmult A (Rcpow x (Cminus b (RtoC (1 / 2))))) (Cmult B (Rcpow x (Cminus (Copp b) (RtoC (1 / 2))))).
Definition power_field' (A B b : C) (x : R) : C :=
  Cmult (RtoC (/ x)) (Cplus (Cmult A (Cmult (Cminus b (RtoC (1 / 2))) (Rcpow x (Cminus b (RtoC (1 / 2))))))
                            (Cmult B (Cmult (Cminus (Copp b) (RtoC (1 / 2))) (Rcpow x (Cminus (Copp b) (RtoC (1 / 2))))))).
Definition power_field'' (A B b : C) (x : R) : C :=
  Cplus (Cmult (RtoC (- / x ^ 2)) (Cmult (RtoC x) (power_field' A B b x)))
        (Cmult (RtoC (/ x ^ 2)) (Cplus (Cmult A (Cmult (Cminus b (RtoC (1 / 2))) (Cmult (Cminus b (RtoC (1 / 2))) (Rcpow x (Cminus b (RtoC (1 / 2)))))))
                            (Cmult B (Cmult (Cminus (Copp b) (RtoC (1 / 2))) (Cmult (Cminus (Copp b) (RtoC (1 / 2))) (Rcpow x (Cminus (Copp b) (RtoC (1 / 2))))))))).

Lemma Cder_inv x : 0 < x -> Cder (fun r => RtoC (/ r)) x (RtoC (- / x ^ 2)).
Proof.
  intros Hx. split; unfold RtoC; cbn [fst snd].
  - auto_derive; [lra | field; lra].
  - exact (is_derive_const (K := R_AbsRing) (V := R_NormedModule) _ x).
Qed.

Lemma power_solves w n s r A B b x : 0 < x ->
  Cmult b b = Cplus (RtoC ((INR n + 1 / 2) ^ 2)) (Cmult (0, w) (RtoC (mu * (s * r ^ 2)))) ->
  induction_at w mu n (s * r ^ 2) (power_field A B b) (power_field' A B b) (power_field'' A B b) x.
Proof.
  intros Hx Hb. unfold induction_at.
  assert (Nx : RtoC x <> RtoC 0) by (intros X; injection X; lra).
  assert (Ex : RtoC (/ x) = Cinv (RtoC x)) by (rewrite RtoC_inv by lra; reflexivity).
  assert (Ex2 : RtoC (/ x ^ 2) = Cmult (Cinv (RtoC x)) (Cinv (RtoC x))).
  { rewrite <- Ex. unfold RtoC, Cmult. cbn [fst snd]. f_equal; field; lra. }
  assert (Ex3 : RtoC (- / x ^ 2) = Copp (RtoC (/ x ^ 2))) by (unfold RtoC, Copp; cbn [fst snd]; f_equal; ring).
  split; [|split].
  - unfold power_field. eapply Cder_eq.
    + apply Cder_plus; apply Cder_scal; apply Cder_pow; exact Hx.
    + unfold power_field'. ring.
  - unfold power_field'. eapply Cder_eq.
    + apply Cder_mult; [apply Cder_inv; exact Hx|]. apply Cder_plus; apply Cder_scal; apply Cder_scal; apply Cder_pow; exact Hx.
    + unfold power_field'', power_field'. rewrite Ex3, Ex2, Ex. field. exact Nx.
  - rewrite (rhs_b w n s r b Hb). unfold power_field'', power_field', power_field. rewrite Ex3, Ex2, Ex.
    assert (Q2 : RtoC (x ^ 2) = Cmult (RtoC x) (RtoC x)) by (unfold RtoC, Cmult; cbn [fst snd]; f_equal; ring).
    assert (Q1 : RtoC (2 * x) = Cmult (Cplus (RtoC 1) (RtoC 1)) (RtoC x)) by (unfold RtoC, Cmult, Cplus; cbn [fst snd]; f_equal; ring).
    assert (Q3 : RtoC (1 / 4) = Cmult (RtoC (1 / 2)) (RtoC (1 / 2))) by (unfold RtoC, Cmult; cbn [fst snd]; f_equal; field).
    rewrite Q2, Q1, Q3. pose proof half_half as HH. set (h := RtoC (1 / 2)) in *.
    set (P := Rcpow x (Cminus b h)). set (Q := Rcpow x (Cminus (Copp b) h)). clearbody P Q.
    set (X := RtoC x) in *. clearbody X.
    match goal with |- _ = ?R => transitivity (Cplus R (Cmult (Cminus (RtoC 1) (Cplus h h))
       (Cplus (Cmult A (Cmult (Cminus b h) P)) (Cmult B (Cmult (Cminus (Copp b) h) Q))))) end.
    + field. exact Nx.
    + rewrite HH. ring.
Qed.

Lemma field_scale w n layers v dv c : field_in w mu n layers v dv -> field_in w mu n layers (Cmult c v) (Cmult c dv).
Proof.
  assert (G : forall sr u du ddu x, induction_at w mu n sr u du ddu x ->
     induction_at w mu n sr (fun y => Cmult c (u y)) (fun y => Cmult c (du y)) (fun y => Cmult c (ddu y)) x).
  { intros sr u du ddu x (D1 & D2 & E). split; [apply Cder_scal; exact D1|]. split; [apply Cder_scal; exact D2|].
    transitivity (Cmult c (Cplus (Cmult (RtoC (x ^ 2)) (ddu x)) (Cmult (RtoC (2 * x)) (du x)))); [ring|]. rewrite E. ring. }
  intros F. induction F as [s r u du ddu H B | s r s1 r1 l u du ddu v dv F IH H E1 E2].
  - apply (field_core w mu n s r (fun y => Cmult c (u y)) (fun y => Cmult c (du y)) (fun y => Cmult c (ddu y))).
    + intros x Hx. apply G. apply H. exact Hx.
    + destruct B as (M & d & Hd & HM). exists (Cmod c * M), d. split; [exact Hd|]. intros x Hx. rewrite Cmod_mult.
      apply Rmult_le_compat_l; [apply Cmod_ge_0 | apply HM; exact Hx].
  - apply (field_layer w mu n s r s1 r1 l (fun y => Cmult c (u y)) (fun y => Cmult c (du y)) (fun y => Cmult c (ddu y)) (Cmult c v) (Cmult c dv)).
    + exact IH.
    + intros x Hx. apply G. apply H. exact Hx.
    + rewrite E1. reflexivity.
    + rewrite E2. reflexivity.
Qed.

Lemma field_exists w n layers : 0 < w -> (1 <= n)%nat -> earthlike layers ->
  exists v dv, field_in w mu n layers v dv /\ v <> RtoC 0.
Proof.
  intros Hw Hn. induction layers as [|[s r] l IH]; [contradiction|]. destruct l as [|[s1 r1] l].
  - cbn. intros [Hs Hr]. pose proof (b_re w n s r Hw Hs Hn) as Hb. set (b := b_of (0, w) n s r) in *.
    exists (power_field (RtoC 1) (RtoC 0) b r), (power_field' (RtoC 1) (RtoC 0) b r). split.
    + apply (field_core w mu n s r _ _ (power_field'' (RtoC 1) (RtoC 0) b)).
      * intros x Hx. apply power_solves; [lra | apply b_sq].
      * exists 1, 1. split; [lra|]. intros x Hx. unfold power_field. rewrite Cmult_0_l, Cplus_0_r, Cmult_1_l, Rcpow_mod.
        assert (ln x < 0) by (rewrite <- ln_1; apply ln_increasing; lra).
        apply Rle_trans with (exp 0); [apply exp_mono; unfold Cminus, Cplus, Copp, RtoC; cbn [fst]; nra | rewrite exp_0; lra].
    + unfold power_field. rewrite Cmult_0_l, Cplus_0_r, Cmult_1_l. apply Rcpow_ne.
  - intros (Hs & Hr & E). destruct (IH E) as (v & dv & F & Nv). pose proof (earthlike_top _ E) as H1. cbn in H1.
    pose proof (field_relation w n _ v dv Hw Hn F E) as Rel. unfold top in Rel. cbn [nth snd] in Rel.
    pose proof (b_sector w n s r (Rlt_le _ _ Hw) Hs) as (B1 & _). pose proof (b_sq w n s r) as Bs.
    set (b := b_of (0, w) n s r) in *.
    assert (Bn : b <> RtoC 0) by (intros X; rewrite X in B1; cbn in B1; lra).
    set (h := RtoC (1 / 2)).
    set (rd := Cmult (RtoC r1) dv).
    assert (T2 : RtoC 2 <> RtoC 0) by (intros X; injection X; lra).
    set (A := Cdiv (Cplus rd (Cmult (Cplus h b) v)) (Cmult (Cmult (RtoC 2) b) (Rcpow r1 (Cminus b h)))).
    set (B := Copp (Cdiv (Cplus rd (Cmult (Cminus h b) v)) (Cmult (Cmult (RtoC 2) b) (Rcpow r1 (Cminus (Copp b) h))))).
    assert (N1 : Rcpow r1 (Cminus b h) <> RtoC 0) by apply Rcpow_ne.
    assert (N2 : Rcpow r1 (Cminus (Copp b) h) <> RtoC 0) by apply Rcpow_ne.
    assert (Nr : RtoC r1 <> RtoC 0) by (intros X; injection X; lra).
    assert (U1 : power_field A B b r1 = v).
    { unfold power_field, A, B. fold h. set (P := Rcpow r1 (Cminus b h)) in *. set (Q := Rcpow r1 (Cminus (Copp b) h)) in *.
      clearbody P Q. transitivity (Cmult (Cdiv (Cplus (RtoC 1) (RtoC 1)) (RtoC 2)) v); [|rewrite <- two_c; field; exact T2].
      field. auto. }
    assert (U2 : power_field' A B b r1 = dv).
    { unfold power_field', A, B. fold h. set (P := Rcpow r1 (Cminus b h)) in *. set (Q := Rcpow r1 (Cminus (Copp b) h)) in *.
      clearbody P Q. rewrite RtoC_inv by lra. pose proof half_half as HH. fold h in HH.
      transitivity (Cplus (Cmult (Cdiv (Cplus (RtoC 1) (RtoC 1)) (RtoC 2)) dv) (RtoC 0)); [|rewrite <- two_c; field; exact T2].
      unfold rd. field. auto. }
    exists (power_field A B b r), (power_field' A B b r). split.
    + apply (field_layer w mu n s r s1 r1 l _ _ (power_field'' A B b) v dv F).
      * intros x Hx. apply power_solves; [lra | exact Bs].
      * exact U1.
      * exact U2.
    + intros Z. apply Nv. rewrite <- U1.
      apply (layer_relation w n s r r1 (power_field A B b) (power_field' A B b) (power_field'' A B b) (p_of (0, w) n ((s1, r1) :: l)) Hw Hs H1 Hr (p_quadrant w n _ Hw E)).
      * intros x Hx. apply power_solves; [lra | exact Bs].
      * rewrite U1, U2. exact Rel.
      * exact Z.
Qed.

(** ** The response *)
Lemma response_matches w n layers e i v dv : 0 < w -> (1 <= n)%nat -> earthlike layers ->
  field_in w mu n layers v dv -> matches (top layers) n e i v dv ->
  i = Cmult (Q_of_C n (top layers) (C_response (0, w) n layers)) e.
Proof.
  intros Hw Hn E F (M1 & M2). pose proof (field_relation w n layers v dv Hw Hn F E) as Rel.
  destruct (Q_of_p w n layers Hw E Hn) as [D Q]. cbv zeta in D, Q. rewrite Q. clear Q.
  pose proof (p_quadrant w n layers Hw E) as [P1 _]. pose proof (earthlike_top _ E) as Ht.
  set (p := p_of (0, w) n layers) in *. set (a := top layers) in *. clearbody p a.
  assert (In : 0 < INR n) by (apply lt_0_INR; lia).
  assert (Na : RtoC a <> RtoC 0) by (intros X; injection X; lra).
  set (m := INR n) in *. clearbody m.
  assert (R1 : RtoC (m * (m + 1) / a) = Cdiv (Cmult (RtoC m) (Cplus (RtoC m) (RtoC 1))) (RtoC a)).
  { rewrite RtoC_div by lra. rewrite RtoC_mult, RtoC_plus. reflexivity. }
  assert (R2 : RtoC (/ a) = Cinv (RtoC a)) by (rewrite RtoC_inv by lra; reflexivity).
  assert (R3 : RtoC (m + 1 / 2) = Cplus (RtoC m) (RtoC (1 / 2))) by (rewrite RtoC_plus; reflexivity).
  assert (R4 : RtoC (m / (m + 1)) = Cdiv (RtoC m) (Cplus (RtoC m) (RtoC 1))) by (rewrite RtoC_div by lra; rewrite RtoC_plus; reflexivity).
  assert (R5 : RtoC (m + 1) = Cplus (RtoC m) (RtoC 1)) by apply RtoC_plus.
  assert (N1 : Cplus (RtoC m) (RtoC 1) <> RtoC 0) by (rewrite <- RtoC_plus; intros X; injection X; lra).
  rewrite R1, R5 in M1. rewrite R2 in M2. rewrite R3 in *. rewrite R4.
  set (Mm := RtoC m) in *. clearbody Mm. set (aa := RtoC a) in *. clearbody aa.
  pose proof half_half as HH. set (h := RtoC (1 / 2)) in *. clearbody h.
  (* dv = (p - h) v / a *)
  assert (Dv : dv = Cdiv (Cmult (Cminus p h) v) aa) by (rewrite <- Rel; field; exact Na).
  assert (S : Cplus e i = Cdiv (Cmult (Cplus p h) v) aa).
  { rewrite M2, Dv. transitivity (Cdiv (Cplus (Cmult (Cplus p h) v) (Cmult (Cminus (RtoC 1) (Cplus h h)) v)) aa).
    - field. exact Na.
    - rewrite HH. field. exact Na. }
  (* (m e - (m+1) i) (p + h) = m (m+1) (e + i) *)
  assert (K : Cmult (Cminus (Cmult Mm e) (Cmult (Cplus Mm (RtoC 1)) i)) (Cplus p h) = Cmult (Cmult Mm (Cplus Mm (RtoC 1))) (Cplus e i)).
  { rewrite M1, S. field. exact Na. }
  assert (G : Cmult (Cmult (Cplus Mm (RtoC 1)) (Cplus p (Cplus Mm h))) i = Cmult (Cmult Mm (Cminus p (Cplus Mm h))) e).
  { transitivity (Cplus (Cminus (Cmult (Cmult Mm (Cminus (Cplus p h) (Cplus Mm (RtoC 1)))) e)
        (Cminus (Cmult (Cminus (Cmult Mm e) (Cmult (Cplus Mm (RtoC 1)) i)) (Cplus p h)) (Cmult (Cmult Mm (Cplus Mm (RtoC 1))) (Cplus e i))))
        (RtoC 0)).
    - ring.
    - rewrite K. transitivity (Cplus (Cmult (Cmult Mm (Cminus p (Cplus Mm h))) e) (Cmult (Cmult Mm (Cminus (Cplus h h) (RtoC 1))) e)); [ring|].
      rewrite HH. ring. }
  transitivity (Cdiv (Cmult (Cmult (Cplus Mm (RtoC 1)) (Cplus p (Cplus Mm h))) i) (Cmult (Cplus Mm (RtoC 1)) (Cplus p (Cplus Mm h)))).
  - field. split; assumption.
  - rewrite G. field. split; assumption.
Qed.

Lemma response_exists w n layers e : 0 < w -> (1 <= n)%nat -> earthlike layers ->
  exists i v dv, field_in w mu n layers v dv /\ matches (top layers) n e i v dv.
Proof.
  intros Hw Hn E. destruct (field_exists w n layers Hw Hn E) as (v & dv & F & Nv).
  pose proof (field_relation w n layers v dv Hw Hn F E) as Rel.
  pose proof (p_quadrant w n layers Hw E) as [P1 _]. pose proof (earthlike_top _ E) as Ht.
  assert (In : 0 < INR n) by (apply lt_0_INR; lia). set (m := INR n) in *.
  set (p := p_of (0, w) n layers) in *. set (a := top layers) in *.
  assert (Na : RtoC a <> RtoC 0) by (intros X; injection X; lra).
  (* external and internal part of the field with the given v, dv *)
  set (S := Cplus (Cmult (RtoC (/ a)) v) dv). set (T := Cmult (RtoC (m * (m + 1) / a)) v).
  set (e0 := Cmult (RtoC (/ (2 * m + 1))) (Cplus T (Cmult (RtoC (m + 1)) S))).
  assert (Ne0 : e0 <> RtoC 0).
  { assert (X : e0 = Cmult (RtoC ((m + 1) / ((2 * m + 1) * a))) (Cmult (Cplus p (RtoC (m + 1 / 2))) v)).
    { unfold e0, T, S.
      assert (Dv : dv = Cmult (RtoC (/ a)) (Cmult (Cminus p (RtoC (1 / 2))) v)).
      { rewrite <- Rel. rewrite RtoC_inv by lra. field. exact Na. }
      rewrite Dv. destruct p as [p1 p2]. destruct v as [v1 v2]. unfold Cminus, Cmult, Cplus, Copp, RtoC. cbn [fst snd].
      apply injective_projections; cbn [fst snd]; (unfold Rdiv; field; lra). }
    rewrite X. repeat apply Cmult_neq_0; [| |exact Nv].
    - intros Z. injection Z. intros Z'. assert (0 < (m + 1) / ((2 * m + 1) * a)) by (apply Rdiv_lt_0_compat; [lra | apply Rmult_lt_0_compat; lra]). lra.
    - intros Z. apply (f_equal fst) in Z. unfold Cplus, RtoC in Z. cbn [fst] in Z. lra. }
  set (c := Cdiv e e0).
  exists (Cminus (Cmult c S) e), (Cmult c v), (Cmult c dv). split; [apply field_scale; exact F|].
  assert (Ee : e = Cmult c e0) by (unfold c; field; exact Ne0).
  split.
  - fold m. transitivity (Cminus (Cmult (Cmult (RtoC (2 * m + 1)) e0) c) (Cmult (RtoC (m + 1)) (Cmult c S))).
    + rewrite Ee. replace (RtoC (2 * m + 1)) with (Cplus (RtoC m) (RtoC (m + 1))) by (rewrite <- RtoC_plus; f_equal; ring). ring.
    + unfold e0. rewrite Cmult_assoc, <- RtoC_mult. rewrite Rinv_r by lra. unfold T. ring.
  - unfold S. ring.
Qed.
