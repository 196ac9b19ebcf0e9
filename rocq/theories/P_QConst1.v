(** Energy and Wronskian of the induction equation in a homogeneous shell *)
From Coq Require Import Reals List Lia Lra Psatz.
From Coquelicot Require Import Coquelicot.
From Verif Require Import M_Rotate Spec_Induction P_Response P_Induction Spec_InductionC.
Import ListNotations.
Open Scope R_scope.

Definition dotC (a b : C) : R := fst a * fst b + snd a * snd b.
Definition solves (w mu0 : R) (n : nat) (s : R) (u du ddu : R -> C) (x : R) : Prop :=
  induction_at w mu0 n (s * x ^ 2) u du ddu x.

Lemma dot_nonneg a : 0 <= dotC a a.
Proof. unfold dotC. pose proof (Rle_0_sqr (fst a)). pose proof (Rle_0_sqr (snd a)). unfold Rsqr in *. lra. Qed.
Lemma dot_zero a : dotC a a = 0 -> a = RtoC 0.
Proof.
  unfold dotC. intros H. destruct a as [x y]. cbn [fst snd] in H. pose proof (Rle_0_sqr x). pose proof (Rle_0_sqr y).
  unfold Rsqr in *. assert (x * x = 0) by lra. assert (y * y = 0) by lra. unfold RtoC.
  f_equal; [destruct (Rmult_integral _ _ H2) | destruct (Rmult_integral _ _ H3)]; assumption.
Qed.
Lemma dot_zero_l b : dotC (RtoC 0) b = 0.
Proof. unfold dotC, RtoC. cbn [fst snd]. ring. Qed.
Lemma dot_zero_r b : dotC b (RtoC 0) = 0.
Proof. unfold dotC, RtoC. cbn [fst snd]. ring. Qed.

Lemma is_derive_ex (f : R -> R) x l : is_derive f x l -> ex_derive f x.
Proof. intros H. exists l. exact H. Qed.
Lemma der_nondecr (f df : R -> R) a b : a <= b -> (forall x, a <= x <= b -> is_derive f x (df x)) ->
  (forall x, a <= x <= b -> 0 <= df x) -> f a <= f b.
Proof.
  intros Hab H Hp. destruct (Req_dec a b) as [->|N]; [lra|].
  destruct (MVT_gen f a b df) as (x & Hx & E).
  - intros x Hx. rewrite Rmin_left, Rmax_right in Hx by lra. apply H. lra.
  - intros x Hx. rewrite Rmin_left, Rmax_right in Hx by lra. apply continuity_pt_filterlim.
    apply (ex_derive_continuous (K := R_AbsRing) (V := R_NormedModule)). eapply is_derive_ex. apply H. lra.
  - rewrite Rmin_left, Rmax_right in Hx by lra. assert (0 <= df x * (b - a)) by (apply Rmult_le_pos; [apply Hp; lra | lra]). lra.
Qed.

Section energy.
Variables (w mu0 : R) (n : nat) (s : R) (u du ddu : R -> C).

Definition energy (x : R) : R := x ^ 2 * dotC (du x) (u x).
Definition size (x : R) : R := dotC (u x) (u x).
Definition energy' (x : R) : R := INR n * (INR n + 1) * dotC (u x) (u x) + x ^ 2 * dotC (du x) (du x).
Definition size' (x : R) : R := 2 * dotC (du x) (u x).

Lemma energy_der x : solves w mu0 n s u du ddu x -> is_derive energy x (energy' x).
Proof.
  intros ([U1 U2] & [D1 D2] & E). unfold energy, energy', dotC.
  assert (E1 := f_equal fst E). assert (E2 := f_equal snd E).
  unfold Cplus, Cmult, RtoC in E1, E2. cbn [fst snd] in E1, E2.
  eapply is_derive_eq.
  - apply (is_derive_mult (fun r => r ^ 2) (fun r => fst (du r) * fst (u r) + snd (du r) * snd (u r)) x (2 * x)
             (fst (ddu x) * fst (u x) + fst (du x) * fst (du x) + (snd (ddu x) * snd (u x) + snd (du x) * snd (du x)))).
    + auto_derive; [exact I | ring].
    + apply (is_derive_plus (fun r => fst (du r) * fst (u r)) (fun r => snd (du r) * snd (u r))).
      * apply (is_derive_mult (fun r => fst (du r)) (fun r => fst (u r)) x _ _ D1 U1). intros; apply Rmult_comm.
      * apply (is_derive_mult (fun r => snd (du r)) (fun r => snd (u r)) x _ _ D2 U2). intros; apply Rmult_comm.
    + intros; apply Rmult_comm.
  - unfold plus, mult; cbn -[pow]. 
    transitivity ((x ^ 2 * fst (ddu x) - 0 * snd (ddu x) + (2 * x * fst (du x) - 0 * snd (du x))) * fst (u x)
       + (x ^ 2 * snd (ddu x) + 0 * fst (ddu x) + (2 * x * snd (du x) + 0 * fst (du x))) * snd (u x)
       + x ^ 2 * (fst (du x) * fst (du x) + snd (du x) * snd (du x))); [ring|].
    rewrite E1, E2. ring.
Qed.

Lemma size_der x : solves w mu0 n s u du ddu x -> is_derive size x (size' x).
Proof.
  intros ([U1 U2] & _). unfold size, size', dotC.
  eapply is_derive_eq.
  - apply (is_derive_plus (fun r => fst (u r) * fst (u r)) (fun r => snd (u r) * snd (u r))).
    + apply (is_derive_mult (fun r => fst (u r)) (fun r => fst (u r)) x _ _ U1 U1). intros; apply Rmult_comm.
    + apply (is_derive_mult (fun r => snd (u r)) (fun r => snd (u r)) x _ _ U2 U2). intros; apply Rmult_comm.
  - unfold plus, mult; cbn. ring.
Qed.

Lemma energy_pos x : 0 <= energy' x.
Proof.
  unfold energy'. pose proof (pos_INR n). pose proof (dot_nonneg (u x)). pose proof (dot_nonneg (du x)).
  pose proof (pow2_ge_0 x). apply Rplus_le_le_0_compat; apply Rmult_le_pos; auto. apply Rmult_le_pos; lra.
Qed.

Lemma energy_mono a b : a <= b -> (forall x, a <= x <= b -> solves w mu0 n s u du ddu x) -> energy a <= energy b.
Proof.
  intros Hab H. apply (der_nondecr energy energy'); [exact Hab | intros; apply energy_der, H; assumption | intros; apply energy_pos].
Qed.

Lemma size_mono a b : 0 < a -> a <= b -> (forall x, a <= x <= b -> solves w mu0 n s u du ddu x) -> 0 <= energy a -> size a <= size b.
Proof.
  intros Ha Hab H HE. apply (der_nondecr size size'); [exact Hab | intros; apply size_der, H; assumption |].
  intros x Hx. unfold size'. assert (0 <= energy x).
  { eapply Rle_trans; [exact HE|]. apply energy_mono; [lra|]. intros y Hy. apply H. lra. }
  unfold energy in H0. assert (0 < x ^ 2) by (apply pow_lt; lra).
  destruct (Rle_dec 0 (dotC (du x) (u x))); [lra|]. assert (x ^ 2 * dotC (du x) (u x) < 0) by nra. lra.
Qed.

Lemma zero_right (f : R -> R) a b l : a < b -> (forall x, a <= x <= b -> f x = 0) -> is_derive f a l -> l = 0.
Proof.
  intros Hab H D. apply is_derive_Reals in D.
  destruct (Req_dec l 0) as [E|N]; [exact E|exfalso].
  destruct (D (Rabs l / 2)) as [d Hd]. { pose proof (Rabs_pos_lt l N). lra. }
  set (h := Rmin (d / 2) (b - a)). pose proof (cond_pos d).
  assert (0 < h) by (apply Rmin_case; lra).
  assert (h <= d / 2) by apply Rmin_l. assert (h <= b - a) by apply Rmin_r.
  specialize (Hd h ltac:(lra)). rewrite (H (a + h)), (H a) in Hd by lra.
  rewrite Rabs_pos_eq in Hd by lra. specialize (Hd ltac:(lra)).
  replace ((0 - 0) / h - l) with (- l) in Hd by (field; lra). rewrite Rabs_Ropp in Hd. pose proof (Rabs_pos_lt l N). lra.
Qed.

(** A field that starts without flowing inwards never vanishes above *)
Lemma no_zero a b : 0 < a -> a < b -> (forall x, a <= x <= b -> solves w mu0 n s u du ddu x) ->
  0 <= dotC (du a) (u a) -> (u a <> RtoC 0 \/ du a <> RtoC 0) ->
  u b <> RtoC 0 /\ 0 <= dotC (du b) (u b).
Proof.
  intros Ha Hab H He Hn.
  assert (HE : 0 <= energy a). { unfold energy. apply Rmult_le_pos; [apply pow2_ge_0 | exact He]. }
  split.
  - intros Z. assert (S0 : forall x, a <= x <= b -> u x = RtoC 0).
    { intros x Hx. apply dot_zero. apply Rle_antisym; [|apply dot_nonneg].
      assert (size x <= size b).
      { apply size_mono; [lra | lra | intros y Hy; apply H; lra |].
        eapply Rle_trans; [exact HE|]. apply energy_mono; [lra|]. intros y Hy; apply H; lra. }
      unfold size in H0. rewrite Z, dot_zero_l in H0. exact H0. }
    destruct Hn as [N|N]; [apply N, S0; lra|]. apply N.
    destruct (H a ltac:(lra)) as ([U1 U2] & _).
    assert (A1 := zero_right _ a b _ Hab (fun x Hx => f_equal fst (S0 x Hx)) U1).
    assert (A2 := zero_right _ a b _ Hab (fun x Hx => f_equal snd (S0 x Hx)) U2).
    destruct (du a) as [p q]. cbn [fst snd] in *. unfold RtoC. f_equal; assumption.
  - assert (0 <= energy b). { eapply Rle_trans; [exact HE|]. apply energy_mono; [lra|exact H]. }
    unfold energy in H0. assert (0 < b ^ 2) by (apply pow_lt; lra).
    destruct (Rle_dec 0 (dotC (du b) (u b))); [assumption|]. assert (b ^ 2 * dotC (du b) (u b) < 0) by nra. lra.
Qed.
End energy.

(** ** The Wronskian *)
Definition wron (u du v dv : R -> C) (x : R) : C :=
  Cmult (RtoC (x ^ 2)) (Cminus (Cmult (u x) (dv x)) (Cmult (du x) (v x))).

Lemma Cder_opp u x l : Cder u x l -> Cder (fun r => Copp (u r)) x (Copp l).
Proof.
  intros [U1 U2]. unfold Copp. split; cbn [fst snd].
  - apply (is_derive_opp (fun r => fst (u r))). exact U1.
  - apply (is_derive_opp (fun r => snd (u r))). exact U2.
Qed.
Lemma Cder_minus u v x lu lv : Cder u x lu -> Cder v x lv -> Cder (fun r => Cminus (u r) (v r)) x (Cminus lu lv).
Proof. intros U V. unfold Cminus. apply Cder_plus; [exact U|]. apply Cder_opp. exact V. Qed.
Lemma Cder_ofR (f : R -> R) x l : is_derive f x l -> Cder (fun r => RtoC (f r)) x (RtoC l).
Proof. intros H. split; [exact H | exact (is_derive_const (K := R_AbsRing) (V := R_NormedModule) _ x)]. Qed.

Lemma wron_der w mu0 n s u du ddu v dv ddv x : solves w mu0 n s u du ddu x -> solves w mu0 n s v dv ddv x ->
  Cder (wron u du v dv) x (RtoC 0).
Proof.
  intros (U1 & U2 & E) (V1 & V2 & F). unfold wron.
  eapply Cder_eq.
  - apply Cder_mult. { apply (Cder_ofR (fun r => r ^ 2) x (2 * x)). auto_derive; [exact I | ring]. }
    apply Cder_minus; apply Cder_mult; eassumption.
  - cbv beta. 
    transitivity (Cminus (Cmult (u x) (Cplus (Cmult (RtoC (x ^ 2)) (ddv x)) (Cmult (RtoC (2 * x)) (dv x))))
                         (Cmult (v x) (Cplus (Cmult (RtoC (x ^ 2)) (ddu x)) (Cmult (RtoC (2 * x)) (du x))))); [ring|].
    rewrite E, F. ring.
Qed.

Lemma wron_const w mu0 n s u du ddu v dv ddv a b : a <= b -> (forall x, a <= x <= b -> solves w mu0 n s u du ddu x) ->
  (forall x, a <= x <= b -> solves w mu0 n s v dv ddv x) -> wron u du v dv b = wron u du v dv a.
Proof.
  intros Hab H1 H2. apply Cconst; [exact Hab|]. intros x Hx. eapply wron_der; [apply H1 | apply H2]; exact Hx.
Qed.

Lemma solves_comb w mu0 n s u du ddu v dv ddv A B x : solves w mu0 n s u du ddu x -> solves w mu0 n s v dv ddv x ->
  solves w mu0 n s (fun y => Cplus (Cmult A (u y)) (Cmult B (v y))) (fun y => Cplus (Cmult A (du y)) (Cmult B (dv y)))
    (fun y => Cplus (Cmult A (ddu y)) (Cmult B (ddv y))) x.
Proof.
  intros (U1 & U2 & E) (V1 & V2 & F). split; [|split].
  - apply Cder_plus; apply Cder_scal; assumption.
  - apply Cder_plus; apply Cder_scal; assumption.
  - transitivity (Cplus (Cmult A (Cplus (Cmult (RtoC (x ^ 2)) (ddu x)) (Cmult (RtoC (2 * x)) (du x))))
                        (Cmult B (Cplus (Cmult (RtoC (x ^ 2)) (ddv x)) (Cmult (RtoC (2 * x)) (dv x))))); [ring|].
    rewrite E, F. ring.
Qed.

(** ** One shell between two independent solutions *)
Section shell.
Variables (w mu0 : R) (n : nat) (s : R) (P dP ddP K dK ddK : R -> C).
Hypothesis HP : forall x, 0 < x -> solves w mu0 n s P dP ddP x.
Hypothesis HK : forall x, 0 < x -> solves w mu0 n s K dK ddK x.
Hypothesis HW : forall x, 0 < x -> wron P dP K dK x <> RtoC 0.

Lemma shell_exists r1 v dv : 0 < r1 -> exists u du ddu,
  (forall x, 0 < x -> solves w mu0 n s u du ddu x) /\ u r1 = v /\ du r1 = dv.
Proof.
  intros H1. pose proof (HW r1 H1) as N. unfold wron in N.
  set (D := Cminus (Cmult (P r1) (dK r1)) (Cmult (dP r1) (K r1))) in *.
  assert (ND : D <> RtoC 0) by (intros X; apply N; rewrite X; ring).
  set (A := Cdiv (Cminus (Cmult v (dK r1)) (Cmult dv (K r1))) D).
  set (B := Cdiv (Cminus (Cmult dv (P r1)) (Cmult v (dP r1))) D).
  exists (fun y => Cplus (Cmult A (P y)) (Cmult B (K y))), (fun y => Cplus (Cmult A (dP y)) (Cmult B (dK y))),
    (fun y => Cplus (Cmult A (ddP y)) (Cmult B (ddK y))).
  split; [|split].
  - intros x Hx. apply solves_comb; [apply HP | apply HK]; exact Hx.
  - unfold A, B. transitivity (Cmult v (Cdiv D D)).
    + unfold D at 3. field. exact ND.
    + field. exact ND.
  - unfold A, B. transitivity (Cmult dv (Cdiv D D)).
    + unfold D at 3. field. exact ND.
    + field. exact ND.
Qed.

(** Numerator and denominator of u'/u at the top *)
Definition num (r r1 : R) (v dv : C) : C :=
  Cplus (Cmult (Cminus (Cmult (dP r) (K r1)) (Cmult (dK r) (P r1))) dv)
        (Cmult (Cminus (Cmult (dK r) (dP r1)) (Cmult (dP r) (dK r1))) v).
Definition den (r r1 : R) (v dv : C) : C :=
  Cplus (Cmult (Cminus (Cmult (P r) (K r1)) (Cmult (K r) (P r1))) dv)
        (Cmult (Cminus (Cmult (K r) (dP r1)) (Cmult (P r) (dK r1))) v).

Lemma shell_top r1 r u du ddu : 0 < r1 -> r1 < r -> (forall x, r1 <= x <= r -> solves w mu0 n s u du ddu x) ->
  Cmult (u r) (wron P dP K dK r) = Copp (Cmult (RtoC (r1 ^ 2)) (den r r1 (u r1) (du r1))) /\
  Cmult (du r) (wron P dP K dK r) = Copp (Cmult (RtoC (r1 ^ 2)) (num r r1 (u r1) (du r1))).
Proof.
  intros H1 Hr H.
  assert (EP := wron_const w mu0 n s u du ddu P dP ddP r1 r (Rlt_le _ _ Hr) H ltac:(intros; apply HP; lra)).
  assert (EK := wron_const w mu0 n s u du ddu K dK ddK r1 r (Rlt_le _ _ Hr) H ltac:(intros; apply HK; lra)).
  unfold wron, num, den in *. split.
  - transitivity (Cminus (Cmult (P r) (Cmult (RtoC (r ^ 2)) (Cminus (Cmult (u r) (dK r)) (Cmult (du r) (K r)))))
                         (Cmult (K r) (Cmult (RtoC (r ^ 2)) (Cminus (Cmult (u r) (dP r)) (Cmult (du r) (P r)))))); [ring|].
    rewrite EP, EK. ring.
  - transitivity (Cminus (Cmult (dP r) (Cmult (RtoC (r ^ 2)) (Cminus (Cmult (u r) (dK r)) (Cmult (du r) (K r)))))
                         (Cmult (dK r) (Cmult (RtoC (r ^ 2)) (Cminus (Cmult (u r) (dP r)) (Cmult (du r) (P r)))))); [ring|].
    rewrite EP, EK. ring.
Qed.

Lemma shell_ratio r1 r u du ddu : 0 < r1 -> r1 < r -> (forall x, r1 <= x <= r -> solves w mu0 n s u du ddu x) ->
  0 <= dotC (du r1) (u r1) -> (u r1 <> RtoC 0 \/ du r1 <> RtoC 0) ->
  u r <> RtoC 0 /\ 0 <= dotC (du r) (u r) /\ den r r1 (u r1) (du r1) <> RtoC 0 /\
  du r = Cmult (Cdiv (num r r1 (u r1) (du r1)) (den r r1 (u r1) (du r1))) (u r).
Proof.
  intros H1 Hr H He Hn. destruct (no_zero w mu0 n s u du ddu r1 r H1 Hr H He Hn) as [N E].
  destruct (shell_top r1 r u du ddu H1 Hr H) as [T1 T2]. assert (NW := HW r ltac:(lra)).
  set (W := wron P dP K dK r) in *. set (D := den r r1 (u r1) (du r1)) in *. set (M := num r r1 (u r1) (du r1)) in *.
  assert (ND : D <> RtoC 0).
  { intros X. apply (Cmult_neq_0 (u r) W); [exact N | exact NW |]. rewrite T1, X. ring. }
  split; [exact N|]. split; [exact E|]. split; [exact ND|].
  assert (Nr : RtoC (r1 ^ 2) <> RtoC 0). { intros X. apply (f_equal fst) in X. cbn [fst RtoC] in X. apply pow_nonzero in X; [exact X | lra]. }
  transitivity (Cdiv (Cmult (du r) W) W); [field; exact NW|]. rewrite T2.
  replace (u r) with (Cdiv (Cmult (u r) W) W) by (field; exact NW). rewrite T1. field. split; assumption.
Qed.
End shell.
