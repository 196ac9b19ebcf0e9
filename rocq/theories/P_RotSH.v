(** The spherical harmonics of one degree span a space that every orthogonal
    change of the axes maps to itself. *)
From Coq Require Import Reals List Arith Lia Lra ZArith Factorial.
From Coquelicot Require Import Coquelicot.
From Verif Require Import Spec_Legendre Spec_Field P_Legendre P_Legendre2 P_LegendreTab P_Synth P_Spline.
Import ListNotations.
Open Scope R_scope.

(** ** Two more recursions *)
Lemma Qf_up k p x : Qf (S k) (S p) x = x * Qf k (S p) x + (INR k + INR p + 1) * Qf k p x.
Proof.
  rewrite !Qf_dw, cw_S. replace (S k + S p)%nat with (S (k + S p)) by lia. rewrite dw_A.
  replace (pred (k + S p)) with (k + p)%nat by lia. rewrite plus_INR, S_INR.
  pose proof (cw_neq k). pose proof (pos_INR k). rewrite S_INR. field. repeat split; try assumption; lra.
Qed.

Lemma Qf_up0 k x : (INR k + 1) * Qf (S k) 0 x = (INR k + 1) * x * Qf k 0 x - (1 - x ^ 2) * Qf k 1 x.
Proof.
  rewrite !Qf_dw, cw_S, !Nat.add_0_r. pose proof (cw_neq k) as Hc. pose proof (pos_INR k).
  rewrite dw_A, S_INR. destruct k as [|k].
  - cbn [INR pred Nat.add]. rewrite (dw_0 0 1) by lia. field. exact Hc.
  - pose proof (dw_B (S k) k x) as B. rewrite S_INR in *. cbn [pred]. rewrite Nat.add_1_r.
    set (K := INR k) in *. set (c := cw (S k)) in *.
    assert (E : (1 - x ^ 2) * dw (S k) (S (S k)) x = - ((K + 1) * (K + 2)) * dw (S k) k x) by lra.
    transitivity ((K + 1 + 1) * x * (dw (S k) (S k) x / c) - (1 - x ^ 2) * dw (S k) (S (S k)) x / c); [|field; exact Hc].
    rewrite E. field. split; [exact Hc|]. lra.
Qed.

(** ** The generating function *)
(** coefficient of t^(k-m) e^(i m phi) in (sin (e^(i phi) - t^2 e^(-i phi)) + 2 t cos)^k, for 0 <= m *)
Definition gam (k m : nat) : R := 2 ^ k * INR (fact k) / INR (fact (k + m)).
Definition Gn (k m : nat) (A B : R) : R := gam k m * A ^ m * Qf k m B.
Definition G (k : nat) (m : Z) (A B : R) : R :=
  (if Z.ltb m 0 then (-1) ^ Z.abs_nat m else 1) * Gn k (Z.abs_nat m) A B.

Lemma gam_pos k m : 0 < gam k m.
Proof.
  unfold gam. apply Rdiv_lt_0_compat; [|apply INR_fact_lt_0].
  apply Rmult_lt_0_compat; [apply pow_lt; lra|apply INR_fact_lt_0].
Qed.

Lemma gam_S k m : gam k (S m) = gam k m / (INR k + INR m + 1).
Proof.
  unfold gam. rewrite Nat.add_succ_r, fact_simpl, mult_INR, S_INR, plus_INR.
  pose proof (INR_fact_lt_0 (k + m)). pose proof (pos_INR k). pose proof (pos_INR m). field. lra.
Qed.

Lemma gam_Sk k m : gam (S k) m = 2 * (INR k + 1) * gam k m / (INR k + INR m + 1).
Proof.
  unfold gam. rewrite Nat.add_succ_l, !fact_simpl, !mult_INR, !S_INR, plus_INR. cbn [pow].
  pose proof (INR_fact_lt_0 (k + m)). pose proof (pos_INR k). pose proof (pos_INR m). field. lra.
Qed.

Lemma Gn_rec k p A B : A ^ 2 = 1 - B ^ 2 ->
  Gn (S k) (S p) A B = A * Gn k p A B + 2 * B * Gn k (S p) A B - A * Gn k (S (S p)) A B.
Proof.
  intros HA. unfold Gn.
  transitivity (A ^ S p * (gam k p * Qf k p B + 2 * B * gam k (S p) * Qf k (S p) B - gam k (S (S p)) * ((1 - B ^ 2) * Qf k (S (S p)) B))).
  2:{ rewrite <- HA. cbn [pow]. ring. }
  replace ((1 - B ^ 2) * Qf k (S (S p)) B) with
    (2 * (INR p + 1) * B * Qf k (S p) B - (INR k + INR p + 1) * (INR k - INR p) * Qf k p B).
  2:{ pose proof (Qf_ode k p B). lra. }
  rewrite Qf_up, gam_Sk, !gam_S, !S_INR.
  pose proof (pos_INR k). pose proof (pos_INR p). field. lra.
Qed.

Lemma Gn_rec0 k A B : A ^ 2 = 1 - B ^ 2 -> Gn (S k) 0 A B = 2 * B * Gn k 0 A B - 2 * A * Gn k 1 A B.
Proof.
  intros HA. unfold Gn. rewrite gam_Sk, gam_S. change (INR 0) with 0. pose proof (pos_INR k). pose proof (Qf_up0 k B) as E.
  transitivity (2 * gam k 0 / (INR k + 1) * ((INR k + 1) * Qf (S k) 0 B)); [cbn [pow]; field; lra|].
  rewrite E, <- HA. cbn [pow]. field. lra.
Qed.

Lemma G_pos k m A B : G k (Z.of_nat m) A B = Gn k m A B.
Proof.
  unfold G. rewrite Zabs2Nat.id. destruct (Z.ltb_spec (Z.of_nat m) 0); [lia|ring].
Qed.

Lemma G_neg k m A B : G k (- Z.of_nat m) A B = (-1) ^ m * Gn k m A B.
Proof.
  unfold G. replace (Z.abs_nat (- Z.of_nat m)) with m by lia.
  destruct (Z.ltb_spec (- Z.of_nat m) 0); [reflexivity|]. replace m with 0%nat by lia. cbn. ring.
Qed.

Lemma G_rec k m A B : A ^ 2 = 1 - B ^ 2 ->
  G (S k) m A B = A * G k (m - 1) A B + 2 * B * G k m A B - A * G k (m + 1) A B.
Proof.
  intros HA. destruct (Z_lt_le_dec 0 m) as [H|H].
  - set (p := Z.to_nat (m - 1)). replace m with (Z.of_nat (S p)) by lia.
    replace (Z.of_nat (S p) - 1)%Z with (Z.of_nat p) by lia. replace (Z.of_nat (S p) + 1)%Z with (Z.of_nat (S (S p))) by lia.
    rewrite !G_pos. apply Gn_rec, HA.
  - destruct (Z.eq_dec m 0) as [->|N].
    + change (0 - 1)%Z with (- Z.of_nat 1)%Z. change (0 + 1)%Z with (Z.of_nat 1). change 0%Z with (Z.of_nat 0) at 1 2.
      rewrite G_neg, !G_pos, Gn_rec0 by exact HA. cbn [pow]. ring.
    + set (p := Z.to_nat (- m - 1)). replace m with (- Z.of_nat (S p))%Z by lia.
      replace (- Z.of_nat (S p) - 1)%Z with (- Z.of_nat (S (S p)))%Z by lia.
      replace (- Z.of_nat (S p) + 1)%Z with (- Z.of_nat p)%Z by lia.
      rewrite !G_neg, Gn_rec by exact HA. cbn [pow]. ring.
Qed.

Lemma G_0 k m A B : (Z.of_nat k < Z.abs m)%Z -> G k m A B = 0.
Proof. intros H. unfold G, Gn. rewrite Qf_0 by lia. ring. Qed.

(** e^(i z phi) *)
Definition ex (z : Z) (p : R) : C := (cos (IZR z * p), sin (IZR z * p)).

Lemma ex_plus a b p : ex (a + b) p = Cmult (ex a p) (ex b p).
Proof.
  unfold ex, Cmult. cbn [fst snd]. rewrite plus_IZR, Rmult_plus_distr_r, cos_plus, sin_plus. f_equal; ring.
Qed.

Lemma ex_0 p : ex 0 p = RtoC 1.
Proof. unfold ex, RtoC. rewrite Rmult_0_l, cos_0, sin_0. reflexivity. Qed.

Fixpoint csum (n : nat) (f : nat -> C) : C := match n with 0%nat => RtoC 0 | S n => Cplus (csum n f) (f n) end.
Fixpoint cpow (z : C) (n : nat) : C := match n with 0%nat => RtoC 1 | S n => Cmult z (cpow z n) end.

Lemma csum_ext n f g : (forall i, (i < n)%nat -> f i = g i) -> csum n f = csum n g.
Proof. induction n as [|n IH]; intros H; cbn; [reflexivity|]. rewrite IH, H by (intros; try apply H; lia). reflexivity. Qed.
Lemma csum_plus n f g : csum n (fun i => Cplus (f i) (g i)) = Cplus (csum n f) (csum n g).
Proof. induction n as [|n IH]; cbn; [ring|]. rewrite IH. ring. Qed.
Lemma csum_scal n c f : csum n (fun i => Cmult c (f i)) = Cmult c (csum n f).
Proof. induction n as [|n IH]; cbn; [ring|]. rewrite IH. ring. Qed.
Lemma csum_shift n f : csum (S n) f = Cplus (f 0%nat) (csum n (fun i => f (S i))).
Proof. induction n as [|n IH]; [cbn; ring|]. change (csum (S (S n)) f) with (Cplus (csum (S n) f) (f (S n))). rewrite IH. cbn. ring. Qed.

Definition gterm (k : nat) (A B p : R) (t : C) (j : nat) : C :=
  Cmult (RtoC (G k (Z.of_nat k - Z.of_nat j) A B)) (Cmult (cpow t j) (ex (Z.of_nat k - Z.of_nat j) p)).

Lemma gterm_0 k A B p t j : (2 * k < j)%nat -> gterm k A B p t j = RtoC 0.
Proof. intros H. unfold gterm. rewrite G_0 by lia. ring. Qed.

(** the linear form of the null vector (1 - t^2, i (1 + t^2), 2 t) *)
Definition lin (A B p : R) (t : C) : C :=
  Cplus (Cplus (Cmult (RtoC A) (ex 1 p)) (Cmult (RtoC (2 * B)) t)) (Copp (Cmult (RtoC A) (Cmult (Cmult t t) (ex (-1) p)))).

Lemma generating k A B p t : A ^ 2 = 1 - B ^ 2 -> cpow (lin A B p t) k = csum (2 * k + 1) (gterm k A B p t).
Proof.
  intros HA. induction k as [|k IH].
  - cbn. unfold gterm, G, Gn, gam. cbn [Z.of_nat Z.sub Z.opp Z.add Z.ltb Z.compare Z.abs_nat]. rewrite Qf_00. rewrite ex_0. cbn.
    replace (1 * (1 * 1 / 1 * 1 * 1)) with 1 by field. ring.
  - cbn [cpow]. rewrite IH. set (n := (2 * k + 1)%nat). replace (2 * S k + 1)%nat with (S (S n)) by (unfold n; lia).
    set (T := gterm k A B p t).
    set (zz := fun i : nat => (Z.of_nat (S k) - Z.of_nat i)%Z).
    transitivity (csum (S (S n)) (fun i => Cplus (Cplus
       (Cmult (RtoC (A * G k (zz i - 1) A B)) (Cmult (cpow t i) (ex (zz i) p)))
       (Cmult (RtoC (2 * B * G k (zz i) A B)) (Cmult (cpow t i) (ex (zz i) p))))
       (Cmult (RtoC (- A * G k (zz i + 1) A B)) (Cmult (cpow t i) (ex (zz i) p))))).
    2:{ apply csum_ext. intros i _. unfold gterm. rewrite G_rec by exact HA. fold (zz i).
        rewrite RtoC_minus, RtoC_plus, !RtoC_mult, RtoC_opp. ring. }
    rewrite !csum_plus.
    assert (E1 : csum (S (S n)) (fun i => Cmult (RtoC (A * G k (zz i - 1) A B)) (Cmult (cpow t i) (ex (zz i) p)))
               = Cmult (Cmult (RtoC A) (ex 1 p)) (csum n T)).
    { transitivity (csum (S (S n)) (fun i => Cmult (Cmult (RtoC A) (ex 1 p)) (T i))).
      - apply csum_ext. intros i _. unfold T, gterm. replace (zz i) with (1 + (Z.of_nat k - Z.of_nat i))%Z by (unfold zz; lia).
        rewrite ex_plus. replace (1 + (Z.of_nat k - Z.of_nat i) - 1)%Z with (Z.of_nat k - Z.of_nat i)%Z by lia.
        rewrite RtoC_mult. ring.
      - rewrite csum_scal. cbn [csum]. assert (T1 : T n = RtoC 0) by (apply gterm_0; unfold n; lia). assert (T2 : T (S n) = RtoC 0) by (apply gterm_0; unfold n; lia). rewrite T1, T2. ring. }
    assert (E2 : csum (S (S n)) (fun i => Cmult (RtoC (2 * B * G k (zz i) A B)) (Cmult (cpow t i) (ex (zz i) p)))
               = Cmult (Cmult (RtoC (2 * B)) t) (csum n T)).
    { rewrite csum_shift. rewrite (G_0 k (zz 0%nat)) by (unfold zz; lia).
      transitivity (csum (S n) (fun i => Cmult (Cmult (RtoC (2 * B)) t) (T i))).
      - rewrite Rmult_0_r, Cmult_0_l, Cplus_0_l. apply csum_ext. intros i _. unfold T, gterm.
        replace (zz (S i)) with (Z.of_nat k - Z.of_nat i)%Z by (unfold zz; lia). cbn [cpow]. rewrite RtoC_mult. ring.
      - rewrite csum_scal. cbn [csum]. assert (T1 : T n = RtoC 0) by (apply gterm_0; unfold n; lia). rewrite T1. ring. }
    assert (E3 : csum (S (S n)) (fun i => Cmult (RtoC (- A * G k (zz i + 1) A B)) (Cmult (cpow t i) (ex (zz i) p)))
               = Cmult (Copp (Cmult (RtoC A) (Cmult (Cmult t t) (ex (-1) p)))) (csum n T)).
    { rewrite csum_shift, csum_shift. rewrite (G_0 k (zz 0%nat + 1)), (G_0 k (zz 1%nat + 1)) by (unfold zz; lia).
      rewrite !Rmult_0_r, !Cmult_0_l, !Cplus_0_l. rewrite <- csum_scal. apply csum_ext. intros i _. unfold T, gterm.
      replace (zz (S (S i))) with (-1 + (Z.of_nat k - Z.of_nat i))%Z by (unfold zz; lia).
      replace (-1 + (Z.of_nat k - Z.of_nat i) + 1)%Z with (Z.of_nat k - Z.of_nat i)%Z by lia.
      rewrite ex_plus. cbn [cpow]. rewrite RtoC_mult, RtoC_opp. ring. }
    rewrite E1, E2, E3. unfold lin. ring.
Qed.

(** ** The harmonics of degree k *)
Definition hsum (k : nat) (g h : nat -> R) (th p : R) : R :=
  Rsum (map (fun m => (g m * cos (INR m * p) + h m * sin (INR m * p)) * schmidt k m th) (seq 0 (S k))).

Section Space.
Variable k : nat.

Definition harm (F : R -> R -> R) : Prop := exists g h, forall th p, F th p = hsum k g h th p.
Definition charm (F : R -> R -> C) : Prop := harm (fun th p => fst (F th p)) /\ harm (fun th p => snd (F th p)).

Lemma harm_ext F F' : (forall th p, F th p = F' th p) -> harm F -> harm F'.
Proof. intros H (g & h & E). exists g, h. intros. rewrite <- H. apply E. Qed.
Lemma charm_ext F F' : (forall th p, F th p = F' th p) -> charm F -> charm F'.
Proof. intros H [A B]. split; [revert A|revert B]; apply harm_ext; intros; rewrite H; reflexivity. Qed.

Lemma harm_lin a b F F' : harm F -> harm F' -> harm (fun th p => a * F th p + b * F' th p).
Proof.
  intros (g & h & E) (g' & h' & E'). exists (fun m => a * g m + b * g' m), (fun m => a * h m + b * h' m).
  intros th p. rewrite E, E'. unfold hsum. rewrite <- !Rsum_map_scal, <- Rsum_map_plus.
  apply Rsum_map_ext. intros; ring.
Qed.

Lemma charm_plus F F' : charm F -> charm F' -> charm (fun th p => Cplus (F th p) (F' th p)).
Proof.
  intros [A B] [A' B']. split.
  - apply (harm_ext (fun th p => 1 * fst (F th p) + 1 * fst (F' th p))); [intros; cbn; ring|]. apply harm_lin; assumption.
  - apply (harm_ext (fun th p => 1 * snd (F th p) + 1 * snd (F' th p))); [intros; cbn; ring|]. apply harm_lin; assumption.
Qed.

Lemma charm_scal c F : charm F -> charm (fun th p => Cmult c (F th p)).
Proof.
  intros [A B]. split.
  - apply (harm_ext (fun th p => fst c * fst (F th p) + (- snd c) * snd (F th p))); [intros; cbn; ring|]. apply harm_lin; assumption.
  - apply (harm_ext (fun th p => snd c * fst (F th p) + fst c * snd (F th p))); [intros; cbn; ring|]. apply harm_lin; assumption.
Qed.

Lemma charm_csum n (F : nat -> R -> R -> C) : (forall i, (i < n)%nat -> charm (F i)) -> (0 < n)%nat ->
  charm (fun th p => csum n (fun i => F i th p)).
Proof.
  induction n as [|n IH]; intros H Hn; [lia|]. destruct n as [|n].
  - apply (charm_ext (F 0%nat)); [intros; cbn; ring|]. apply H. lia.
  - apply (charm_ext (fun th p => Cplus (csum (S n) (fun i => F i th p)) (F (S n) th p))); [reflexivity|].
    apply charm_plus; [apply IH; [intros; apply H; lia|lia] | apply H; lia].
Qed.

Lemma harm_cos m a : (m <= k)%nat -> harm (fun th p => a * cos (INR m * p) * schmidt k m th).
Proof.
  intros H. exists (fun i => (if Nat.eqb i m then 1 else 0) * a), (fun _ => 0). intros th p. unfold hsum.
  rewrite <- (Rsum_single (fun m => a * cos (INR m * p) * schmidt k m th) (S k) m) by lia.
  apply Rsum_map_ext. intros; ring.
Qed.
Lemma harm_sin m a : (m <= k)%nat -> harm (fun th p => a * sin (INR m * p) * schmidt k m th).
Proof.
  intros H. exists (fun _ => 0), (fun i => (if Nat.eqb i m then 1 else 0) * a). intros th p. unfold hsum.
  rewrite <- (Rsum_single (fun m => a * sin (INR m * p) * schmidt k m th) (S k) m) by lia.
  apply Rsum_map_ext. intros; ring.
Qed.

Lemma cn_pos n m : 0 < cn n m.
Proof. apply sqrt_lt_R0, norm_pos. Qed.

Lemma G_schmidt m th : G k m (sin th) (cos th) =
  (if Z.ltb m 0 then (-1) ^ Z.abs_nat m else 1) * (gam k (Z.abs_nat m) / cn k (Z.abs_nat m)) * schmidt k (Z.abs_nat m) th.
Proof. unfold G, Gn. rewrite schmidt_Q. pose proof (cn_pos k (Z.abs_nat m)). field. lra. Qed.

Lemma charm_term m : charm (fun th p => Cmult (RtoC (G k m (sin th) (cos th))) (ex m p)).
Proof.
  destruct (Z_lt_le_dec (Z.of_nat k) (Z.abs m)) as [H|H].
  - assert (Z0 : harm (fun _ _ => 0)).
    { exists (fun _ => 0), (fun _ => 0). intros. unfold hsum. symmetry. apply Rsum_map_0. intros; ring. }
    split; apply (harm_ext (fun _ _ => 0)); try exact Z0; intros; rewrite G_0 by exact H; cbn; ring.
  - assert (Hm : (Z.abs_nat m <= k)%nat) by lia.
    set (a := (if Z.ltb m 0 then (-1) ^ Z.abs_nat m else 1) * (gam k (Z.abs_nat m) / cn k (Z.abs_nat m))).
    assert (IM : IZR m = if Z.ltb m 0 then - INR (Z.abs_nat m) else INR (Z.abs_nat m)).
    { destruct (Z.ltb_spec m 0); rewrite INR_IZR_INZ, <- ?opp_IZR; f_equal; lia. }
    split.
    + apply (harm_ext (fun th p => a * cos (INR (Z.abs_nat m) * p) * schmidt k (Z.abs_nat m) th)); [|apply harm_cos, Hm].
      intros th p. rewrite G_schmidt. fold a. unfold ex. cbn. rewrite IM.
      destruct (Z.ltb m 0); [rewrite Ropp_mult_distr_l_reverse, cos_neg|]; ring.
    + apply (harm_ext (fun th p => ((if Z.ltb m 0 then -1 else 1) * a) * sin (INR (Z.abs_nat m) * p) * schmidt k (Z.abs_nat m) th)); [|apply harm_sin, Hm].
      intros th p. rewrite G_schmidt. fold a. unfold ex. cbn. rewrite IM.
      destruct (Z.ltb m 0); [rewrite Ropp_mult_distr_l_reverse, sin_neg|]; ring.
Qed.

Lemma trig_sq th : sin th ^ 2 = 1 - cos th ^ 2.
Proof. pose proof (sin2_cos2 th) as H. unfold Rsqr in H. lra. Qed.

Lemma charm_lin t : charm (fun th p => cpow (lin (sin th) (cos th) p t) k).
Proof.
  apply (charm_ext (fun th p => csum (2 * k + 1) (fun j => gterm k (sin th) (cos th) p t j))).
  { intros th p. symmetry. apply generating, trig_sq. }
  apply (charm_csum (2 * k + 1) (fun j th p => gterm k (sin th) (cos th) p t j)); [|lia].
  intros j _. unfold gterm.
  apply (charm_ext (fun th p => Cmult (cpow t j) (Cmult (RtoC (G k (Z.of_nat k - Z.of_nat j) (sin th) (cos th))) (ex (Z.of_nat k - Z.of_nat j) p)))).
  { intros. ring. }
  apply charm_scal, charm_term.
Qed.

(** k-th powers of the linear form of any null vector: u v = - w^2 *)
Definition form (u v w : C) (th p : R) : C :=
  Cplus (Cplus (Cmult u (Cmult (RtoC (sin th)) (ex 1 p))) (Cmult (Cmult (RtoC 2) w) (RtoC (cos th))))
        (Cmult v (Cmult (RtoC (sin th)) (ex (-1) p))).

Lemma cpow_mult a b n : cpow (Cmult a b) n = Cmult (cpow a n) (cpow b n).
Proof. induction n as [|n IH]; cbn; [ring|]. rewrite IH. ring. Qed.

Lemma ex_pow n z p : cpow (ex z p) n = ex (Z.of_nat n * z) p.
Proof.
  induction n as [|n IH]; cbn [cpow]; [rewrite ex_0; reflexivity|].
  rewrite IH, <- ex_plus. f_equal. lia.
Qed.

Lemma cpow_real r n : cpow (RtoC r) n = RtoC (r ^ n).
Proof. induction n as [|n IH]; cbn; [reflexivity|]. rewrite IH, <- RtoC_mult. reflexivity. Qed.

Lemma C_dec (a : C) : a = RtoC 0 \/ a <> RtoC 0.
Proof.
  destruct a as [x y]. destruct (Req_dec x 0) as [->|H]; [destruct (Req_dec y 0) as [->|H]|].
  - left. reflexivity.
  - right. intros E. apply (f_equal snd) in E. cbn in E. contradiction.
  - right. intros E. apply (f_equal fst) in E. cbn in E. contradiction.
Qed.

Lemma Qf_kk_const n : exists a, a <> 0 /\ forall x, Qf n n x = a.
Proof.
  induction n as [|n (a & Ha & IH)].
  - exists 1. split; [lra|]. intros. apply Qf_00.
  - exists ((2 * INR n + 1) * a). pose proof (pos_INR n). split.
    + apply Rmult_integral_contrapositive_currified; [lra|exact Ha].
    + intros. rewrite Qf_diag, IH. reflexivity.
Qed.

Lemma charm_form u v w : Cmult u v = Copp (Cmult w w) -> charm (fun th p => cpow (form u v w th p) k).
Proof.
  intros H. destruct (C_dec u) as [E|E].
  - assert (W : w = RtoC 0).
    { rewrite E in H. destruct (C_dec w) as [|N]; [assumption|]. exfalso.
      apply (Cmult_neq_0 w w N N). transitivity (Copp (Copp (Cmult w w))); [ring|]. rewrite <- H. ring. }
    destruct (Qf_kk_const k) as (a & Ha & Ea).
    apply (charm_ext (fun th p => Cmult (Cmult (cpow v k) (RtoC (/ (gam k k * a) * (-1) ^ k)))
       (Cmult (RtoC (G k (- Z.of_nat k) (sin th) (cos th))) (ex (- Z.of_nat k) p)))); [|apply charm_scal, charm_term].
    intros th p. unfold form. rewrite E, W.
    replace (Cplus _ _) with (Cmult v (Cmult (RtoC (sin th)) (ex (-1) p))) by ring.
    rewrite !cpow_mult, cpow_real, ex_pow. replace (Z.of_nat k * -1)%Z with (- Z.of_nat k)%Z by lia.
    rewrite G_neg. unfold Gn. rewrite Ea.
    replace (RtoC (sin th ^ k)) with (Cmult (RtoC (/ (gam k k * a) * (-1) ^ k)) (RtoC ((-1) ^ k * (gam k k * sin th ^ k * a)))).
    + ring.
    + rewrite <- RtoC_mult. f_equal.
      assert (S1 : (-1) ^ k * (-1) ^ k = 1) by (rewrite <- Rpow_mult_distr; replace (-1 * -1) with 1 by ring; apply pow1).
      transitivity ((-1) ^ k * (-1) ^ k * sin th ^ k); [|rewrite S1; ring].
      pose proof (gam_pos k k). field. split; [exact Ha|lra].
  - apply (charm_ext (fun th p => Cmult (cpow u k) (cpow (lin (sin th) (cos th) p (Cdiv w u)) k))); [|apply charm_scal, charm_lin].
    intros th p. rewrite <- cpow_mult. f_equal. unfold lin, form. rewrite RtoC_mult.
    replace v with (Copp (Cmult w (Cdiv w u))).
    + field. exact E.
    + transitivity (Cdiv (Copp (Cmult w w)) u); [field; exact E|]. rewrite <- H. field. exact E.
Qed.

(** ** The coefficients of a polynomial in t all of whose values are harmonics *)
Lemma extract n (T : nat -> R -> R -> C) : (0 < n)%nat ->
  (forall t : R, charm (fun th p => csum n (fun j => Cmult (RtoC (t ^ j)) (T j th p)))) ->
  forall j, (j < n)%nat -> charm (T j).
Proof.
  revert T. induction n as [|n IH]; intros T Hn H j Hj; [lia|].
  destruct n as [|n].
  - replace j with 0%nat by lia. refine (charm_ext _ _ _ (H 1)). intros. cbn. ring.
  - assert (L : forall i, (i < S n)%nat -> charm (T i)).
    { intros i Hi.
      assert (Q : charm (fun th p => Cmult (RtoC (2 ^ i - 2 ^ S n)) (T i th p))).
      { refine (IH (fun j th p => Cmult (RtoC (2 ^ j - 2 ^ S n)) (T j th p)) ltac:(lia) _ i Hi).
        intros t.
        apply (charm_ext (fun th p => Cplus (csum (S (S n)) (fun j => Cmult (RtoC ((2 * t) ^ j)) (T j th p)))
             (Cmult (RtoC (- 2 ^ S n)) (csum (S (S n)) (fun j => Cmult (RtoC (t ^ j)) (T j th p)))))).
        2:{ apply charm_plus; [apply H|apply charm_scal, H]. }
        intros th p. change (csum (S (S n)) ?f) with (Cplus (csum (S n) f) (f (S n))).
        transitivity (Cplus (csum (S n) (fun j => Cmult (RtoC ((2 * t) ^ j)) (T j th p)))
                            (Cmult (RtoC (- 2 ^ S n)) (csum (S n) (fun j => Cmult (RtoC (t ^ j)) (T j th p))))).
        - cbv beta. rewrite Rpow_mult_distr, RtoC_mult, RtoC_opp. ring.
        - rewrite <- csum_scal, <- csum_plus. apply csum_ext. intros q _.
          rewrite Rpow_mult_distr, RtoC_mult, RtoC_minus, RtoC_opp. ring. }
      assert (N : 2 ^ i - 2 ^ S n <> 0).
      { pose proof (Rlt_pow 2 i (S n) ltac:(lra) Hi). lra. }
      apply (charm_scal (RtoC (/ (2 ^ i - 2 ^ S n)))) in Q. refine (charm_ext _ _ _ Q).
      intros th p. cbv beta. rewrite RtoC_inv by exact N. field. intros E. apply RtoC_inj in E. contradiction. }
    destruct (Nat.eq_dec j (S n)) as [->|N]; [|apply L; lia].
    assert (Q : charm (fun th p => Cplus (csum (S (S n)) (fun j => Cmult (RtoC (1 ^ j)) (T j th p)))
                 (Cmult (RtoC (-1)) (csum (S n) (fun j => T j th p))))).
    { apply charm_plus; [apply H|]. apply charm_scal, charm_csum; [exact L|lia]. }
    refine (charm_ext _ _ _ Q). intros th p. change (csum (S (S n)) ?f) with (Cplus (csum (S n) f) (f (S n))).
    rewrite (csum_ext (S n) (fun j => Cmult (RtoC (1 ^ j)) (T j th p)) (fun j => T j th p)) by (intros; rewrite pow1; ring).
    cbv beta. rewrite pow1. change (RtoC (-1)) with (RtoC (- (1))). rewrite RtoC_opp. ring.
Qed.

(** ** Change of axes *)
Variables (a1 a2 a3 b1 b2 b3 c1 c2 c3 : R).
(** rows orthonormal *)
Hypothesis Haa : a1 * a1 + a2 * a2 + a3 * a3 = 1.
Hypothesis Hbb : b1 * b1 + b2 * b2 + b3 * b3 = 1.
Hypothesis Hcc : c1 * c1 + c2 * c2 + c3 * c3 = 1.
Hypothesis Hab : a1 * b1 + a2 * b2 + a3 * b3 = 0.
Hypothesis Hbc : b1 * c1 + b2 * c2 + b3 * c3 = 0.
Hypothesis Hca : c1 * a1 + c2 * a2 + c3 * a3 = 0.
(** the angles in the new axes *)
Variables (th' ph' : R -> R -> R).
Hypothesis Hx : forall t p, sin (th' t p) * cos (ph' t p) = a1 * (sin t * cos p) + a2 * (sin t * sin p) + a3 * cos t.
Hypothesis Hy : forall t p, sin (th' t p) * sin (ph' t p) = b1 * (sin t * cos p) + b2 * (sin t * sin p) + b3 * cos t.
Hypothesis Hz : forall t p, cos (th' t p) = c1 * (sin t * cos p) + c2 * (sin t * sin p) + c3 * cos t.

Definition ru (t : R) : C := ((a1 * (1 - t ^ 2) + 2 * t * c1 + b2 * (1 + t ^ 2)) / 2, (b1 * (1 + t ^ 2) - a2 * (1 - t ^ 2) - 2 * t * c2) / 2).
Definition rv (t : R) : C := ((a1 * (1 - t ^ 2) + 2 * t * c1 - b2 * (1 + t ^ 2)) / 2, (b1 * (1 + t ^ 2) + a2 * (1 - t ^ 2) + 2 * t * c2) / 2).
Definition rw (t : R) : C := ((a3 * (1 - t ^ 2) + 2 * t * c3) / 2, b3 * (1 + t ^ 2) / 2).

Lemma rform t th p : lin (sin (th' th p)) (cos (th' th p)) (ph' th p) (RtoC t) = form (ru t) (rv t) (rw t) th p.
Proof.
  unfold lin, form, ru, rv, rw, ex.
  replace (1 * ph' th p) with (ph' th p) by ring. replace (-1 * ph' th p) with (- ph' th p) by ring.
  replace (1 * p) with p by ring. replace (-1 * p) with (- p) by ring.
  rewrite !cos_neg, !sin_neg. unfold Copp, Cplus, Cmult, RtoC. cbn [fst snd].
  pose proof (Hx th p) as X. pose proof (Hy th p) as Y. pose proof (Hz th p) as Z.
  f_equal.
  - transitivity ((1 - t ^ 2) * (sin (th' th p) * cos (ph' th p)) + 2 * t * cos (th' th p)); [ring|]. rewrite X, Z. field.
  - transitivity ((1 + t ^ 2) * (sin (th' th p) * sin (ph' th p))); [ring|]. rewrite Y. field.
Qed.

Lemma rnull t : Cmult (ru t) (rv t) = Copp (Cmult (rw t) (rw t)).
Proof.
  unfold ru, rv, rw, Copp, Cmult. cbn [fst snd].
  assert (D : (a1 * (1 - t ^ 2) + 2 * t * c1) * (a1 * (1 - t ^ 2) + 2 * t * c1) + (a2 * (1 - t ^ 2) + 2 * t * c2) * (a2 * (1 - t ^ 2) + 2 * t * c2)
            + (a3 * (1 - t ^ 2) + 2 * t * c3) * (a3 * (1 - t ^ 2) + 2 * t * c3) = (1 + t ^ 2) ^ 2).
  { transitivity ((1 - t ^ 2) ^ 2 * (a1 * a1 + a2 * a2 + a3 * a3) + 4 * t * (1 - t ^ 2) * (c1 * a1 + c2 * a2 + c3 * a3) + 4 * t ^ 2 * (c1 * c1 + c2 * c2 + c3 * c3)); [ring|].
    rewrite Haa, Hcc, Hca. ring. }
  assert (D2 : (1 + t ^ 2) ^ 2 = (1 + t ^ 2) ^ 2 * (b1 * b1 + b2 * b2 + b3 * b3)) by (rewrite Hbb; ring).
  assert (D3 : b1 * (a1 * (1 - t ^ 2) + 2 * t * c1) + b2 * (a2 * (1 - t ^ 2) + 2 * t * c2) + b3 * (a3 * (1 - t ^ 2) + 2 * t * c3) = 0).
  { transitivity ((1 - t ^ 2) * (a1 * b1 + a2 * b2 + a3 * b3) + 2 * t * (b1 * c1 + b2 * c2 + b3 * c3)); [ring|]. rewrite Hab, Hbc. ring. }
  rewrite D2 in D.
  set (p1 := a1 * (1 - t ^ 2) + 2 * t * c1) in *. set (p2 := a2 * (1 - t ^ 2) + 2 * t * c2) in *. set (p3 := a3 * (1 - t ^ 2) + 2 * t * c3) in *.
  replace (b1 * (1 + t ^ 2) - a2 * (1 - t ^ 2) - 2 * t * c2) with (b1 * (1 + t ^ 2) - p2) by (unfold p2; ring).
  replace (b1 * (1 + t ^ 2) + a2 * (1 - t ^ 2) + 2 * t * c2) with (b1 * (1 + t ^ 2) + p2) by (unfold p2; ring).
  set (s := 1 + t ^ 2) in *. clearbody p1 p2 p3 s.
  f_equal.
  - apply (Rmult_eq_reg_l 4); [|lra]. field_simplify. nra.
  - apply (Rmult_eq_reg_l 2); [|lra]. apply (f_equal (Rmult s)) in D3. field_simplify. nra.
Qed.

Theorem harmonics_rotated l : (l <= k)%nat ->
  harm (fun th p => schmidt k l (th' th p) * cos (INR l * ph' th p)) /\
  harm (fun th p => schmidt k l (th' th p) * sin (INR l * ph' th p)).
Proof.
  intros Hl.
  set (T := fun j th p => Cmult (RtoC (G k (Z.of_nat k - Z.of_nat j) (sin (th' th p)) (cos (th' th p)))) (ex (Z.of_nat k - Z.of_nat j) (ph' th p))).
  assert (H : charm (T (k - l)%nat)).
  { apply (extract (2 * k + 1) T); [lia| |lia]. intros t.
    apply (charm_ext (fun th p => cpow (form (ru t) (rv t) (rw t) th p) k)); [|apply charm_form, rnull].
    intros th p. rewrite <- rform, generating by apply trig_sq. apply csum_ext. intros j _. unfold gterm, T.
    rewrite cpow_real. ring. }
  destruct H as [A B].
  assert (E : (Z.of_nat k - Z.of_nat (k - l) = Z.of_nat l)%Z) by lia.
  pose proof (gam_pos k l). pose proof (cn_pos k l). set (a := cn k l / gam k l).
  assert (Za : harm (fun _ _ => 0)).
  { exists (fun _ => 0), (fun _ => 0). intros. unfold hsum. symmetry. apply Rsum_map_0. intros; ring. }
  pose proof (harm_lin a 0 _ _ A Za) as A'. pose proof (harm_lin a 0 _ _ B Za) as B'.
  split; [refine (harm_ext _ _ _ A') | refine (harm_ext _ _ _ B')]; intros th p; unfold T; rewrite E, G_pos; unfold Gn, ex, Cmult, RtoC; cbn [fst snd];
    rewrite <- INR_IZR_INZ, schmidt_Q; unfold a; field; lra.
Qed.

End Space.
