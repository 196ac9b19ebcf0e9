(** The recursion over the shells, for ratios that come from two solutions *)
From Coq Require Import Reals List Lia Lra Psatz.
From Coquelicot Require Import Coquelicot.
From Verif Require Import M_Rotate M_QConst Spec_Induction Spec_InductionC P_Response P_Response2 P_Induction P_QConst1 P_QConst2 P_QConst3.
Import ListNotations.
Open Scope R_scope.

(** [v] are the ratios the code forms, for two solutions in a shell with
    radii [x0] and [x1] in metres *)
Definition good (w mu0 : R) (n : nat) (s : R) (k : C) (x0 x1 : R) (v : ratios) : Prop :=
  exists P dP ddP K dK ddK : R -> C,
    (forall x, 0 < x -> solves w mu0 n s P dP ddP x) /\ (forall x, 0 < x -> solves w mu0 n s K dK ddK x) /\
    (forall x, 0 < x -> wron P dP K dK x <> RtoC 0) /\ P x0 <> RtoC 0 /\ K x1 <> RtoC 0 /\
    v1 v = Cdiv (P x1) (P x0) /\ Cmult k (v2 v) = Cdiv (dP x0) (P x0) /\ Cmult k (v3 v) = Cdiv (dP x1) (P x0) /\
    v4 v = Cdiv (K x0) (K x1) /\ Cmult k (v5 v) = Cdiv (dK x0) (K x1) /\ Cmult k (v6 v) = Cdiv (dK x1) (K x1).

Definition first_den (v : ratios) : C := Cminus (RtoC 1) (Cmult (v4 v) (v1 v)).
Definition next_den (k : C) (v : ratios) (b : C) : C :=
  Cplus (Cmult (Cminus (RtoC 1) (Cmult (v4 v) (v1 v))) b) (Cmult k (Cminus (Cmult (v4 v) (v3 v)) (v6 v))).

(** What [b] means for the field below a surface *)
Definition ratio_of (w mu0 : R) (n : nat) (L : list (R * R)) (b : C) : Prop :=
  0 <= fst b /\ (exists v dv, field_const w mu0 n L v dv /\ v <> RtoC 0) /\
  (forall v dv, field_const w mu0 n L v dv -> dv = Cmult b v).

Lemma dot_mult b v : dotC (Cmult b v) v = fst b * dotC v v.
Proof. unfold dotC, Cmult. cbn [fst snd]. ring. Qed.
Lemma fst_b b v : v <> RtoC 0 -> 0 <= dotC (Cmult b v) v -> 0 <= fst b.
Proof.
  intros N H. rewrite dot_mult in H. assert (0 < dotC v v).
  { destruct (dot_nonneg v) as [G|G]; [exact G|]. symmetry in G. apply dot_zero in G. contradiction. }
  apply Rnot_lt_le. intros L. assert (fst b * dotC v v < 0) by nra. lra.
Qed.

Section step.
Variables (w mu0 : R) (n : nat) (s : R) (k : C) (x0 x1 : R) (v : ratios).
Hypothesis Hg : good w mu0 n s k x0 x1 v.
Hypothesis H1 : 0 < x1.
Hypothesis H10 : x1 < x0.

Lemma core_step s1 : first_den v <> RtoC 0 /\ ratio_of w mu0 n [(s, x0); (s1, x1)] (b_first k v).
Proof.
  destruct Hg as (P & dP & ddP & K & dK & ddK & HP & HK & HW & NP & NK & E1 & E2 & E3 & E4 & E5 & E6).
  destruct (shell_exists w mu0 n s P dP ddP K dK ddK HP HK HW x1 (RtoC 0) (RtoC 1) H1) as (u & du & ddu & Su & U0 & U1).
  assert (RR := shell_ratio w mu0 n s P dP ddP K dK ddK HP HK HW x1 x0 u du ddu H1 H10 ltac:(intros; apply Su; lra)).
  rewrite U0, U1 in RR. specialize (RR ltac:(rewrite dot_zero_r; lra) ltac:(right; apply RtoC_neq; lra)).
  destruct RR as (N & Ed & Nd & Er).
  assert (D1 : den P dP K dK x0 x1 (RtoC 0) (RtoC 1) = Cmult (Cmult (P x0) (K x1)) (first_den v)).
  { unfold den, first_den. rewrite E1, E4. field. split; assumption. }
  assert (NF : first_den v <> RtoC 0). { intros X. apply Nd. rewrite D1, X. ring. }
  assert (Eb : b_first k v = Cdiv (num P dP K dK x0 x1 (RtoC 0) (RtoC 1)) (den P dP K dK x0 x1 (RtoC 0) (RtoC 1))).
  { rewrite D1. unfold b_first. fold (first_den v).
    transitivity (Cdiv (Cminus (Cmult k (v2 v)) (Cmult (Cmult k (v5 v)) (v1 v))) (first_den v)); [field; exact NF|].
    rewrite E1, E2, E5. unfold num. field. repeat split; assumption. }
  split; [exact NF|]. split; [|split].
  - rewrite Eb. apply (fst_b _ (u x0)); [exact N|]. rewrite <- Er. exact Ed.
  - exists (u x0), (du x0). split; [|exact N]. apply (const_core w mu0 n s x0 s1 x1 u du ddu); [|exact U0].
    intros x Hx. apply Su. lra.
  - intros f df Hf. inversion Hf as [? ? ? ? u2 du2 ddu2 Hs Z0 | ? ? ? ? ? ? ? ? ? ? Hb]; subst.
    + destruct (shell_top w mu0 n s P dP ddP K dK ddK HP HK x1 x0 u2 du2 ddu2 H1 H10 Hs) as [T1 T2].
      rewrite Z0 in T1, T2. assert (NW := HW x0 ltac:(lra)). set (W := wron P dP K dK x0) in *.
      assert (G : Cmult (du2 x0) W = Cmult (Cmult (b_first k v) (u2 x0)) W).
      { transitivity (Cmult (b_first k v) (Cmult (u2 x0) W)); [|ring]. rewrite T1, T2, Eb.
        replace (num P dP K dK x0 x1 (RtoC 0) (du2 x1)) with (Cmult (du2 x1) (num P dP K dK x0 x1 (RtoC 0) (RtoC 1))) by (unfold num; ring).
        replace (den P dP K dK x0 x1 (RtoC 0) (du2 x1)) with (Cmult (du2 x1) (den P dP K dK x0 x1 (RtoC 0) (RtoC 1))) by (unfold den; ring).
        field. exact Nd. }
      transitivity (Cdiv (Cmult (du2 x0) W) W); [field; exact NW|]. rewrite G. field. exact NW.
    + exfalso. inversion Hb.
Qed.

Lemma layer_step_const s1 l b : l <> [] -> ratio_of w mu0 n ((s1, x1) :: l) b ->
  next_den k v b <> RtoC 0 /\ ratio_of w mu0 n ((s, x0) :: (s1, x1) :: l) (b_next k v b).
Proof.
  intros Hl (Hb & (f1 & df1 & F1 & N1) & Hu).
  destruct Hg as (P & dP & ddP & K & dK & ddK & HP & HK & HW & NP & NK & E1 & E2 & E3 & E4 & E5 & E6).
  assert (Ef := Hu _ _ F1).
  destruct (shell_exists w mu0 n s P dP ddP K dK ddK HP HK HW x1 f1 df1 H1) as (u & du & ddu & Su & U0 & U1).
  assert (RR := shell_ratio w mu0 n s P dP ddP K dK ddK HP HK HW x1 x0 u du ddu H1 H10 ltac:(intros; apply Su; lra)).
  rewrite U0, U1 in RR.
  specialize (RR ltac:(rewrite Ef, dot_mult; apply Rmult_le_pos; [exact Hb | apply dot_nonneg]) ltac:(left; exact N1)).
  destruct RR as (N & Ed & Nd & Er).
  assert (Lin : forall f, den P dP K dK x0 x1 f (Cmult b f) = Cmult f (den P dP K dK x0 x1 (RtoC 1) b)) by (intros; unfold den; ring).
  assert (Lin2 : forall f, num P dP K dK x0 x1 f (Cmult b f) = Cmult f (num P dP K dK x0 x1 (RtoC 1) b)) by (intros; unfold num; ring).
  rewrite Ef, Lin, Lin2 in *.
  assert (Nd1 : den P dP K dK x0 x1 (RtoC 1) b <> RtoC 0) by (intros X; apply Nd; rewrite X; ring).
  assert (D1 : den P dP K dK x0 x1 (RtoC 1) b = Cmult (Cmult (P x0) (K x1)) (next_den k v b)).
  { unfold den, next_den. transitivity (Cmult (Cmult (P x0) (K x1)) (Cplus (Cmult (Cminus (RtoC 1) (Cmult (v4 v) (v1 v))) b)
      (Cminus (Cmult (v4 v) (Cmult k (v3 v))) (Cmult k (v6 v))))); [|ring].
    rewrite E1, E3, E4, E6. field. split; assumption. }
  assert (NF : next_den k v b <> RtoC 0). { intros X. apply Nd1. rewrite D1, X. ring. }
  assert (Eb : b_next k v b = Cdiv (num P dP K dK x0 x1 (RtoC 1) b) (den P dP K dK x0 x1 (RtoC 1) b)).
  { rewrite D1. unfold b_next. fold (next_den k v b).
    transitivity (Cdiv (Cplus (Cmult (Cminus (Cmult k (v2 v)) (Cmult (Cmult k (v5 v)) (v1 v))) b)
       (Cminus (Cmult (Cmult k (v5 v)) (Cmult k (v3 v))) (Cmult (Cmult k (v2 v)) (Cmult k (v6 v))))) (next_den k v b)); [field; exact NF|].
    rewrite E1, E2, E3, E5, E6. unfold num. field. repeat split; assumption. }
  split; [exact NF|]. split; [|split].
  - rewrite Eb. apply (fst_b _ (u x0)); [exact N|]. rewrite Er in Ed.
    replace (Cmult (Cdiv (num P dP K dK x0 x1 (RtoC 1) b) (den P dP K dK x0 x1 (RtoC 1) b)) (u x0))
      with (Cmult (Cdiv (Cmult f1 (num P dP K dK x0 x1 (RtoC 1) b)) (Cmult f1 (den P dP K dK x0 x1 (RtoC 1) b))) (u x0)); [exact Ed|].
    field. split; assumption.
  - exists (u x0), (du x0). split; [|exact N]. apply (const_layer w mu0 n s x0 s1 x1 l u du ddu f1 (Cmult b f1) F1).
    + intros x Hx. apply Su. lra.
    + exact U0.
    + exact U1.
  - intros f df Hf. inversion Hf as [? ? ? ? u2 du2 ddu2 Hs Z0 | ? ? ? ? ? u2 du2 ddu2 f2 df2 Hbel Hs Z0 Z1]; subst; [congruence|].
    assert (Ef2 := Hu _ _ Hbel). 
    destruct (shell_top w mu0 n s P dP ddP K dK ddK HP HK x1 x0 u2 du2 ddu2 H1 H10 Hs) as [T1 T2].
    rewrite Ef2 in T1, T2. rewrite Lin in T1. rewrite Lin2 in T2. assert (NW := HW x0 ltac:(lra)). set (W := wron P dP K dK x0) in *.
    assert (G : Cmult (du2 x0) W = Cmult (Cmult (b_next k v b) (u2 x0)) W).
    { transitivity (Cmult (b_next k v b) (Cmult (u2 x0) W)); [|ring]. rewrite T1, T2, Eb. field. exact Nd1. }
    transitivity (Cdiv (Cmult (du2 x0) W) W); [field; exact NW|]. rewrite G. field. exact NW.
Qed.
End step.

(** ** From the ratio at the surface to the response *)
Lemma one_plus_ab a b : 0 < a -> 0 <= fst b -> Cplus (RtoC 1) (Cmult (RtoC a) b) <> RtoC 0.
Proof.
  intros Ha Hb E. apply (f_equal fst) in E. unfold Cplus, Cmult, RtoC in E. cbn [fst snd] in E.
  assert (0 <= a * fst b) by (apply Rmult_le_pos; lra). lra.
Qed.

Section response.
Variables (n : nat) (r0 : R) (b : C).
Hypothesis Hn : (1 <= n)%nat.
Hypothesis Hr : 0 < r0.
Hypothesis Hb : 0 <= fst b.
Let a := 1000 * r0.
Let Qr := Q_of_C n (1000 * r0) (C_const r0 b).

Let D : C := Cplus (RtoC 1) (Cmult (RtoC a) b).
Lemma D_ne : D <> RtoC 0.
Proof. apply one_plus_ab; [unfold a; lra | exact Hb]. Qed.
Lemma Dn_ne : Cplus D (RtoC (INR n)) <> RtoC 0.
Proof.
  intros E. apply (f_equal fst) in E. unfold D, Cplus, Cmult, RtoC in E. cbn [fst snd] in E.
  assert (0 <= a * fst b) by (apply Rmult_le_pos; [unfold a; lra | exact Hb]). pose proof (pos_INR n). lra.
Qed.
Lemma INR_n1 : INR (n + 1) = INR n + 1.
Proof. rewrite plus_INR. reflexivity. Qed.
Lemma n1_ne : Cplus (RtoC (INR n)) (RtoC 1) <> RtoC 0.
Proof. rewrite <- RC_plus. apply RtoC_neq. pose proof (pos_INR n). lra. Qed.

(** The response in terms of b *)
Lemma Qr_eq : Qr = Cdiv (Cmult (RtoC (INR n)) (Cminus D (Cplus (RtoC (INR n)) (RtoC 1))))
                        (Cmult (Cplus (RtoC (INR n)) (RtoC 1)) (Cplus D (RtoC (INR n)))).
Proof.
  unfold Qr, Q_of_C, C_const. fold a. fold D. rewrite INR_n1.
  replace (a / 1000) with r0 by (unfold a; field).
  assert (Nr : RtoC r0 <> RtoC 0) by (apply RtoC_neq; lra).
  pose proof D_ne. pose proof Dn_ne. pose proof n1_ne. pose proof (pos_INR n).
  rewrite RC_div by lra. rewrite !RC_plus. field. repeat split; try assumption;
    solve [intros X; apply H0; rewrite <- X; ring | intros X; apply H1; rewrite <- X; ring].
Qed.

Lemma matches_Q e i v dv : dv = Cmult b v -> matches a n e i v dv -> i = Cmult Qr e.
Proof.
  intros -> (M1 & M2). rewrite Qr_eq.
  pose proof D_ne as ND. pose proof Dn_ne as NDn. pose proof n1_ne as Nn. pose proof (pos_INR n) as Pn.
  assert (Na : RtoC a <> RtoC 0) by (apply RtoC_neq; unfold a; lra).
  assert (Ha : a <> 0) by (unfold a; lra).
  rewrite RC_inv in M2 by exact Ha. rewrite RC_div in M1 by exact Ha. rewrite RC_mult, RC_plus in M1.
  set (N := RtoC (INR n)) in *.
  assert (V : Cmult D v = Cmult (RtoC a) (Cplus e i)).
  { rewrite M2. unfold D. field. exact Na. }
  assert (K1 : Cmult (Cminus (Cmult N e) (Cmult (Cplus N (RtoC 1)) i)) D = Cmult (Cmult N (Cplus N (RtoC 1))) (Cplus e i)).
  { rewrite M1. transitivity (Cmult (Cdiv (Cmult N (Cplus N (RtoC 1))) (RtoC a)) (Cmult D v)); [field; exact Na|]. rewrite V. field. exact Na. }
  assert (K2 : Cmult (Cmult (Cplus N (RtoC 1)) (Cplus D N)) i = Cmult (Cmult N (Cminus D (Cplus N (RtoC 1)))) e).
  { transitivity (Cplus (Cmult (Cmult N (Cminus D (Cplus N (RtoC 1)))) e)
      (Cminus (Cmult (Cmult N (Cplus N (RtoC 1))) (Cplus e i)) (Cmult (Cminus (Cmult N e) (Cmult (Cplus N (RtoC 1)) i)) D))); [ring|].
    rewrite K1. ring. }
  transitivity (Cdiv (Cmult (Cmult (Cplus N (RtoC 1)) (Cplus D N)) i) (Cmult (Cplus N (RtoC 1)) (Cplus D N))).
  - field. split; assumption.
  - rewrite K2. field. split; assumption.
Qed.

Lemma matches_exists v dv e : v <> RtoC 0 -> dv = Cmult b v -> exists c, matches a n e (Cmult Qr e) (Cmult c v) (Cmult c dv).
Proof.
  intros Nv ->. rewrite Qr_eq.
  pose proof D_ne as ND. pose proof Dn_ne as NDn. pose proof n1_ne as Nn. pose proof (pos_INR n) as Pn.
  assert (Na : RtoC a <> RtoC 0) by (apply RtoC_neq; unfold a; lra).
  assert (Ha : a <> 0) by (unfold a; lra).
  set (N := RtoC (INR n)) in *.
  exists (Cdiv (Cmult (RtoC a) (Cmult e (Cplus (RtoC 1) (Cdiv (Cmult N (Cminus D (Cplus N (RtoC 1)))) (Cmult (Cplus N (RtoC 1)) (Cplus D N)))))) (Cmult D v)).
  unfold matches. rewrite RC_inv by exact Ha. rewrite RC_div by exact Ha. rewrite RC_mult, RC_plus. fold N. split.
  - field. repeat split; assumption.
  - transitivity (Cmult (Cdiv D (RtoC a)) (Cmult (Cdiv (Cmult (RtoC a) (Cmult e (Cplus (RtoC 1) (Cdiv (Cmult N (Cminus D (Cplus N (RtoC 1)))) (Cmult (Cplus N (RtoC 1)) (Cplus D N)))))) (Cmult D v)) v)).
    + field. repeat split; assumption.
    + set (c := Cdiv (Cmult (RtoC a) _) (Cmult D v)). unfold D. field. exact Na.
Qed.
End response.

Lemma field_const_scale w mu0 n L v dv c : field_const w mu0 n L v dv -> field_const w mu0 n L (Cmult c v) (Cmult c dv).
Proof.
  assert (G : forall sr u du ddu x, induction_at w mu0 n sr u du ddu x ->
     induction_at w mu0 n sr (fun y => Cmult c (u y)) (fun y => Cmult c (du y)) (fun y => Cmult c (ddu y)) x).
  { intros sr u du ddu x (D1 & D2 & E). split; [apply Cder_scal; exact D1|]. split; [apply Cder_scal; exact D2|].
    transitivity (Cmult c (Cplus (Cmult (RtoC (x ^ 2)) (ddu x)) (Cmult (RtoC (2 * x)) (du x)))); [ring|]. rewrite E. ring. }
  intros H. induction H as [s r s1 rc u du ddu Hs Z0 | s r s1 r1 l u du ddu v dv Hb IH Hs Z0 Z1].
  - apply (const_core w mu0 n s r s1 rc (fun y => Cmult c (u y)) (fun y => Cmult c (du y)) (fun y => Cmult c (ddu y))).
    + intros x Hx. apply G, Hs, Hx.
    + cbv beta. rewrite Z0. ring.
  - apply (const_layer w mu0 n s r s1 r1 l (fun y => Cmult c (u y)) (fun y => Cmult c (du y)) (fun y => Cmult c (ddu y)) (Cmult c v) (Cmult c dv)).
    + exact IH.
    + intros x Hx. apply G, Hs, Hx.
    + cbv beta. rewrite Z0. reflexivity.
    + cbv beta. rewrite Z1. reflexivity.
Qed.

(** The response is the response of the field *)
Lemma response_of_ratio w mu0 n L r0 b : (1 <= n)%nat -> 0 < r0 -> ratio_of w mu0 n L b ->
  let Q := Q_of_C n (1000 * r0) (C_const r0 b) in
  (forall e, exists v dv, field_const w mu0 n L v dv /\ matches (1000 * r0) n e (Cmult Q e) v dv) /\
  (forall e i v dv, field_const w mu0 n L v dv -> matches (1000 * r0) n e i v dv -> i = Cmult Q e).
Proof.
  intros Hn Hr (Hb & (v & dv & Hf & Nv) & Hu). cbv zeta. split.
  - intros e. destruct (matches_exists n r0 b Hr Hb v dv e Nv (Hu _ _ Hf)) as (c & M).
    exists (Cmult c v), (Cmult c dv). split; [apply field_const_scale; exact Hf | exact M].
  - intros e i v2 dv2 Hf2 M. apply (matches_Q n r0 b Hr Hb e i v2 dv2 (Hu _ _ Hf2) M).
Qed.
