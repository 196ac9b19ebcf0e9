(** The summation loop for small arguments: it ends, and its result tends to
    the power series as the tolerance goes to zero *)
From Coq Require Import Reals List Bool Lia Lra Psatz.
From Coquelicot Require Import Coquelicot.
From Verif Require Import M_Prelude M_Rotate M_QConst Spec_Induction Spec_InductionC P_Response P_Response2 P_Induction P_QConst1 P_QConst2 P_QConst3 P_QConst4 P_QConst6 P_QConst7.
Import ListNotations.
Open Scope R_scope.

Section loop.
Variables (n : nat) (zz : C).
Let tp := term (alp n) zz.
Let tq := term (alq n) zz.
Definition sums (m : nat) : bessel :=
  mkbessel (csum tp m) (csum tq m) (csum (fun j => Cmult (RtoC (2 * INR j + alp n)) (tp j)) m) (csum (fun j => Cmult (RtoC (2 * INR j + alq n)) (tq j)) m).

Lemma tp_step j : Cdiv (Cdiv (Cmult (tp j) zz) (RtoC (INR (S j)))) (RtoC (INR (2 * S j + 1 + 2 * n))) = tp (S j).
Proof.
  unfold tp, term. cbn [cc cpow]. assert (INR (S j) <> 0) by (apply not_0_INR; discriminate).
  replace (INR (2 * S j + 1 + 2 * n)) with (2 * INR j + 2 * alp n + 3).
  2:{ unfold alp. rewrite !plus_INR, !mult_INR, !S_INR. cbn [INR]. ring. }
  pose proof (alp_ok n j). rewrite RC_div, (RC_mult (INR (S j))) by (apply Rmult_integral_contrapositive_currified; assumption).
  field. split; apply RtoC_neq; assumption.
Qed.
Lemma tq_step j : Cdiv (Cdiv (Cmult (tq j) zz) (RtoC (INR (S j)))) (RtoC (2 * INR (S j) - 1 - 2 * INR n)) = tq (S j).
Proof.
  unfold tq, term. cbn [cc cpow]. assert (INR (S j) <> 0) by (apply not_0_INR; discriminate).
  replace (2 * INR (S j) - 1 - 2 * INR n) with (2 * INR j + 2 * alq n + 3).
  2:{ unfold alq. rewrite S_INR. ring. }
  pose proof (alq_ok n j). rewrite RC_div, (RC_mult (INR (S j))) by (apply Rmult_integral_contrapositive_currified; assumption).
  field. split; apply RtoC_neq; assumption.
Qed.

Definition done (e : R) (m : nat) : Prop := Cmod (tp m) <= e /\ Cmod (tq m) <= e.

Lemma loop_unfold fuel e j :
  small_loop fuel n e zz (S j) (tp j) (tq j) (sums (S j)) =
  (if (if Rlt_dec e (Cmod (tp j)) then true else if Rlt_dec e (Cmod (tq j)) then true else false) then
     match fuel with O => None | S fuel => small_loop fuel n e zz (S (S j)) (tp (S j)) (tq (S j)) (sums (S (S j))) end
   else Some (sums (S j))).
Proof.
  destruct fuel; [reflexivity|]. cbn [small_loop]. 
  rewrite tp_step, tq_step. replace (S j + 1)%nat with (S (S j)) by lia.
  match goal with |- (if ?c then ?a else ?b) = (if ?c then ?a' else ?b) => assert (E : a = a'); [|rewrite E; reflexivity] end.
  f_equal. unfold sums. cbn [b_p b_q b_pd b_qd].
  change (csum tp (S (S j))) with (Cplus (csum tp (S j)) (tp (S j))).
  change (csum tq (S (S j))) with (Cplus (csum tq (S j)) (tq (S j))).
  change (csum (fun j => Cmult (RtoC (2 * INR j + alp n)) (tp j)) (S (S j)))
    with (Cplus (csum (fun j => Cmult (RtoC (2 * INR j + alp n)) (tp j)) (S j)) (Cmult (RtoC (2 * INR (S j) + alp n)) (tp (S j)))).
  change (csum (fun j => Cmult (RtoC (2 * INR j + alq n)) (tq j)) (S (S j)))
    with (Cplus (csum (fun j => Cmult (RtoC (2 * INR j + alq n)) (tq j)) (S j)) (Cmult (RtoC (2 * INR (S j) + alq n)) (tq (S j)))).
  replace (INR (2 * S j + n)) with (2 * INR (S j) + alp n) by (unfold alp; rewrite plus_INR, mult_INR; cbn [INR]; ring).
  replace (2 * INR (S j) - INR n - 1) with (2 * INR (S j) + alq n) by (unfold alq; ring).
  rewrite (Cmult_comm (tp (S j))), (Cmult_comm (tq (S j))). reflexivity.
Qed.

Lemma loop_total e : forall N fuel j, (forall m, (N <= m)%nat -> done e m) -> (N - j <= fuel)%nat ->
  exists m, (j <= m)%nat /\ done e m /\ forall fuel', (fuel <= fuel')%nat ->
  small_loop fuel' n e zz (S j) (tp j) (tq j) (sums (S j)) = Some (sums (S m)).
Proof.
  intros N fuel. induction fuel as [|fuel IH]; intros j HN Hf.
  - exists j. split; [lia|]. assert (D : done e j) by (apply HN; lia). split; [exact D|]. intros fuel' _. rewrite loop_unfold.
    destruct D as [D1 D2]. destruct (Rlt_dec e (Cmod (tp j))); [lra|]. destruct (Rlt_dec e (Cmod (tq j))); [lra|]. reflexivity.
  - destruct (Rlt_dec e (Cmod (tp j))) as [L1|L1]; [|destruct (Rlt_dec e (Cmod (tq j))) as [L2|L2]].
    + destruct (IH (S j) HN ltac:(lia)) as (m & Hm & D & E). exists m. split; [lia|]. split; [exact D|].
      intros [|fuel'] Hf'; [lia|]. rewrite loop_unfold. destruct (Rlt_dec e (Cmod (tp j))); [|contradiction]. apply E. lia.
    + destruct (IH (S j) HN ltac:(lia)) as (m & Hm & D & E). exists m. split; [lia|]. split; [exact D|].
      intros [|fuel'] Hf'; [lia|]. rewrite loop_unfold. destruct (Rlt_dec e (Cmod (tp j))); [contradiction|]. destruct (Rlt_dec e (Cmod (tq j))); [|contradiction]. apply E. lia.
    + exists j. split; [lia|]. split; [split; lra|]. intros fuel' _. rewrite loop_unfold.
      destruct (Rlt_dec e (Cmod (tp j))); [contradiction|]. destruct (Rlt_dec e (Cmod (tq j))); [contradiction|]. reflexivity.
Qed.

Lemma start : sums 1 = mkbessel (RtoC 1) (RtoC 1) (RtoC (INR n)) (RtoC (- (INR n + 1))).
Proof.
  unfold sums, tp, tq, term. cbn [csum cc cpow INR]. unfold alp, alq. f_equal; rewrite ?Rmult_0_r, ?Rplus_0_l; ring.
Qed.
Lemma start_p : tp O = RtoC 1.
Proof. unfold tp, term. cbn [cc cpow]. ring. Qed.
Lemma start_q : tq O = RtoC 1.
Proof. unfold tq, term. cbn [cc cpow]. ring. Qed.

Lemma all_done e : 0 < e -> exists N, forall m, (N <= m)%nat -> done e m.
Proof.
  intros He. destruct (term_small (alp n) zz e (alp_ok n) He) as (N1 & H1). destruct (term_small (alq n) zz e (alq_ok n) He) as (N2 & H2).
  exists (Nat.max N1 N2). intros m Hm. split; [apply H1 | apply H2]; lia.
Qed.

(** The loop ends *)
Lemma loop_ends e : 0 < e -> exists fuel m, done e m /\ forall fuel', (fuel <= fuel')%nat ->
  small_loop fuel' n e zz 1 (RtoC 1) (RtoC 1) (mkbessel (RtoC 1) (RtoC 1) (RtoC (INR n)) (RtoC (- (INR n + 1)))) = Some (sums (S m)).
Proof.
  intros He. destruct (all_done e He) as (N & HN). destruct (loop_total e N N O HN ltac:(lia)) as (m & _ & D & E).
  exists N, m. split; [exact D|]. intros fuel' Hf. specialize (E fuel' Hf). rewrite start_p, start_q, start in E. exact E.
Qed.
End loop.

(** ** Limits as the tolerance goes to zero, with enough rounds *)
Definition flt (Pr : R -> nat -> Prop) : Prop :=
  exists e0, 0 < e0 /\ forall e, 0 < e < e0 -> exists f0, forall f, (f0 <= f)%nat -> Pr e f.
Lemma flt_imp (P Q : R -> nat -> Prop) : (forall e f, P e f -> Q e f) -> flt P -> flt Q.
Proof. intros H (e0 & He & HP). exists e0. split; [exact He|]. intros e Hr. destruct (HP e Hr) as (f0 & Hf). exists f0. auto. Qed.
Lemma flt_and (P Q : R -> nat -> Prop) : flt P -> flt Q -> flt (fun e f => P e f /\ Q e f).
Proof.
  intros (e1 & H1 & P1) (e2 & H2 & P2). exists (Rmin e1 e2). split; [apply Rmin_case; assumption|]. intros e He.
  assert (e < e1) by (pose proof (Rmin_l e1 e2); lra). assert (e < e2) by (pose proof (Rmin_r e1 e2); lra).
  destruct (P1 e ltac:(lra)) as (f1 & F1). destruct (P2 e ltac:(lra)) as (f2 & F2). exists (Nat.max f1 f2). intros f Hf. split; [apply F1 | apply F2]; lia.
Qed.
Lemma flt_always (P : R -> nat -> Prop) : (forall e f, P e f) -> flt P.
Proof. intros H. exists 1. split; [lra|]. intros e _. exists O. auto. Qed.

Definition Clim (G : R -> nat -> C) (l : C) : Prop := forall d, 0 < d -> flt (fun e f => Cmod (Cminus (G e f) l) < d).
Lemma Clim_const c : Clim (fun _ _ => c) c.
Proof. intros d Hd. apply flt_always. intros _ _. replace (Cminus c c) with (RtoC 0) by ring. rewrite Cmod_0. exact Hd. Qed.
Lemma Clim_plus G H a b : Clim G a -> Clim H b -> Clim (fun e f => Cplus (G e f) (H e f)) (Cplus a b).
Proof.
  intros A B d Hd. generalize (flt_and _ _ (A (d / 2) ltac:(lra)) (B (d / 2) ltac:(lra))). apply flt_imp. intros e f [L1 L2].
  replace (Cminus (Cplus (G e f) (H e f)) (Cplus a b)) with (Cplus (Cminus (G e f) a) (Cminus (H e f) b)) by ring.
  eapply Rle_lt_trans; [apply Cmod_triangle|]. lra.
Qed.
Lemma Clim_mult G H a b : Clim G a -> Clim H b -> Clim (fun e f => Cmult (G e f) (H e f)) (Cmult a b).
Proof.
  intros A B d Hd. pose proof (Cmod_ge_0 a) as Pa. pose proof (Cmod_ge_0 b) as Pb.
  set (K := Cmod a + Cmod b + 1). set (q := Rmin 1 (d / (2 * K))). assert (0 < K) by (unfold K; lra).
  assert (0 < d / (2 * K)) by (apply Rdiv_lt_0_compat; lra). assert (0 < q) by (apply Rmin_case; lra).
  assert (q <= 1) by apply Rmin_l. assert (q <= d / (2 * K)) by apply Rmin_r.
  assert (QK : q * K <= d / 2). { apply Rle_trans with (d / (2 * K) * K); [apply Rmult_le_compat_r; lra | right; field; lra]. }
  generalize (flt_and _ _ (A q ltac:(lra)) (B q ltac:(lra))). apply flt_imp. intros e f [L1 L2].
  replace (Cminus (Cmult (G e f) (H e f)) (Cmult a b))
    with (Cplus (Cmult (Cminus (G e f) a) (Cminus (H e f) b)) (Cplus (Cmult (Cminus (G e f) a) b) (Cmult a (Cminus (H e f) b)))) by ring.
  eapply Rle_lt_trans; [apply Cmod_triangle|]. eapply Rle_lt_trans; [apply Rplus_le_compat_l; apply Cmod_triangle|]. rewrite !Cmod_mult.
  set (x := Cmod (Cminus (G e f) a)) in *. set (y := Cmod (Cminus (H e f) b)) in *.
  assert (0 <= x) by apply Cmod_ge_0. assert (0 <= y) by apply Cmod_ge_0.
  assert (x * y <= q * 1) by (apply Rmult_le_compat; lra). assert (x * Cmod b <= q * Cmod b) by (apply Rmult_le_compat_r; lra).
  assert (Cmod a * y <= Cmod a * q) by (apply Rmult_le_compat_l; lra). unfold K in QK. lra.
Qed.
Lemma Clim_opp G a : Clim G a -> Clim (fun e f => Copp (G e f)) (Copp a).
Proof.
  intros A d Hd. generalize (A d Hd). apply flt_imp. intros e f L. replace (Cminus (Copp (G e f)) (Copp a)) with (Copp (Cminus (G e f) a)) by ring.
  rewrite Cmod_opp. exact L.
Qed.
Lemma Clim_minus G H a b : Clim G a -> Clim H b -> Clim (fun e f => Cminus (G e f) (H e f)) (Cminus a b).
Proof. intros A B. unfold Cminus. apply Clim_plus; [exact A | apply Clim_opp; exact B]. Qed.
Lemma Clim_inv G a : a <> RtoC 0 -> Clim G a -> Clim (fun e f => Cinv (G e f)) (Cinv a).
Proof.
  intros Na A d Hd. assert (Ha : 0 < Cmod a) by (apply Cmod_gt_0; exact Na).
  assert (0 < d * (Cmod a * Cmod a) / 2) by (apply Rmult_lt_0_compat; [apply Rmult_lt_0_compat; [exact Hd | apply Rmult_lt_0_compat; exact Ha] | lra]).
  generalize (flt_and _ _ (A (Cmod a / 2) ltac:(lra)) (A (d * (Cmod a * Cmod a) / 2) H)). apply flt_imp. intros e f [L1 L2].
  set (g := G e f) in *. assert (Hg : Cmod a / 2 < Cmod g).
  { pose proof (Cmod_triangle (Cminus a g) g) as T. replace (Cplus (Cminus a g) g) with a in T by ring.
    replace (Cmod (Cminus a g)) with (Cmod (Cminus g a)) in T by (rewrite <- Cmod_opp; f_equal; ring). lra. }
  assert (Ng : g <> RtoC 0) by (apply Cmod_gt_0; lra).
  replace (Cminus (Cinv g) (Cinv a)) with (Cmult (Copp (Cminus g a)) (Cmult (Cinv g) (Cinv a))) by (field; split; assumption).
  rewrite !Cmod_mult, Cmod_opp, !Cmod_inv by assumption.
  set (x := Cmod (Cminus g a)) in *. set (y := Cmod g) in *. set (c := Cmod a) in *. assert (0 <= x) by apply Cmod_ge_0.
  apply (Rmult_lt_reg_r (y * c)); [apply Rmult_lt_0_compat; lra|].
  replace (x * (/ y * / c) * (y * c)) with x by (field; lra). nra.
Qed.
Lemma Clim_div G H a b : b <> RtoC 0 -> Clim G a -> Clim H b -> Clim (fun e f => Cdiv (G e f) (H e f)) (Cdiv a b).
Proof. intros N A B. unfold Cdiv. apply Clim_mult; [exact A | apply Clim_inv; assumption]. Qed.
Lemma Clim_ext G H a : flt (fun e f => G e f = H e f) -> Clim G a -> Clim H a.
Proof. intros E A d Hd. generalize (flt_and _ _ E (A d Hd)). apply flt_imp. intros e f [<- L]. exact L. Qed.

(** The loop as a limit *)
Definition get (o : option bessel) : bessel := match o with Some s => s | None => mkbessel (RtoC 0) (RtoC 0) (RtoC 0) (RtoC 0) end.
Definition run (n : nat) (zz : C) (e : R) (f : nat) : option bessel :=
  small_loop f n e zz 1 (RtoC 1) (RtoC 1) (mkbessel (RtoC 1) (RtoC 1) (RtoC (INR n)) (RtoC (- (INR n + 1)))).

Lemma run_some n zz : flt (fun e f => run n zz e f = Some (get (run n zz e f))).
Proof.
  exists 1. split; [lra|]. intros e He. destruct (loop_ends n zz e ltac:(lra)) as (f0 & m & _ & E). exists f0. intros f Hf.
  unfold run. rewrite E by exact Hf. reflexivity.
Qed.
(** The number of terms grows without bound *)
Lemma run_many n zz N : zz <> RtoC 0 -> flt (fun e f => exists m, (N <= m)%nat /\ run n zz e f = Some (sums n zz m)).
Proof.
  intros Nz. assert (G : exists e0, 0 < e0 /\ forall j, (j < N)%nat -> e0 <= Cmod (term (alp n) zz j)).
  { induction N as [|N (e0 & He & IH)]; [exists 1; split; [lra | intros; lia]|].
    assert (0 < Cmod (term (alp n) zz N)).
    { apply Cmod_gt_0. apply Cmult_neq_0; [apply RtoC_neq, cc_ne; apply alp_ok | apply cpow_neq; exact Nz]. }
    exists (Rmin e0 (Cmod (term (alp n) zz N))). split; [apply Rmin_case; assumption|]. intros j Hj.
    destruct (Nat.eq_dec j N) as [->|D]; [apply Rmin_r|]. eapply Rle_trans; [apply Rmin_l | apply IH; lia]. }
  destruct G as (e0 & He & Hmin). exists e0. split; [exact He|]. intros e Hr.
  destruct (loop_ends n zz e ltac:(lra)) as (f0 & m & (D & _) & E). exists f0. intros f Hf. exists (S m). split; [|apply E; exact Hf].
  destruct (le_lt_dec N m) as [L|L]; [lia|]. specialize (Hmin m L). unfold term in *. lra.
Qed.
Lemma run_lim n zz (c : bessel -> C) l : zz <> RtoC 0 -> Ctends (fun m => c (sums n zz m)) l -> Clim (fun e f => c (get (run n zz e f))) l.
Proof.
  intros Nz H d Hd. destruct (H d Hd) as (N & HN). generalize (run_many n zz N Nz). apply flt_imp. intros e f (m & Hm & E).
  rewrite E. cbn [get]. apply HN. exact Hm.
Qed.
