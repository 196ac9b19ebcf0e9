(** Analysis of the Legendre functions: recursions from Rodrigues' formula. *)
From Coq Require Import Reals List Arith Lia Lra Factorial.
From Coquelicot Require Import Coquelicot.
From Verif Require Import Spec_Legendre.
Open Scope R_scope.

(** ** Smooth functions on R *)
Definition smooth (f : R -> R) : Prop := forall k x, ex_derive_n f k x.

Lemma smooth_ex_derive f k x : smooth f -> ex_derive (Derive_n f k) x.
Proof. intros H. exact (H (S k) x). Qed.

Lemma smooth_is_derive f k x : smooth f -> is_derive (Derive_n f k) x (Derive_n f (S k) x).
Proof. intros H. apply Derive_correct, smooth_ex_derive, H. Qed.

Lemma smooth_ext f g : (forall x, f x = g x) -> smooth f -> smooth g.
Proof. intros E H k x. eapply ex_derive_n_ext; [exact E|apply H]. Qed.

Lemma smooth_const c : smooth (fun _ => c).
Proof. intros k x. apply ex_derive_n_const. Qed.

Lemma is_derive_xmul (F : R -> R) x l :
  is_derive F x l -> is_derive (fun t => t * F t) x (F x + x * l).
Proof.
  intros H. evar_last.
  - apply (is_derive_mult (fun t => t) F x 1 l); [apply (@is_derive_id R_AbsRing)|exact H|exact Rmult_comm].
  - unfold plus, mult; cbn. ring.
Qed.

Lemma is_derive_scalR (F : R -> R) x c l :
  is_derive F x l -> is_derive (fun t => c * F t) x (c * l).
Proof. intros H. apply (is_derive_scal F x c l H). Qed.

Lemma is_derive_addR (F G : R -> R) x l k :
  is_derive F x l -> is_derive G x k -> is_derive (fun t => F t + G t) x (l + k).
Proof. intros H1 H2. apply (is_derive_plus F G x l k H1 H2). Qed.

Lemma Derive_n_xmul f k x : smooth f ->
  Derive_n (fun t => t * f t) k x = x * Derive_n f k x + INR k * Derive_n f (pred k) x.
Proof.
  intros H. revert x. induction k as [|k IH]; intros x.
  - cbn. ring.
  - cbn [Derive_n]. rewrite (Derive_ext _ _ x IH).
    rewrite S_INR. cbn [pred].
    assert (D : is_derive (fun t => t * Derive_n f k t + INR k * Derive_n f (pred k) t) x
      (Derive_n f k x + x * Derive_n f (S k) x + INR k * Derive_n f (S (pred k)) x)).
    { apply is_derive_addR; [apply is_derive_xmul|apply is_derive_scalR]; apply smooth_is_derive, H. }
    etransitivity; [exact (is_derive_unique _ _ _ D)|].
    destruct k as [|k]; [cbn; ring|]. cbn [pred Derive_n]. ring.
Qed.

Lemma smooth_xmul f : smooth f -> smooth (fun t => t * f t).
Proof.
  intros H k x. destruct k as [|k]; [exact I|]. cbn [ex_derive_n].
  apply (ex_derive_ext (fun t => t * Derive_n f k t + INR k * Derive_n f (pred k) t)).
  { intros t. symmetry. apply Derive_n_xmul, H. }
  eexists. apply is_derive_addR; [apply is_derive_xmul|apply is_derive_scalR]; apply smooth_is_derive, H.
Qed.

Lemma Derive_n_sub f g k x : smooth f -> smooth g ->
  Derive_n (fun t => f t - g t) k x = Derive_n f k x - Derive_n g k x.
Proof.
  intros Hf Hg. apply Derive_n_minus; exists (mkposreal 1 Rlt_0_1); intros; auto.
Qed.

Lemma smooth_sub f g : smooth f -> smooth g -> smooth (fun t => f t - g t).
Proof.
  intros Hf Hg k x. apply ex_derive_n_minus; exists (mkposreal 1 Rlt_0_1); intros; auto.
Qed.

Lemma Derive_n_scal f k c x : Derive_n (fun t => c * f t) k x = c * Derive_n f k x.
Proof. apply Derive_n_scal_l. Qed.

Lemma smooth_scal f c : smooth f -> smooth (fun t => c * f t).
Proof. intros H k x. apply ex_derive_n_scal_l, H. Qed.

Lemma smooth_Derive f : smooth f -> smooth (Derive f).
Proof.
  intros H k x. destruct k as [|k]; [exact I|]. cbn [ex_derive_n].
  apply (ex_derive_ext (Derive_n f (S k))).
  { intros t. replace (S k) with (k + 1)%nat by lia. rewrite <- Derive_n_comp. reflexivity. }
  apply smooth_ex_derive, H.
Qed.

Lemma Derive_n_Derive f k x : Derive_n (Derive f) k x = Derive_n f (S k) x.
Proof. replace (S k) with (k + 1)%nat by lia. rewrite <- (Derive_n_comp f k 1). reflexivity. Qed.

(** ** The powers w_n = (x^2-1)^n *)
Definition w (n : nat) (t : R) : R := (t ^ 2 - 1) ^ n.
Definition dw (n k : nat) (x : R) : R := Derive_n (w n) k x.

Lemma w_S n t : t * (t * w n t) - w n t = w (S n) t.
Proof. unfold w. cbn [pow]. ring. Qed.

Lemma smooth_w n : smooth (w n).
Proof.
  induction n as [|n IH].
  - apply (smooth_ext (fun _ => 1)); [reflexivity|apply smooth_const].
  - apply (smooth_ext (fun t => t * (t * w n t) - w n t)); [apply w_S|].
    apply smooth_sub; [|exact IH]. apply smooth_xmul, smooth_xmul, IH.
Qed.

Lemma is_derive_w n x : is_derive (w (S n)) x (2 * INR (S n) * (x * w n x)).
Proof.
  unfold w. auto_derive; [exact I|].
  change (match n with 0%nat => 1 | S _ => INR n + 1 end) with (INR (S n)).
  replace (x * (x * 1) + - (1)) with (x ^ 2 - 1) by ring. ring.
Qed.

Lemma Derive_w n x : Derive (w (S n)) x = 2 * INR (S n) * (x * w n x).
Proof. apply is_derive_unique, is_derive_w. Qed.

(** (A) *)
Lemma dw_A n k x :
  dw (S n) (S k) x = 2 * INR (S n) * (x * dw n k x + INR k * dw n (pred k) x).
Proof.
  unfold dw. rewrite <- Derive_n_Derive.
  rewrite (Derive_n_ext _ (fun t => 2 * INR (S n) * (t * w n t))) by apply Derive_w.
  rewrite Derive_n_scal. rewrite Derive_n_xmul by apply smooth_w. ring.
Qed.

(** (D): x w_N' - 2N w_N = 2N w_{N-1} *)
Lemma dw_D n k x :
  x * dw (S n) (S k) x + INR k * dw (S n) k x - 2 * INR (S n) * dw (S n) k x
  = 2 * INR (S n) * dw n k x.
Proof.
  assert (E : forall t, t * Derive (w (S n)) t - 2 * INR (S n) * w (S n) t = 2 * INR (S n) * w n t).
  { intros t. rewrite Derive_w, <- w_S. ring. }
  assert (D : Derive_n (fun t => t * Derive (w (S n)) t - 2 * INR (S n) * w (S n) t) k x
              = Derive_n (fun t => 2 * INR (S n) * w n t) k x) by (apply Derive_n_ext; exact E).
  rewrite Derive_n_sub, Derive_n_xmul, !Derive_n_scal in D;
    auto using smooth_xmul, smooth_scal, smooth_Derive, smooth_w.
  rewrite !Derive_n_Derive in D. unfold dw. rewrite <- D.
  destruct k as [|k]; [cbn [INR]; ring|]. cbn [pred]. ring.
Qed.

(** degree of w_n is 2n *)
Lemma dw_0 n k x : (2 * n < k)%nat -> dw n k x = 0.
Proof.
  revert k x; induction n as [|n IH]; intros k x H.
  - unfold dw. rewrite (Derive_n_ext _ (fun _ => 1)) by reflexivity.
    destruct k; [lia|]. apply Derive_n_const.
  - destruct k as [|k]; [lia|]. rewrite dw_A, (IH k), (IH (pred k)) by lia. ring.
Qed.

(** (C'): (x^2-1) relation, from A and D: Legendre's equation. *)
Lemma dw_B n k x :
  (x ^ 2 - 1) * dw n (S (S k)) x + 2 * INR (S k) * x * dw n (S k) x - 2 * INR n * x * dw n (S k) x
  = INR (S k) * (2 * INR n - INR k) * dw n k x.
Proof.
  destruct n as [|n].
  - rewrite (dw_0 0 (S (S k))), (dw_0 0 (S k)) by lia. destruct k as [|k].
    + cbn [INR]. ring.
    + rewrite (dw_0 0 (S k)) by lia. ring.
  - pose proof (dw_D n (S k) x) as D1. pose proof (dw_D n k x) as D0.
    pose proof (dw_A n (S k) x) as A1. cbn [pred] in A1.
    rewrite !(S_INR k) in *.
    set (N := INR (S n)) in *. set (K := INR k) in *.
    apply (f_equal (fun v => x * v)) in D1. apply (f_equal (fun v => (K + 1) * v)) in D0.
    cbv beta in D0, D1. lra.
Qed.
