(** Gauss-Legendre quadrature of products of Schmidt functions, and Fourier
    coefficients of trigonometric polynomials. *)
From Coq Require Import Reals List Arith Lia Lra ZArith.
From Coquelicot Require Import Coquelicot.
From Verif Require Import Spec_Legendre Spec_Field Spec_Analysis P_Legendre P_Legendre2 P_LegendreTab P_Ortho P_Synth P_Spline P_Dft M_Rotate.
Import ListNotations.
Open Scope R_scope.

(** ** Polynomials *)
Definition is_poly (d : nat) (f : R -> R) : Prop := exists c, forall x, f x = polynomial d c x.

Lemma is_poly_ext d f g : (forall x, f x = g x) -> is_poly d f -> is_poly d g.
Proof. intros H [c E]. exists c. intros x. rewrite <- H. apply E. Qed.

Lemma is_poly_up d d' f : (d <= d')%nat -> is_poly d f -> is_poly d' f.
Proof.
  intros H [c E]. exists (fun i => if (i <=? d)%nat then c i else 0). intros x. rewrite E. unfold polynomial.
  induction d' as [|d' IH].
  - replace d with 0%nat by lia. cbn. ring.
  - destruct (Nat.eq_dec d (S d')) as [->|N].
    + apply sum_eq. intros i Hi. destruct (Nat.leb_spec i (S d')); [reflexivity|lia].
    + cbn [sum_f_R0]. rewrite <- IH by lia. destruct (Nat.leb_spec (S d') d); [lia|]. ring.
Qed.

Lemma is_poly_const a : is_poly 0 (fun _ => a).
Proof. exists (fun _ => a). intros x. cbn. ring. Qed.

Lemma is_poly_add d f g : is_poly d f -> is_poly d g -> is_poly d (fun x => f x + g x).
Proof.
  intros [c E] [b F]. exists (fun i => c i + b i). intros x. rewrite E, F. unfold polynomial.
  rewrite <- sum_plus. apply sum_eq. intros; ring.
Qed.

Lemma is_poly_scal d a f : is_poly d f -> is_poly d (fun x => a * f x).
Proof.
  intros [c E]. exists (fun i => a * c i). intros x. rewrite E. unfold polynomial.
  rewrite scal_sum. apply sum_eq. intros; ring.
Qed.

Lemma polynomial_S d c x : polynomial (S d) c x = c 0%nat + x * polynomial d (fun i => c (S i)) x.
Proof.
  unfold polynomial. rewrite decomp_sum by lia. cbn [pred]. rewrite scal_sum. cbn [pow]. f_equal; [ring|].
  apply sum_eq. intros; ring.
Qed.

Lemma is_poly_x d f : is_poly d f -> is_poly (S d) (fun x => x * f x).
Proof.
  intros [c E]. exists (fun i => match i with 0%nat => 0 | S i => c i end). intros x.
  rewrite polynomial_S, E. cbv beta iota. change (fun i => c i) with c. ring.
Qed.

Lemma is_poly_mul d e f g : is_poly d f -> is_poly e g -> is_poly (d + e) (fun x => f x * g x).
Proof.
  intros [c E] G. revert f c E. induction d as [|d IH]; intros f c E.
  - apply (is_poly_ext _ (fun x => c 0%nat * g x)); [|apply is_poly_scal, G].
    intros x. rewrite E. unfold polynomial. cbn. ring.
  - specialize (IH (polynomial d (fun i => c (S i))) (fun i => c (S i)) (fun x => eq_refl)).
    apply (is_poly_ext _ (fun x => c 0%nat * g x + x * (polynomial d (fun i => c (S i)) x * g x))).
    { intros x. rewrite E, polynomial_S. ring. }
    apply is_poly_add.
    + apply (is_poly_up e); [lia|]. apply is_poly_scal, G.
    + apply is_poly_x, IH.
Qed.

Lemma is_poly_pow d f m : is_poly d f -> is_poly (m * d) (fun x => f x ^ m).
Proof.
  intros H. induction m as [|m IH]; cbn [pow Nat.mul]; [apply is_poly_const|]. apply is_poly_mul; assumption.
Qed.

Lemma is_poly_Qf m : forall j n, (n = m + j)%nat -> is_poly j (Qf n m) /\ is_poly (S j) (Qf (S n) m).
Proof.
  assert (D : forall n, exists a, forall x, Qf n n x = a).
  { induction n as [|n [a IH]].
    - exists 1. intros. apply Qf_00.
    - exists ((2 * INR n + 1) * a). intros. rewrite Qf_diag, IH. reflexivity. }
  induction j as [|j IH]; intros n ->.
  - rewrite Nat.add_0_r. destruct (D m) as [a Ha]. split.
    + apply (is_poly_ext _ (fun _ => a)); [intros; symmetry; apply Ha|apply is_poly_const].
    + apply (is_poly_ext _ (fun x => x * ((2 * INR m + 1) * a))).
      * intros x. rewrite Qf_sub, Ha. ring.
      * apply (is_poly_x 0 (fun _ => (2 * INR m + 1) * a)), is_poly_const.
  - destruct (IH (m + j)%nat eq_refl) as [A B]. replace (m + S j)%nat with (S (m + j)) by lia. split; [exact B|].
    set (n := (m + j)%nat) in *.
    assert (P : 0 < INR (S (S n)) - INR m).
    { apply Rlt_Rminus, lt_INR. unfold n. lia. }
    apply (is_poly_ext _ (fun x => / (INR (S (S n)) - INR m) *
       ((2 * INR (S n) + 1) * (x * Qf (S n) m x) + (- (INR (S n) + INR m)) * Qf n m x))).
    + intros x. pose proof (Qf_rec n m x) as E.
      apply (Rmult_eq_reg_l (INR (S (S n)) - INR m)); [|lra]. rewrite E. field. lra.
    + apply is_poly_scal, is_poly_add; apply is_poly_scal; [apply is_poly_x, B|].
      apply (is_poly_up j); [lia|exact A].
Qed.

Lemma is_poly_prod m n k : (m <= n)%nat -> (m <= k)%nat -> is_poly (n + k) (prod m n k).
Proof.
  intros Hn Hk. unfold prod.
  destruct (is_poly_Qf m (n - m) n ltac:(lia)) as [A _]. destruct (is_poly_Qf m (k - m) k ltac:(lia)) as [B _].
  replace (n + k)%nat with (m * 2 + (n - m) + (k - m))%nat by lia.
  apply is_poly_mul; [|exact B]. apply is_poly_mul; [|exact A].
  apply is_poly_pow. exists (fun i => match i with 0%nat => 1 | 1%nat => 0 | _ => -1 end). intros x. unfold polynomial. cbn. ring.
Qed.

Lemma quadrature nt x w d f : gauss_rule nt x w -> (d <= 2 * nt - 1)%nat -> is_poly d f ->
  Rsum (map (fun i => f (nth i x 0) * nth i w 0) (seq 0 nt)) = RInt f (-1) 1.
Proof.
  intros (Lx & Lw & _ & G) Hd [c E].
  transitivity (RInt (polynomial d c) (-1) 1).
  2:{ apply RInt_ext. intros t _. symmetry. apply E. }
  rewrite <- G by exact Hd. f_equal.
  assert (L : List.length (combine x w) = nt) by (rewrite combine_length; lia).
  transitivity (map (fun i => polynomial d c (fst (nth i (combine x w) (0, 0))) * snd (nth i (combine x w) (0, 0))) (seq 0 nt)).
  - apply map_ext_in. intros i Hi. apply in_seq in Hi. rewrite combine_nth by congruence. cbn [fst snd]. rewrite E. reflexivity.
  - rewrite <- L. generalize (combine x w). intros l.
    rewrite <- (map_map (fun i => nth i l (0, 0)) (fun tw => polynomial d c (fst tw) * snd tw)). f_equal.
    apply nth_ext with (d := (0, 0)) (d' := (0, 0)); [rewrite map_length, seq_length; reflexivity|].
    intros i Hi. rewrite map_length, seq_length in Hi.
    rewrite (nth_indep _ _ (nth 0 l (0, 0))) by (rewrite map_length, seq_length; exact Hi).
    rewrite (map_nth (fun i => nth i l (0, 0)) (seq 0 (List.length l)) 0%nat i), seq_nth by exact Hi. reflexivity.
Qed.

Lemma nodes_range nt x w i : gauss_rule nt x w -> (i < nt)%nat -> -1 < nth i x 0 < 1.
Proof.
  intros (Lx & _ & F & _) Hi. rewrite Forall_forall in F. apply F, nth_In. lia.
Qed.

(** discrete orthogonality of the Schmidt functions on the nodes *)
Lemma gauss_schmidt nt x w n k m : gauss_rule nt x w -> (n + k <= 2 * nt - 1)%nat -> (m <= n)%nat -> (m <= k)%nat ->
  Rsum (map (fun i => schmidt n m (acos (nth i x 0)) * schmidt k m (acos (nth i x 0)) * nth i w 0) (seq 0 nt))
  = if Nat.eqb n k then (if Nat.eqb m 0 then 2 else 4) / (2 * INR n + 1) else 0.
Proof.
  intros G Hd Hn Hk. rewrite <- (schmidt_inner n k m Hn Hk).
  unfold J. rewrite <- (quadrature nt x w (n + k) _ G Hd (is_poly_prod m n k Hn Hk)).
  rewrite <- Rsum_map_scal. apply Rsum_map_ext. intros i Hi. apply in_seq in Hi.
  pose proof (nodes_range nt x w i G ltac:(lia)). rewrite schmidt_prod by lra. ring.
Qed.

(** ** Fourier coefficients *)
Definition angle (N j : nat) : R := 2 * PI * INR j / INR N.

Lemma period_cos N (d : Z) : (0 < N)%nat -> (Z.abs d < Z.of_nat N)%Z ->
  Rsum (map (fun j => cos (IZR d * angle N j)) (seq 0 N)) = if Z.eqb d 0 then INR N else 0.
Proof.
  intros HN Hd. destruct (Z.eqb_spec d 0) as [->|E].
  - transitivity (Rsum (map (fun _ : nat => 1) (seq 0 N))).
    { apply Rsum_map_ext. intros j _. rewrite Rmult_0_l. apply cos_0. }
    clear. induction N as [|N IH]; [reflexivity|]. rewrite P_Spline.Rsum_snoc, IH, S_INR. reflexivity.
  - destruct (full_period d N HN E Hd) as [A _]. etransitivity; [|exact A].
    apply Rsum_map_ext. intros j _. f_equal. unfold angle. pose proof (lt_0_INR N HN). field. lra.
Qed.

Lemma period_sin N (d : Z) : (0 < N)%nat -> (Z.abs d < Z.of_nat N)%Z ->
  Rsum (map (fun j => sin (IZR d * angle N j)) (seq 0 N)) = 0.
Proof.
  intros HN Hd. destruct (Z.eqb_spec d 0) as [->|E].
  - apply Rsum_map_0. intros j _. rewrite Rmult_0_l. apply sin_0.
  - destruct (full_period d N HN E Hd) as [_ A]. etransitivity; [|exact A].
    apply Rsum_map_ext. intros j _. f_equal. unfold angle. pose proof (lt_0_INR N HN). field. lra.
Qed.

Section Products.
Variables (N l m : nat).
Hypothesis HN : (l + m < N)%nat.

Let HN0 : (0 < N)%nat. Proof. lia. Qed.

Lemma INR_pm s : INR l * s + INR m * s = IZR (Z.of_nat l + Z.of_nat m) * s /\ INR l * s - INR m * s = IZR (Z.of_nat l - Z.of_nat m) * s.
Proof. rewrite plus_IZR, minus_IZR, <- !INR_IZR_INZ. split; ring. Qed.

Lemma sum_combo (f g h : nat -> R) :
  (forall j, f j = 1 / 2 * (g j + h j)) ->
  Rsum (map f (seq 0 N)) = 1 / 2 * (Rsum (map g (seq 0 N)) + Rsum (map h (seq 0 N))).
Proof.
  intros H. rewrite (Rsum_map_ext f (fun j => 1 / 2 * (g j + h j))) by (intros; apply H).
  rewrite Rsum_map_scal, Rsum_map_plus. reflexivity.
Qed.

Lemma cc : Rsum (map (fun j => cos (INR l * angle N j) * cos (INR m * angle N j)) (seq 0 N))
  = if Nat.eqb l m then (if Nat.eqb m 0 then INR N else INR N / 2) else 0.
Proof.
  rewrite (sum_combo _ (fun j => cos (IZR (Z.of_nat l + Z.of_nat m) * angle N j)) (fun j => cos (IZR (Z.of_nat l - Z.of_nat m) * angle N j))).
  2:{ intros j. destruct (INR_pm (angle N j)) as [<- <-]. rewrite cos_plus, cos_minus. field. }
  rewrite !period_cos by lia.
  destruct (Nat.eqb_spec l m), (Nat.eqb_spec m 0), (Z.eqb_spec (Z.of_nat l + Z.of_nat m) 0), (Z.eqb_spec (Z.of_nat l - Z.of_nat m) 0); try lia; field.
Qed.

Lemma ss : Rsum (map (fun j => sin (INR l * angle N j) * sin (INR m * angle N j)) (seq 0 N))
  = if Nat.eqb l m then (if Nat.eqb m 0 then 0 else INR N / 2) else 0.
Proof.
  rewrite (sum_combo _ (fun j => cos (IZR (Z.of_nat l - Z.of_nat m) * angle N j)) (fun j => - 1 * cos (IZR (Z.of_nat l + Z.of_nat m) * angle N j))).
  2:{ intros j. destruct (INR_pm (angle N j)) as [<- <-]. rewrite cos_plus, cos_minus. field. }
  rewrite Rsum_map_scal, !period_cos by lia.
  destruct (Nat.eqb_spec l m), (Nat.eqb_spec m 0), (Z.eqb_spec (Z.of_nat l + Z.of_nat m) 0), (Z.eqb_spec (Z.of_nat l - Z.of_nat m) 0); try lia; field.
Qed.

Lemma sc : Rsum (map (fun j => sin (INR l * angle N j) * cos (INR m * angle N j)) (seq 0 N)) = 0.
Proof.
  rewrite (sum_combo _ (fun j => sin (IZR (Z.of_nat l + Z.of_nat m) * angle N j)) (fun j => sin (IZR (Z.of_nat l - Z.of_nat m) * angle N j))).
  2:{ intros j. destruct (INR_pm (angle N j)) as [<- <-]. rewrite sin_plus, sin_minus. field. }
  rewrite !period_sin by lia. field.
Qed.

Lemma cs : Rsum (map (fun j => cos (INR l * angle N j) * sin (INR m * angle N j)) (seq 0 N)) = 0.
Proof.
  rewrite (sum_combo _ (fun j => sin (IZR (Z.of_nat l + Z.of_nat m) * angle N j)) (fun j => - 1 * sin (IZR (Z.of_nat l - Z.of_nat m) * angle N j))).
  2:{ intros j. destruct (INR_pm (angle N j)) as [<- <-]. rewrite sin_plus, sin_minus. field. }
  rewrite Rsum_map_scal, !period_sin by lia. field.
Qed.

End Products.

(** a trigonometric polynomial of degree L *)
Definition trig (L : nat) (a b : nat -> R) (p : R) : R :=
  Rsum (map (fun l => a l * cos (INR l * p) + b l * sin (INR l * p)) (seq 0 (S L))).

Lemma fft_trig N L a b (F : nat -> R) m : (L + m < N)%nat ->
  (forall j, (j < N)%nat -> F j = trig L a b (angle N j)) ->
  fft_over_N N F m =
  ((if Nat.eqb m 0 then 1 else 1 / 2) * (if (m <=? L)%nat then a m else 0),
   - ((if Nat.eqb m 0 then 0 else 1 / 2) * (if (m <=? L)%nat then b m else 0))).
Proof.
  intros HN E. assert (P : 0 < INR N) by (apply lt_0_INR; lia).
  assert (S1 : forall (tr : R -> R), Rsum (map (fun n => F n * tr (2 * PI * INR m * INR n / INR N)) (seq 0 N)) =
     Rsum (map (fun l => a l * Rsum (map (fun j => cos (INR l * angle N j) * tr (INR m * angle N j)) (seq 0 N))
                       + b l * Rsum (map (fun j => sin (INR l * angle N j) * tr (INR m * angle N j)) (seq 0 N))) (seq 0 (S L)))).
  { intros tr.
    transitivity (Rsum (map (fun j => Rsum (map (fun l => (a l * cos (INR l * angle N j) + b l * sin (INR l * angle N j)) * tr (INR m * angle N j)) (seq 0 (S L)))) (seq 0 N))).
    - apply Rsum_map_ext. intros j Hj. apply in_seq in Hj. rewrite E by lia. unfold trig.
      replace (2 * PI * INR m * INR j / INR N) with (INR m * angle N j) by (unfold angle; field; lra).
      rewrite Rmult_comm, <- Rsum_map_scal. apply Rsum_map_ext. intros; ring.
    - rewrite Rsum_swap. apply Rsum_map_ext. intros l _. rewrite <- !Rsum_map_scal, <- Rsum_map_plus.
      apply Rsum_map_ext. intros; ring. }
  assert (S2 : forall (u : nat -> R), Rsum (map (fun l => if Nat.eqb l m then u l else 0) (seq 0 (S L))) = if (m <=? L)%nat then u m else 0).
  { intros u. destruct (Nat.leb_spec m L).
    - rewrite <- (Rsum_single u (S L) m) by lia. apply Rsum_map_ext. intros l _. destruct (Nat.eqb l m); ring.
    - apply Rsum_map_0. intros l Hl. apply in_seq in Hl. destruct (Nat.eqb_spec l m); [lia|reflexivity]. }
  unfold fft_over_N. rewrite (S1 cos), (S1 sin).
  f_equal.
  - rewrite (Rsum_map_ext _ (fun l => if Nat.eqb l m then a l * (if Nat.eqb m 0 then INR N else INR N / 2) else 0)).
    + rewrite (S2 (fun l => a l * (if Nat.eqb m 0 then INR N else INR N / 2))).
      destruct (m <=? L)%nat, (Nat.eqb m 0); field; lra.
    + intros l Hl. apply in_seq in Hl. rewrite cc, sc by lia. destruct (Nat.eqb l m); ring.
  - rewrite (Rsum_map_ext _ (fun l => if Nat.eqb l m then b l * (if Nat.eqb m 0 then 0 else INR N / 2) else 0)).
    + rewrite (S2 (fun l => b l * (if Nat.eqb m 0 then 0 else INR N / 2))).
      destruct (m <=? L)%nat, (Nat.eqb m 0); field; lra.
    + intros l Hl. apply in_seq in Hl. rewrite cs, ss by lia. destruct (Nat.eqb l m); ring.
Qed.
