(** Proofs about the spectra. *)
From Coq Require Import Reals List Arith ZArith String Bool Lia Lra.
From Verif Require Import M_Prelude M_ND Spec_Field M_Spectrum.
Import ListNotations.
Open Scope R_scope.

Lemma Rsum_cons x l : Rsum (x :: l) = x + Rsum l. Proof. reflexivity. Qed.
Lemma npsum_Rsum l : npsum l = Rsum l.
Proof.
  unfold npsum. assert (H : forall a, fold_left Rplus l a = a + Rsum l).
  { induction l as [|x l IH]; intros a; [cbn; ring|]. cbn [fold_left]. rewrite IH, Rsum_cons. ring. }
  rewrite H. ring.
Qed.
Lemma Rsum_app l l' : Rsum (l ++ l') = Rsum l + Rsum l'.
Proof. induction l as [|x l IH]; [cbn [app]; change (Rsum []) with 0; ring|]. cbn [app]. rewrite !Rsum_cons, IH. ring. Qed.
Lemma Rsum_ext {A} (f g : A -> R) l : (forall x, In x l -> f x = g x) -> Rsum (map f l) = Rsum (map g l).
Proof. intros H. f_equal. apply map_ext_in, H. Qed.

Lemma slice_nth (l : list R) a k : (a + k <= List.length l)%nat ->
  slice a (a + k) l = map (fun i => nth (a + i) l 0) (seq 0 k).
Proof.
  intros H. unfold slice. replace (a + k - a)%nat with k by lia.
  apply (nth_ext _ _ 0 0).
  - rewrite firstn_length, skipn_length, map_length, seq_length. lia.
  - intros i Hi. rewrite firstn_length, skipn_length in Hi.
    rewrite (nth_indep (map _ _) 0 ((fun j => nth (a + j) l 0) 0%nat)) by (rewrite map_length, seq_length; lia).
    rewrite (map_nth (fun j => nth (a + j) l 0) (seq 0 k) 0%nat i), seq_nth by lia.
    assert (F : forall (m : list R) k i, (i < k)%nat -> nth i (firstn k m) 0 = nth i m 0).
    { intros m. induction m as [|x m IH]; intros k0 i0 H0; [rewrite firstn_nil; reflexivity|].
      destruct k0; [lia|]. destruct i0; [reflexivity|]. cbn. apply IH. lia. }
    rewrite F by lia. rewrite Nat.add_0_l.
    revert l H Hi. induction a as [|a IH]; intros l H Hi; [reflexivity|]. destruct l; [cbn in H; lia|]. cbn. apply IH; cbn in *; lia.
Qed.

Lemma Rsum_odd (f : nat -> R) M :
  Rsum (map f (seq 0 (2 * M + 1))) =
  Rsum (map (fun m => (if Nat.eqb m 0 then f 0%nat else f (2 * m - 1)%nat) + (if Nat.eqb m 0 then 0 else f (2 * m)%nat)) (range_incl 0 M)).
Proof.
  induction M as [|M IH].
  - cbn. ring.
  - replace (2 * S M + 1)%nat with (S (S (2 * M + 1))) by lia. rewrite !seq_S, !map_app, !Rsum_app, IH.
    unfold range_incl. replace (S M + 1 - 0)%nat with (S (M + 1 - 0)) by lia. rewrite (seq_S (M + 1 - 0)), map_app, Rsum_app.
    cbn [map Rsum fold_right]. replace (0 + (M + 1 - 0))%nat with (S M) by lia. cbn [Nat.eqb].
    replace (2 * S M - 1)%nat with (0 + (2 * M + 1))%nat by lia. replace (2 * S M)%nat with (0 + S (2 * M + 1))%nat by lia. ring.
Qed.

Lemma block_sum (f : nat -> R) n : (1 <= n)%nat ->
  Rsum (map (fun i => f (n ^ 2 - 1 + i)%nat) (seq 0 (2 * n + 1))) =
  Rsum (map (fun m => f (g_position n m) + (if Nat.eqb m 0 then 0 else f (h_position n m))) (range_incl 0 n)).
Proof.
  intros H. rewrite (Rsum_odd (fun i => f (n ^ 2 - 1 + i)%nat)). apply Rsum_ext. intros m _. unfold g_position, h_position.
  rewrite Nat.pow_2_r. destruct (Nat.eqb_spec m 0) as [->|].
  - rewrite Nat.add_0_r. reflexivity.
  - assert (n * n >= 1)%nat by nia. f_equal; f_equal; lia.
Qed.

Lemma degree_bound d : (0 <= degree_of_size d)%Z /\
  forall n, (Z.of_nat n <= degree_of_size d)%Z -> (n ^ 2 - 1 + (2 * n + 1) <= d)%nat \/ n = 0%nat.
Proof.
  unfold degree_of_size. split.
  - assert (1 <= Z.sqrt (Z.of_nat d + 1))%Z by (apply Z.sqrt_le_square; lia). lia.
  - intros n H. destruct n as [|n]; [right; reflexivity|left].
    assert ((Z.of_nat (S n) + 1) <= Z.sqrt (Z.of_nat d + 1))%Z by lia.
    apply Z.sqrt_le_square in H0; [|lia|lia]. cbn [Nat.pow]. nia.
Qed.

Lemma sum_sq l n : (1 <= n)%nat -> (n ^ 2 - 1 + (2 * n + 1) <= List.length l)%nat ->
  npsum (map sq (slice (n ^ 2 - 1) (n ^ 2 - 1 + (2 * n + 1)) l)) = degree_power l n.
Proof.
  intros H L. rewrite npsum_Rsum, slice_nth by exact L. rewrite map_map.
  rewrite (block_sum (fun i => sq (nth i l 0))) by exact H. apply Rsum_ext. intros m _. unfold sq.
  destruct (Nat.eqb m 0); ring.
Qed.

Lemma slice_combine (l l' : list R) a b :
  slice a b (combine l l') = combine (slice a b l) (slice a b l').
Proof.
  unfold slice. rewrite <- combine_firstn. f_equal.
  revert l l'. induction a as [|a IH]; intros l l'; [reflexivity|]. destruct l, l'; cbn; try reflexivity.
  - rewrite combine_nil. reflexivity.
  - apply IH.
Qed.

Lemma sum_prod l l' n : (1 <= n)%nat -> List.length l = List.length l' -> (n ^ 2 - 1 + (2 * n + 1) <= List.length l)%nat ->
  npsum (slice (n ^ 2 - 1) (n ^ 2 - 1 + (2 * n + 1)) (map (fun p => fst p * snd p) (combine l l'))) = degree_product l l' n.
Proof.
  intros H E L. rewrite npsum_Rsum, slice_nth by (rewrite map_length, combine_length; lia).
  transitivity (Rsum (map (fun i => nth (n ^ 2 - 1 + i)%nat l 0 * nth (n ^ 2 - 1 + i)%nat l' 0) (seq 0 (2 * n + 1)))).
  - apply Rsum_ext. intros i Hi. apply in_seq in Hi.
    rewrite (nth_indep _ 0 ((fun p => fst p * snd p) (0, 0))) by (rewrite map_length, combine_length; lia).
    rewrite (map_nth (fun p => fst p * snd p)), combine_nth by exact E. reflexivity.
  - rewrite (block_sum (fun i => nth i l 0 * nth i l' 0)) by exact H. reflexivity.
Qed.

(** ** Sums *)
Lemma Rsum_nonneg l : (forall x, In x l -> 0 <= x) -> 0 <= Rsum l.
Proof.
  induction l as [|x l IH]; intros H; cbn; [lra|]. fold (Rsum l). pose proof (H x (or_introl eq_refl)).
  assert (0 <= Rsum l) by (apply IH; intros y Hy; apply H; right; exact Hy). lra.
Qed.
Lemma Rsum_zero l : (forall x, In x l -> 0 <= x) -> Rsum l = 0 -> forall x, In x l -> x = 0.
Proof.
  induction l as [|y l IH]; intros H E x Hx; [destruct Hx|]. cbn in E. fold (Rsum l) in E.
  pose proof (H y (or_introl eq_refl)).
  assert (P : forall z, In z l -> 0 <= z) by (intros z Hz; apply H; right; exact Hz).
  pose proof (Rsum_nonneg l P). destruct Hx as [<-|Hx]; [lra|]. apply IH; [exact P|lra|exact Hx].
Qed.
Lemma Rsum_scal k l : Rsum (map (Rmult k) l) = k * Rsum l.
Proof. induction l as [|x l IH]; [cbn; ring|]. cbn [map]. rewrite !Rsum_cons, IH. ring. Qed.

Lemma cauchy_schwarz {A} (f g : A -> R) l :
  Rsum (map (fun i => f i * g i) l) ^ 2 <= Rsum (map (fun i => f i ^ 2) l) * Rsum (map (fun i => g i ^ 2) l).
Proof.
  assert (P : forall (h : A -> R) k, 0 <= Rsum (map (fun i => h i ^ 2) k)).
  { intros h k. apply Rsum_nonneg. intros x Hx. apply in_map_iff in Hx. destruct Hx as (i & <- & _). apply pow2_ge_0. }
  induction l as [|i l IH]; [cbn; lra|].
  cbn [map]. rewrite !Rsum_cons. set (Sx := Rsum _) in *. pose proof (P f l) as PA. pose proof (P g l) as PB.
  set (A0 := Rsum (map (fun i => f i ^ 2) l)) in *. set (B0 := Rsum (map (fun i => g i ^ 2) l)) in *.
  generalize (f i) as x, (g i) as y. intros x y.
  enough (2 * Sx * x * y <= A0 * y ^ 2 + B0 * x ^ 2) by nra.
  destruct (Req_dec A0 0) as [Z|Z].
  - rewrite Z in *. assert (Sx ^ 2 = 0) by nra. assert (Sx = 0) by nra. subst. rewrite H0. nra.
  - assert (HA : 0 < A0) by lra.
    assert (0 <= (A0 * y - Sx * x) ^ 2 + (A0 * B0 - Sx ^ 2) * x ^ 2).
    { pose proof (pow2_ge_0 (A0 * y - Sx * x)). assert (0 <= (A0 * B0 - Sx ^ 2) * x ^ 2) by (apply Rmult_le_pos; [lra|apply pow2_ge_0]). lra. }
    apply (Rmult_le_reg_l A0); [exact HA|]. replace (A0 * (A0 * y ^ 2 + B0 * x ^ 2)) with ((A0 * y - Sx * x) ^ 2 + (A0 * B0 - Sx ^ 2) * x ^ 2 + A0 * (2 * Sx * x * y)) by ring. lra.
Qed.

(** degree sums as plain sums over the block *)
Definition blk_idx (n : nat) : list nat := map (fun i => (n ^ 2 - 1 + i)%nat) (seq 0 (2 * n + 1)).
Lemma degree_power_blk l n : (1 <= n)%nat -> degree_power l n = Rsum (map (fun i => nth i l 0 ^ 2) (blk_idx n)).
Proof. intros H. unfold blk_idx. rewrite map_map, (block_sum (fun i => nth i l 0 ^ 2)) by exact H. reflexivity. Qed.
Lemma degree_product_blk l l' n : (1 <= n)%nat -> degree_product l l' n = Rsum (map (fun i => nth i l 0 * nth i l' 0) (blk_idx n)).
Proof. intros H. unfold blk_idx. rewrite map_map, (block_sum (fun i => nth i l 0 * nth i l' 0)) by exact H. reflexivity. Qed.

Lemma degree_power_nonneg l n : 0 <= degree_power l n.
Proof.
  apply Rsum_nonneg. intros x Hx. apply in_map_iff in Hx. destruct Hx as (m & <- & _).
  pose proof (pow2_ge_0 (nth (g_position n m) l 0)). pose proof (pow2_ge_0 (nth (h_position n m) l 0)).
  destruct (Nat.eqb m 0); lra.
Qed.

Lemma degree_power_zero l n : degree_power l n = 0 <-> degree_vanishes l n.
Proof.
  split.
  - intros E m Hm.
    assert (X : nth (g_position n m) l 0 ^ 2 + (if Nat.eqb m 0 then 0 else nth (h_position n m) l 0 ^ 2) = 0).
    { eapply Rsum_zero; [|exact E|].
      - intros x Hx. apply in_map_iff in Hx. destruct Hx as (m' & <- & _).
        pose proof (pow2_ge_0 (nth (g_position n m') l 0)). pose proof (pow2_ge_0 (nth (h_position n m') l 0)).
        destruct (Nat.eqb m' 0); lra.
      - apply in_map_iff. exists m. split; [reflexivity|]. unfold range_incl. apply in_seq. lia. }
    pose proof (pow2_ge_0 (nth (g_position n m) l 0)). pose proof (pow2_ge_0 (nth (h_position n m) l 0)).
    destruct (Nat.eqb_spec m 0); split; intros; try lra; try lia; try nra.
  - intros V. unfold degree_power. rewrite (Rsum_ext _ (fun _ => 0)).
    + induction (range_incl 0 n) as [|x k IH]; [reflexivity|]. cbn [map]. rewrite Rsum_cons, IH. ring.
    + intros m Hm. unfold range_incl in Hm. apply in_seq in Hm. destruct (V m) as [G H]; [lia|].
      destruct (Nat.eqb_spec m 0); rewrite G; [ring|]. rewrite H by assumption. ring.
Qed.

Lemma nth_scale k l i : nth i (map (Rmult k) l) 0 = k * nth i l 0.
Proof. rewrite <- (map_nth (Rmult k)). rewrite Rmult_0_r. reflexivity. Qed.

Lemma degree_power_scale k l n : degree_power (map (Rmult k) l) n = k ^ 2 * degree_power l n.
Proof.
  unfold degree_power. rewrite <- Rsum_scal, map_map. apply Rsum_ext. intros m _. rewrite !nth_scale.
  destruct (Nat.eqb m 0); ring.
Qed.
Lemma degree_product_scale k k' l l' n : degree_product (map (Rmult k) l) (map (Rmult k') l') n = k * k' * degree_product l l' n.
Proof.
  unfold degree_product. rewrite <- Rsum_scal, map_map. apply Rsum_ext. intros m _. rewrite !nth_scale.
  destruct (Nat.eqb m 0); ring.
Qed.
Lemma degree_product_sym l l' n : degree_product l l' n = degree_product l' l n.
Proof. apply Rsum_ext. intros m _. destruct (Nat.eqb m 0); ring. Qed.
Lemma degree_product_self l n : degree_product l l n = degree_power l n.
Proof. apply Rsum_ext. intros m _. destruct (Nat.eqb m 0); ring. Qed.

Lemma degree_product_zero l l' n : degree_vanishes l n \/ degree_vanishes l' n -> degree_product l l' n = 0.
Proof.
  intros V. unfold degree_product. rewrite (Rsum_ext _ (fun _ => 0)).
  - induction (range_incl 0 n) as [|x k IH]; [reflexivity|]. cbn [map]. rewrite Rsum_cons, IH. ring.
  - intros m Hm. unfold range_incl in Hm. apply in_seq in Hm.
    destruct V as [V|V]; destruct (V m) as [G H]; try lia; destruct (Nat.eqb_spec m 0); rewrite G, ?H by assumption; ring.
Qed.
