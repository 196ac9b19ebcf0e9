(** The order of the coefficients. *)
From Coq Require Import Reals List Arith ZArith Lia Lra Bool.
From Verif Require Import M_Prelude Spec_Field M_Synth P_Synth.
Import ListNotations.
Local Close Scope R_scope.
Local Open Scope nat_scope.

(** position of g(n,m) / h(n,m) *)
Definition gpos (mmax nmin n m : nat) : nat := count mmax nmin n + (if m =? 0 then 0 else 2 * m - 1).
Definition hpos (mmax nmin n m : nat) : nat := count mmax nmin n + 2 * m.

Lemma firstn_snoc {A} (d : A) l k : k < length l -> firstn (S k) l = firstn k l ++ [nth k l d].
Proof.
  revert k. induction l as [|x l IH]; intros k H; cbn in H; [lia|].
  destruct k as [|k]; [reflexivity|]. cbn [firstn nth app]. f_equal. apply IH. lia.
Qed.

Lemma firstn_add {A} (l : list A) a b : firstn (a + b) l = firstn a l ++ firstn b (skipn a l).
Proof.
  revert a. induction l as [|x l IH]; intros a; [now rewrite !firstn_nil, skipn_nil, firstn_nil|].
  destruct a as [|a]; [reflexivity|]. cbn. now rewrite IH.
Qed.

Lemma nth_skipn {A} (d : A) l a k : nth k (skipn a l) d = nth (a + k) l d.
Proof.
  revert a. induction l as [|x l IH]; intros a; [rewrite skipn_nil; destruct k, a; reflexivity|].
  destruct a as [|a]; [reflexivity|]. cbn. apply IH.
Qed.

Section Rep.
Variables (mmax nmin : nat) (c : list R).
Definition gof (n m : nat) : R := nth (gpos mmax nmin n m) c 0%R.
Definition hof (n m : nat) : R := nth (hpos mmax nmin n m) c 0%R.

Lemma inner_rep n M : (count mmax nmin n + (2 * M + 1) <= length c) ->
  flat_map (fun m => [gof n m; hof n m]) (range_incl 1 M)
  = firstn (2 * M) (skipn 1 (skipn (count mmax nmin n) c)).
Proof.
  intros H. induction M as [|M IH]; [reflexivity|].
  rewrite range_incl_1_S, flat_map_app, IH by lia. cbn [flat_map app].
  replace (2 * S M) with (S (S (2 * M))) by lia.
  assert (L : length (skipn 1 (skipn (count mmax nmin n) c)) = length c - count mmax nmin n - 1)
    by (rewrite !skipn_length; lia).
  rewrite (firstn_snoc 0%R _ (S (2 * M))) by lia. rewrite (firstn_snoc 0%R _ (2 * M)) by lia.
  rewrite <- app_assoc. cbn [app]. f_equal. unfold gof, hof, gpos, hpos. rewrite !nth_skipn.
  destruct (Nat.eqb_spec (S M) 0); [lia|]. f_equal; [f_equal; lia|]. f_equal. f_equal; lia.
Qed.

Lemma blk_rep n : (count mmax nmin n + (2 * Nat.min n mmax + 1) <= length c) ->
  blk mmax gof hof n = firstn (2 * Nat.min n mmax + 1) (skipn (count mmax nmin n) c).
Proof.
  intros H. unfold blk. rewrite inner_rep by lia.
  destruct (skipn (count mmax nmin n) c) as [|y l] eqn:E.
  - assert (L : length (skipn (count mmax nmin n) c) = 0) by (rewrite E; reflexivity).
    rewrite skipn_length in L. lia.
  - replace (2 * Nat.min n mmax + 1) with (S (2 * Nat.min n mmax)) by lia. cbn [firstn skipn].
    f_equal. unfold gof, gpos. cbn [Nat.eqb]. rewrite <- (nth_skipn 0%R c (count mmax nmin n) 0).
    rewrite E. reflexivity.
Qed.

Lemma blocks_rep K : (count mmax nmin (nmin + K) <= length c) ->
  flat_map (blk mmax gof hof) (seq nmin K) = firstn (count mmax nmin (nmin + K)) c.
Proof.
  induction K as [|K IH]; intros H.
  - unfold count. rewrite Nat.add_0_r, Nat.sub_diag. reflexivity.
  - rewrite seq_S, flat_map_app. cbn [flat_map]. rewrite app_nil_r.
    rewrite (Nat.add_succ_r nmin K), count_S in H by lia.
    rewrite IH by lia. rewrite blk_rep by lia.
    rewrite (Nat.add_succ_r nmin K), count_S by lia. symmetry. apply firstn_add.
Qed.

Lemma gauss_rep nmax : nmin <= nmax + 1 -> (count mmax nmin (nmax + 1) <= length c) ->
  c = gauss_list nmin nmax mmax gof hof ++ skipn (count mmax nmin (nmax + 1)) c.
Proof.
  intros H L. rewrite gauss_list_blk, blocks_rep; replace (nmin + (nmax + 1 - nmin)) with (nmax + 1) by lia; [|exact L].
  symmetry. apply firstn_skipn.
Qed.
End Rep.

(** closed form of the count *)
Lemma count_nil mmax nmin k : k <= nmin -> count mmax nmin k = 0.
Proof. intros H. unfold count. replace (k - nmin) with 0 by lia. reflexivity. Qed.

Lemma count_low mmax nmin k : nmin <= k <= mmax + 1 -> (Z.of_nat (count mmax nmin k) = Z.of_nat k ^ 2 - Z.of_nat nmin ^ 2)%Z.
Proof.
  induction k as [|k IH]; intros H.
  - replace nmin with 0 by lia. rewrite count_nil by lia. reflexivity.
  - destruct (Nat.eq_dec nmin (S k)) as [->|Hn]; [rewrite count_nil by lia; lia|].
    rewrite count_S, Nat2Z.inj_add, IH by lia. rewrite Nat.min_l by lia. nia.
Qed.

Lemma count_mid mmax nmin k : nmin <= mmax + 1 <= k ->
  (Z.of_nat (count mmax nmin k) = (Z.of_nat mmax + 1) ^ 2 - Z.of_nat nmin ^ 2
     + (Z.of_nat k - Z.of_nat mmax - 1) * (2 * Z.of_nat mmax + 1))%Z.
Proof.
  induction k as [|k IH]; intros H; [lia|].
  destruct (Nat.eq_dec (mmax + 1) (S k)) as [E|Hn].
  - rewrite count_low by lia. replace (Z.of_nat (S k)) with (Z.of_nat mmax + 1)%Z by lia. nia.
  - rewrite count_S, Nat2Z.inj_add, IH by lia. rewrite Nat.min_r by lia. nia.
Qed.

Lemma count_high mmax nmin k : mmax < nmin <= k ->
  (Z.of_nat (count mmax nmin k) = (Z.of_nat k - Z.of_nat nmin) * (2 * Z.of_nat mmax + 1))%Z.
Proof.
  induction k as [|k IH]; intros H; [lia|].
  destruct (Nat.eq_dec nmin (S k)) as [->|Hn]; [rewrite count_nil by lia; lia|].
  rewrite count_S, Nat2Z.inj_add, IH by lia. rewrite Nat.min_r by lia. nia.
Qed.

Lemma count_design_dim mmax nmin nmax : nmin <= nmax -> mmax <= nmax ->
  Z.of_nat (count mmax nmin (nmax + 1)) = design_dim (Z.of_nat nmin) (Z.of_nat nmax) (Z.of_nat mmax).
Proof.
  intros H1 H2. unfold design_dim. destruct (Z.leb_spec (Z.of_nat nmin - 1) (Z.of_nat mmax)) as [L|L].
  - rewrite count_mid by lia. nia.
  - rewrite count_high by lia. nia.
Qed.

Lemma infer_full nmin nmax : nmin <= nmax ->
  infer_nmax (Z.of_nat (count nmax nmin (nmax + 1))) (Z.of_nat nmin) None None = (Z.of_nat nmax, Z.of_nat nmax).
Proof.
  intros H. unfold infer_nmax. rewrite count_low by lia.
  replace (Z.of_nat (nmax + 1) ^ 2 - Z.of_nat nmin ^ 2 + Z.of_nat nmin ^ 2)%Z with (Z.of_nat (nmax + 1) * Z.of_nat (nmax + 1))%Z by nia.
  rewrite Z.sqrt_square by lia. f_equal; lia.
Qed.

Lemma infer_mmax nmin nmax mmax : nmin <= nmax -> mmax <= nmax ->
  infer_nmax (Z.of_nat (count mmax nmin (nmax + 1))) (Z.of_nat nmin) None (Some (Z.of_nat mmax)) = (Z.of_nat nmax, Z.of_nat mmax).
Proof.
  intros H1 H2. unfold infer_nmax. destruct (Z.leb_spec (Z.of_nat nmin - 1) (Z.of_nat mmax)) as [L|L]; f_equal.
  - rewrite count_mid by lia. symmetry. apply Z.quot_unique_exact; [lia|nia].
  - rewrite count_high by lia. symmetry. apply Z.quot_unique_exact; [lia|nia].
Qed.
