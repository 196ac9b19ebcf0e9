(** The degree inferred from the number of coefficients, in double precision. *)
From Coq Require Import ZArith Reals Bool Lia Lra Psatz.
From Flocq Require Import Core.
From Verif Require Import Spec_Float P_Float M_TimeF M_Degree M_Synth.
Open Scope R_scope.

Lemma sqrt_double x : (0 <= x <= 2 ^ 50)%Z -> exists r, rn (rn (sqrt (rn (IZR x))) - 1) = r /\
  IZR (Z.sqrt x - 1) <= r < IZR (Z.sqrt x).
Proof.
  intros H. eexists. split; [reflexivity|].
  rewrite (rn_id (IZR x)) by (apply double_int; lia).
  pose proof (Z.sqrt_spec x ltac:(lia)) as [S1 S2]. pose proof (Z.sqrt_nonneg x) as S0. set (s := Z.sqrt x) in *.
  assert (Sb : (s <= 2 ^ 25)%Z) by nia.
  assert (X1 : IZR s * IZR s <= IZR x) by (rewrite <- mult_IZR; apply IZR_le; exact S1).
  assert (X2 : IZR x <= (IZR s + 1) * (IZR s + 1) - 1).
  { rewrite <- (plus_IZR s 1), <- mult_IZR, <- minus_IZR. apply IZR_le. rewrite <- Z.add_1_r in S2. lia. }
  assert (Sr : 0 <= IZR s <= 33554432) by (split; apply IZR_le; lia).
  assert (X0 : 0 <= IZR x) by (apply IZR_le; lia).
  pose proof (sqrt_pos (IZR x)) as R0. pose proof (sqrt_sqrt _ X0) as R1. set (q := sqrt (IZR x)) in *.
  assert (L : IZR s <= q) by (apply Rnot_lt_le; intro; nra).
  assert (U : q <= IZR s + 1 - / (2 * (IZR s + 1))).
  { set (v := / (2 * (IZR s + 1))). assert (V : v * (IZR s + 1) = / 2) by (unfold v; field; lra).
    assert (Vp : 0 < v) by (apply Rinv_0_lt_compat; lra).
    assert (Sq : (IZR s + 1) * (IZR s + 1) - 1 <= (IZR s + 1 - v) * (IZR s + 1 - v)) by nra.
    assert (0 <= IZR s + 1 - v) by nra. apply Rnot_lt_le; intro; nra. }
  assert (G : / 67108866 <= / (2 * (IZR s + 1))) by (apply Rinv_le; lra).
  assert (Ds : double (IZR s)) by (apply double_int; lia).
  assert (B1 : IZR s <= rn q) by (apply rn_ge; assumption).
  assert (B2 : Rabs (rn q - q) <= bpow radix2 (26 - 54)).
  { apply rn_err; [lia|]. change (bpow radix2 26) with 67108864. rewrite Rabs_pos_eq; lra. }
  change (bpow radix2 (26 - 54)) with (/ 268435456) in B2. apply Rabs_le_inv in B2.
  assert (B3 : Rabs (rn (rn q - 1) - (rn q - 1)) <= bpow radix2 (26 - 54)).
  { apply rn_err; [lia|]. change (bpow radix2 26) with 67108864. apply Rabs_le. lra. }
  change (bpow radix2 (26 - 54)) with (/ 268435456) in B3. apply Rabs_le_inv in B3.
  split.
  - apply rn_ge; [apply double_int; lia|]. rewrite minus_IZR. lra.
  - lra.
Qed.

Lemma int_sqrt_double x : (0 <= x <= 2 ^ 50)%Z ->
  Ztrunc (rn (rn (sqrt (rn (IZR x))) - 1)) = (Z.sqrt x - 1)%Z /\ Zfloor (rn (rn (sqrt (rn (IZR x))) - 1)) = (Z.sqrt x - 1)%Z.
Proof.
  intros H. destruct (Z.eq_dec x 0) as [->|N].
  - rewrite rn_0, sqrt_0, rn_0. replace (0 - 1) with (IZR (-1)) by lra. rewrite (rn_id (IZR (-1))) by (apply double_int; lia).
    rewrite Ztrunc_IZR, Zfloor_IZR. split; reflexivity.
  - destruct (sqrt_double x H) as (r & -> & A & B).
    assert (F : Zfloor r = (Z.sqrt x - 1)%Z).
    { apply Zfloor_imp. split; [exact A|]. replace (Z.sqrt x - 1 + 1)%Z with (Z.sqrt x) by lia. exact B. }
    split; [|exact F]. rewrite Ztrunc_floor; [exact F|]. eapply Rle_trans; [|exact A]. apply IZR_le.
    assert ((1 <= Z.sqrt x)%Z) by (apply Z.sqrt_le_square; lia). lia.
Qed.

(** int(a / b + c) *)
Lemma frac_gap a b n : (0 < b)%Z -> (n * b <= a < (n + 1) * b)%Z -> IZR n <= IZR a / IZR b /\
  (IZR a / IZR b = IZR n \/ IZR a / IZR b <= IZR n + 1 - / IZR b).
Proof.
  intros Hb [H1 H2]. assert (B : 0 < IZR b) by (apply IZR_lt; exact Hb).
  assert (I : 0 < / IZR b) by (apply Rinv_0_lt_compat, B).
  split.
  - apply Rmult_le_reg_r with (IZR b); [exact B|]. unfold Rdiv. rewrite Rmult_assoc, Rinv_l, Rmult_1_r by lra. rewrite <- mult_IZR. apply IZR_le, H1.
  - right. replace (IZR n + 1 - / IZR b) with (IZR ((n + 1) * b - 1) / IZR b).
    + apply Rmult_le_compat_r; [lra|]. apply IZR_le. lia.
    + rewrite minus_IZR, mult_IZR, plus_IZR. field. lra.
Qed.

Lemma rn_sum a b c d n : (0 < b <= 2 ^ 18)%Z -> (Z.abs a <= 2 ^ 31)%Z -> (Z.abs c <= 2 ^ 31)%Z -> (Z.abs d <= 1)%Z ->
  (n * b <= a < (n + 1) * b)%Z ->
  IZR (n + c - d) <= rn (rn (rn (IZR a / IZR b) + IZR c) - IZR d) < IZR (n + c - d + 1).
Proof.
  intros Hb Ha Hc Hd Hn. destruct (frac_gap a b n ltac:(lia) Hn) as [L U].
  assert (Nb : (Z.abs n <= 2 ^ 31 + 1)%Z) by nia.
  assert (B1 : 1 <= IZR b) by (apply IZR_le; lia).
  assert (U' : IZR a / IZR b <= IZR n + 1 - / 262144).
  { destruct U as [->|U]; [lra|]. assert (/ 262144 <= / IZR b); [|lra]. apply Rinv_le; [lra|]. apply IZR_le. lia. }
  set (v := IZR a / IZR b) in *.
  assert (An : -2147483649 <= IZR n <= 2147483649) by (split; apply IZR_le; lia).
  assert (Ac : -2147483648 <= IZR c <= 2147483648) by (split; apply IZR_le; lia).
  assert (Ad : -1 <= IZR d <= 1) by (split; apply IZR_le; lia).
  assert (E : forall x, -8589934592 <= x <= 8589934592 -> - / 2097152 <= rn x - x <= / 2097152).
  { intros x Hx. apply Rabs_le_inv. change (/ 2097152) with (bpow radix2 (33 - 54)). apply rn_err; [lia|].
    change (bpow radix2 33) with 8589934592. apply Rabs_le. lra. }
  assert (L1 : IZR n <= rn v) by (apply rn_ge; [apply double_int; lia|exact L]).
  pose proof (E v ltac:(lra)) as E1.
  assert (L2 : IZR (n + c) <= rn (rn v + IZR c)) by (apply rn_ge; [apply double_int; lia|rewrite plus_IZR; lra]).
  pose proof (E (rn v + IZR c) ltac:(lra)) as E2.
  assert (L3 : IZR (n + c - d) <= rn (rn (rn v + IZR c) - IZR d)) by (apply rn_ge; [apply double_int; lia|rewrite minus_IZR; lra]).
  pose proof (E (rn (rn v + IZR c) - IZR d) ltac:(lra)) as E3.
  split; [exact L3|]. rewrite plus_IZR, minus_IZR, plus_IZR. lra.
Qed.

(** truncation of the three roundings *)
Lemma int_div_pos a b c d : (0 < b <= 2 ^ 18)%Z -> (Z.abs a <= 2 ^ 31)%Z -> (Z.abs c <= 2 ^ 31)%Z -> (Z.abs d <= 1)%Z ->
  (0 <= a + (c - d) * b)%Z ->
  Ztrunc (rn (rn (rn (IZR a / IZR b) + IZR c) - IZR d)) = Z.quot (a + (c - d) * b) b.
Proof.
  intros Hb Ha Hc Hd Hp. pose proof (Z.div_mod a b ltac:(lia)) as DM. pose proof (Z.mod_pos_bound a b ltac:(lia)) as MB.
  destruct (rn_sum a b c d (a / b) Hb Ha Hc Hd ltac:(nia)) as [L U].
  rewrite Z.quot_div_nonneg by lia. rewrite Z.div_add by lia.
  assert (N : (0 <= a / b + (c - d))%Z) by (rewrite <- Z.div_add by lia; apply Z.div_pos; lia).
  rewrite Ztrunc_floor.
  - apply Zfloor_imp. replace (a / b + (c - d))%Z with (a / b + c - d)%Z by lia. split; [exact L|exact U].
  - eapply Rle_trans; [|exact L]. apply IZR_le. lia.
Qed.

Lemma int_div a b c d : (0 < b <= 2 ^ 18)%Z -> (Z.abs a <= 2 ^ 31)%Z -> (Z.abs c <= 2 ^ 31)%Z -> (Z.abs d <= 1)%Z ->
  Ztrunc (rn (rn (rn (IZR a / IZR b) + IZR c) - IZR d)) = Z.quot (a + (c - d) * b) b.
Proof.
  intros Hb Ha Hc Hd. destruct (Z_le_gt_dec 0 (a + (c - d) * b)) as [P|N]; [apply int_div_pos; assumption|].
  pose proof (int_div_pos (- a) b (- c) (- d) Hb ltac:(lia) ltac:(lia) ltac:(lia) ltac:(lia)) as E.
  rewrite !opp_IZR in E. replace (- IZR a / IZR b) with (- (IZR a / IZR b)) in E by (unfold Rdiv; ring). rewrite rn_opp in E.
  replace (- rn (IZR a / IZR b) + - IZR c) with (- (rn (IZR a / IZR b) + IZR c)) in E by ring. rewrite rn_opp in E.
  replace (- rn (rn (IZR a / IZR b) + IZR c) - - IZR d) with (- (rn (rn (IZR a / IZR b) + IZR c) - IZR d)) in E by ring.
  rewrite rn_opp, Ztrunc_opp in E.
  replace (- a + (- c - - d) * b)%Z with (- (a + (c - d) * b))%Z in E by ring. rewrite Z.quot_opp_l in E by lia. lia.
Qed.

Lemma infer_nmax_double dim nmin nmax mmax : (0 <= dim <= 2 ^ 30)%Z -> (1 <= nmin <= 2 ^ 15)%Z ->
  match mmax with Some m => (0 <= m <= 2 ^ 15)%Z | None => True end ->
  infer_nmax_f dim nmin nmax mmax = infer_nmax dim nmin nmax mmax.
Proof.
  intros Hd Hn Hm. unfold infer_nmax_f, infer_nmax. destruct nmax as [n|]; [reflexivity|].
  destruct mmax as [m|].
  - assert (Q : (0 <= nmin ^ 2 <= 2 ^ 30)%Z) by nia. assert (Q' : (0 <= m * (m + 2) <= 2 ^ 15 * (2 ^ 15 + 2))%Z) by nia.
    destruct (nmin - 1 <=? m)%Z; match goal with |- (?a, _) = (?b, _) => cut (a = b); [intros ->; reflexivity|] end.
    + pose proof (int_div (dim - m * (m + 2) + nmin ^ 2 - 1) (2 * m + 1) m 0 ltac:(lia) ltac:(lia) ltac:(lia) ltac:(lia)) as E.
      rewrite Rminus_0_r, (rn_id (rn _)) in E by apply rn_double. rewrite E. f_equal. ring.
    + rewrite (int_div dim (2 * m + 1) nmin 1) by lia. reflexivity.
  - unfold int_sqrt. rewrite (proj1 (int_sqrt_double (dim + nmin ^ 2) ltac:(nia))). reflexivity.
Qed.
