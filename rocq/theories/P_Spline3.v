(** B-splines on the knots of augment_breaks; conversion to a piecewise polynomial. *)
From Coq Require Import Reals List Arith ZArith String Bool Lia Lra Sorted.
From Coquelicot Require Import Coquelicot.
From Verif Require Import M_Prelude M_ND Spec_Field Spec_Spline Spec_PP M_Spectrum M_Spline M_PP M_Model M_FromSpline
  P_Spectrum P_Spectrum2 P_Spectrum3 P_Spline P_Spline2 P_PP P_PP2.
Import ListNotations.
Open Scope R_scope.

Lemma good_sorted b : good_breaks b -> StronglySorted Rlt b.
Proof.
  intros [_ G]. induction b as [|x b IH]; [constructor|]. constructor.
  - apply IH. intros i Hi. specialize (G (S i)). cbn in G. apply G. lia.
  - clear IH. revert x G. induction b as [|y b IH]; intros x G; [constructor|]. constructor.
    + specialize (G 0%nat). cbn in G. apply G. lia.
    + apply IH. intros i Hi. cbn in Hi. destruct i as [|i].
      * pose proof (G 0%nat ltac:(cbn; lia)) as G0. pose proof (G 1%nat ltac:(cbn; lia)) as G1. cbn in G0, G1. cbn. lra.
      * specialize (G (S (S i)) ltac:(cbn; lia)). cbn in G. cbn. exact G.
Qed.

Section Aug.
Variables (b : list R) (order : nat) (t : list R).
Hypothesis G : good_breaks b.
Hypothesis Ho : (1 <= order)%nat.
Hypothesis Ea : augment_breaks b (Z.of_nat order) = Ok t.
Let k := (order - 1)%nat.
Let n := (List.length t - order)%nat.

Lemma len_t : List.length t = (List.length b + 2 * order - 2)%nat.
Proof. destruct G as [L _]. exact (proj1 (aug_knot b order t Ho L Ea)). Qed.
Lemma len_b : (2 <= List.length b)%nat. Proof. exact (proj1 G). Qed.
Lemma aug_mono : forall i j, (i <= j < List.length t)%nat -> knot t i <= knot t j.
Proof. destruct (aug_good b order t Ho len_b (good_sorted b G) Ea) as ((_ & _ & M & _) & _). exact M. Qed.
Lemma knot_b p : (p < List.length b)%nat -> knot t (k + p) = nth p b 0.
Proof.
  intros Hp. destruct (aug_knot b order t Ho len_b Ea) as [_ K]. rewrite K. fold k. destruct (Nat.ltb_spec (k + p) k); [lia|].
  destruct (Nat.ltb_spec (k + p) (k + List.length b)); [|lia]. f_equal. lia.
Qed.
Lemma knot_lo i : (i <= k)%nat -> knot t i = first_break b.
Proof.
  intros Hi. destruct (aug_knot b order t Ho len_b Ea) as [_ K]. rewrite K. fold k. pose proof len_b. destruct (Nat.ltb_spec i k); [reflexivity|].
  destruct (Nat.ltb_spec i (k + List.length b)); [|lia]. unfold first_break. f_equal. lia.
Qed.
Lemma knot_hi i : (n <= i < List.length t)%nat -> knot t i = last_break b.
Proof.
  intros Hi. destruct (aug_knot b order t Ho len_b Ea) as [_ K]. rewrite K. fold k. pose proof len_b. pose proof len_t. unfold n in Hi.
  destruct (Nat.ltb_spec i k); [lia|]. destruct (Nat.ltb_spec i (k + List.length b)); [unfold last_break; f_equal; lia|].
  destruct (Nat.ltb_spec i (List.length t)); [reflexivity|lia].
Qed.
Lemma last_t : last t 0 = last_break b.
Proof.
  pose proof len_t. pose proof len_b. rewrite <- (knot_hi (List.length t - 1)) by (unfold n; lia). unfold knot.
  assert (LL : forall (c : list R), c <> [] -> last c 0 = nth (List.length c - 1) c 0).
  { induction c as [|y c IH]; intros Hc; [contradiction|]. destruct c as [|z c]; [reflexivity|].
    change (last (z :: c) 0 = nth (List.length (y :: z :: c) - 1) (y :: z :: c) 0). rewrite IH by discriminate. cbn. rewrite Nat.sub_0_r. reflexivity. }
  apply LL. intros E. rewrite E in *. cbn in *. lia.
Qed.

(** separation around the interval p *)
Lemma aug_sep p : (p + 1 < List.length b)%nat -> forall j m, (1 <= m <= j)%nat -> (j <= k)%nat -> knot t (k + p + m - j) < knot t (k + p + m).
Proof.
  intros Hp j m H1 H2. pose proof len_t. destruct G as [_ GS].
  pose proof (aug_mono (k + p + m - j) (k + p) ltac:(unfold k in *; lia)) as A1.
  pose proof (aug_mono (k + p + 1) (k + p + m) ltac:(unfold k in *; lia)) as A2.
  pose proof (GS p Hp) as A3. rewrite <- (knot_b p) in A3 by lia. rewrite <- (knot_b (p + 1)) in A3 by lia. rewrite Nat.add_assoc in A3. lra.
Qed.

Lemma in_interval_knot p x : in_interval b p x -> knot t (k + p) <= x /\ (x < knot t (k + p + 1) \/ (p + 2 = List.length b)%nat /\ x = knot t (k + p + 1)).
Proof. intros (H1 & H2 & H3). rewrite knot_b by lia. rewrite <- Nat.add_assoc, knot_b by lia. split; assumption. Qed.

Lemma find_aug p x : in_interval b p x -> find_interval (List.length t) t n x k = (k + p)%nat.
Proof.
  intros I. pose proof len_t as L. pose proof len_b as LB. pose proof (in_interval_inside b p x G I) as [X1 X2].
  destruct (find_interval_spec t n x (List.length t) k) as (Q1 & Q2 & Q3).
  { unfold n, k; lia. } { unfold n, k; lia. } { unfold n; lia. } { rewrite knot_lo by lia. exact X1. }
  set (e := find_interval _ _ _ _ _) in *.
  assert (J : in_interval b (e - k) x).
  { assert (E1 : (e - k + 1 < List.length b)%nat) by (unfold n, k in *; lia). split; [exact E1|].
    rewrite <- (knot_b (e - k)) by lia. replace (k + (e - k))%nat with e by lia. split; [exact Q2|].
    rewrite <- (knot_b (e - k + 1)) by lia. replace (k + (e - k + 1))%nat with (e + 1)%nat by lia.
    destruct Q3 as [Q3|Q3]; [left; exact Q3|]. rewrite (knot_hi (e + 1)) by (unfold n in *; lia).
    destruct (Rlt_le_dec x (last_break b)) as [Y|Y]; [left; exact Y|right]. split; [unfold n, k in *; lia|lra]. }
  pose proof (C39_unique b x _ _ G J I). lia.
Qed.

Lemma indicator_aug p x i : in_interval b p x -> (i + 1 < List.length t)%nat -> indicator t i x = if (i =? k + p)%nat then 1 else 0.
Proof.
  intros I Hi. pose proof len_t as L. pose proof I as (IL & _). destruct (in_interval_knot p x I) as [I1 I2].
  pose proof (in_interval_inside b p x G I) as [X1 X2].
  unfold indicator. rewrite last_t. fold (knot t i). fold (knot t (i + 1)).
  destruct (Nat.eqb_spec i (k + p)) as [ -> |N].
  - destruct (Rle_dec (knot t (k + p)) x); [|lra]. destruct (Rlt_dec x (knot t (k + p + 1))); [reflexivity|].
    destruct I2 as [I2|[I2 I3]]; [lra|]. assert (E : knot t (k + p + 1) = last_break b) by (apply knot_hi; unfold n, k in *; lia).
    pose proof (aug_sep p IL). destruct (Rlt_dec (knot t (k + p)) (knot t (k + p + 1))) as [|F].
    + destruct (Req_EM_T _ _); [|lra]. destruct (Req_EM_T _ _); [reflexivity|lra].
    + exfalso. apply F. rewrite <- Nat.add_assoc, !knot_b by lia. destruct G as [_ GS]. apply GS. lia.
  - destruct (Rle_dec (knot t i) x) as [R1|R1]; [|reflexivity].
    destruct (Nat.lt_ge_cases i (k + p)) as [LT|GE].
    + (* left of the interval *)
      pose proof (aug_mono (i + 1) (k + p) ltac:(lia)) as M1. destruct (Rlt_dec x (knot t (i + 1))); [lra|].
      destruct (Rlt_dec (knot t i) (knot t (i + 1))); [|reflexivity].
      destruct (Req_EM_T (knot t (i + 1)) (last_break b)) as [E|E]; [|reflexivity].
      exfalso. assert (S : nth p b 0 < nth (p + 1) b 0) by (apply (proj2 G); lia). rewrite <- (knot_b p) in S by lia.
      pose proof (good_mono b G (p + 1)%nat (List.length b - 1)%nat ltac:(lia)) as MM. fold (last_break b) in MM. lra.
    + (* right *)
      pose proof (aug_mono (k + p + 1) i ltac:(lia)) as M1.
      assert (XE : x = knot t (k + p + 1) /\ (p + 2 = List.length b)%nat) by (destruct I2 as [I2|[I2 I3]]; [lra|split; assumption]).
      destruct XE as [XE PE]. assert (E : knot t (k + p + 1) = last_break b) by (apply knot_hi; unfold n, k in *; lia).
      assert (E2 : knot t i = last_break b) by (apply knot_hi; unfold n, k in *; lia).
      assert (E3 : knot t (i + 1) = last_break b) by (apply knot_hi; unfold n, k in *; lia).
      destruct (Rlt_dec x (knot t (i + 1))); [lra|]. destruct (Rlt_dec (knot t i) (knot t (i + 1))); [lra|reflexivity].
Qed.

(** polynomial of the i-th B-spline on interval p *)
Definition bpoly (p i : nat) (y : R) : R := V t (k + p) k (Z.of_nat i - Z.of_nat p) y.

Lemma bspline_bpoly p i x : in_interval b p x -> (i < n)%nat -> bspline t k i x = bpoly p i x.
Proof.
  intros I Hi. pose proof I as (IL & _). pose proof len_t. unfold bpoly.
  rewrite (V_bspline t (k + p) k (aug_sep p IL) ltac:(lia) x).
  - f_equal. lia.
  - intros j Hj. apply indicator_aug; assumption.
  - lia.
  - unfold n, k in *. lia.
Qed.

(** spline value and derivatives by the code *)
Definition spoly (c : list R) (p : nat) (m : nat) (y : R) : R :=
  Rsum (map (fun a => nth (p + a) c 0 * deboor t y k (k + p) m a) (seq 0 (k + 1))).

Lemma eval_spoly c p x m : in_interval b p x -> bspline_eval t c k x m = Some (spoly c p m x).
Proof.
  intros I. pose proof (in_interval_inside b p x G I) as [X1 X2]. pose proof len_t as L. pose proof len_b as LB.
  unfold bspline_eval. replace (List.length t - k - 1)%nat with n by (unfold n, k; lia).
  rewrite (knot_lo k), (knot_hi n) by (unfold n; lia). destruct (Rlt_dec x (first_break b)); [lra|]. destruct (Rlt_dec (last_break b) x); [lra|].
  rewrite (find_aug p x I). rewrite (fold_out (fun a => nth (k + p + a - k) c 0 * deboor t x k (k + p) m a)). rewrite Rplus_0_l. f_equal.
  apply Rsum_seq_ext. intros a Ha. do 2 f_equal. lia.
Qed.

Lemma Rsum_derive_n (f : nat -> R -> R) (g : nat -> R) (c : nat -> R) (m : nat) x : forall K,
  (forall a, (a < K)%nat -> (forall y i, (i <= m)%nat -> ex_derive_n (f a) i y) /\ is_derive_n (f a) m x (g a)) ->
  is_derive_n (fun y => Rsum (map (fun a => c a * f a y) (seq 0 K))) m x (Rsum (map (fun a => c a * g a) (seq 0 K))) /\
  forall y i, (i <= m)%nat -> ex_derive_n (fun y => Rsum (map (fun a => c a * f a y) (seq 0 K))) i y.
Proof.
  induction K as [|K IH]; intros H.
  - cbn. split.
    + destruct m; [reflexivity|]. apply (is_derive_n_const m).
    + intros y i _. apply ex_derive_n_const.
  - destruct IH as [IH1 IH2]; [intros a Ha; apply H; lia|]. destruct (H K ltac:(lia)) as [H1 H2].
    rewrite Rsum_snoc.
    assert (E : forall y, Rsum (map (fun a => c a * f a y) (seq 0 K)) + c K * f K y = Rsum (map (fun a => c a * f a y) (seq 0 (S K)))) by (intros y; rewrite Rsum_snoc; reflexivity).
    split.
    + apply (is_derive_n_ext _ _ _ _ _ E). apply is_derive_n_plus.
      * apply filter_forall. intros y i Hi. apply IH2. exact Hi.
      * apply filter_forall. intros y i Hi. apply ex_derive_n_scal_l. apply H1. exact Hi.
      * exact IH1.
      * apply is_derive_n_scal_l. exact H2.
    + intros y i Hi. apply (ex_derive_n_ext _ _ _ _ E). apply ex_derive_n_plus.
      * apply filter_forall. intros z j Hj. apply IH2. lia.
      * apply filter_forall. intros z j Hj. apply ex_derive_n_scal_l. apply H1. lia.
Qed.

Lemma ex_deboor p a i y : (p + 1 < List.length b)%nat -> (a <= k)%nat -> ex_derive_n (fun y => deboor t y k (k + p) 0 a) i y.
Proof.
  intros Hp Ha. destruct i as [|i]; [exact I|].
  assert (D : exists l, is_derive_n (fun y => deboor t y k (k + p) 0 a) (S i) y l).
  { destruct (Nat.le_gt_cases (S i) k).
    - eexists. apply (deboor_derive t (k + p) k (aug_sep p Hp) ltac:(lia)); assumption.
    - eexists. apply (deboor_high t (k + p) k (aug_sep p Hp) ltac:(lia)); assumption. }
  destruct D as [l D]. exists l. exact D.
Qed.

Lemma spoly_derive c p m x : (p + 1 < List.length b)%nat -> (m <= k)%nat -> is_derive_n (spoly c p 0) m x (spoly c p m x).
Proof.
  intros Hp Hm. apply (Rsum_derive_n (fun a y => deboor t y k (k + p) 0 a) (fun a => deboor t x k (k + p) m a) (fun a => nth (p + a) c 0)).
  intros a Ha. split.
  - intros y i _. apply ex_deboor; [exact Hp|lia].
  - apply (deboor_derive t (k + p) k (aug_sep p Hp)); lia.
Qed.
Lemma spoly_ex c p i y : (p + 1 < List.length b)%nat -> ex_derive_n (spoly c p 0) i y.
Proof.
  intros Hp. destruct i as [|i]; [exact I|].
  destruct (Nat.le_gt_cases (S i) k).
  - exists (spoly c p (S i) y). exact (spoly_derive c p (S i) y Hp H).
  - apply (proj2 (Rsum_derive_n (fun a y => deboor t y k (k + p) 0 a) (fun a => 0) (fun a => nth (p + a) c 0) (S i) y (k + 1) 
      (fun a Ha => conj (fun z j _ => ex_deboor p a j z Hp ltac:(lia)) (deboor_high t (k + p) k (aug_sep p Hp) ltac:(lia) y (S i) a ltac:(lia) ltac:(lia)))) y (S i) (le_n _)).
Qed.
Lemma spoly_high c p m x : (p + 1 < List.length b)%nat -> (k < m)%nat -> is_derive_n (spoly c p 0) m x 0.
Proof.
  intros Hp Hm.
  assert (Z : Rsum (map (fun a => nth (p + a) c 0 * 0) (seq 0 (k + 1))) = 0).
  { rewrite (Rsum_ext _ (fun _ => 0)); [apply Rsum_const0|]. intros; ring. }
  pose proof (proj1 (Rsum_derive_n (fun a y => deboor t y k (k + p) 0 a) (fun a => 0) (fun a => nth (p + a) c 0) m x (k + 1)
    (fun a Ha => conj (fun z j _ => ex_deboor p a j z Hp ltac:(lia)) (deboor_high t (k + p) k (aug_sep p Hp) ltac:(lia) x m a ltac:(lia) ltac:(lia))))) as D.
  cbv beta in D. rewrite Z in D. exact D.
Qed.

(** Taylor expansion is exact *)
Lemma spoly_taylor c p x0 x : (p + 1 < List.length b)%nat -> x0 <= x ->
  spoly c p 0 x = Rsum (map (fun m => spoly c p m x0 / INR (fact m) * (x - x0) ^ m) (seq 0 (S k))).
Proof.
  intros Hp Hx. assert (ST : forall (f : nat -> R) N, sum_f_R0 f N = Rsum (map f (seq 0 (S N)))).
  { intros f N. induction N as [|N IH]; [cbn; ring|]. cbn [sum_f_R0]. rewrite IH, (Rsum_snoc f (S N)). reflexivity. }
  destruct Hx as [Hx| <-].
  - destruct (Taylor_Lagrange (spoly c p 0) k x0 x Hx) as (z & _ & E).
    { intros y _ i _. apply spoly_ex. exact Hp. }
    rewrite E, (is_derive_n_unique _ _ _ _ (spoly_high c p (S k) z Hp ltac:(lia))), Rmult_0_r, Rplus_0_r, ST. apply Rsum_seq_ext. intros m Hm.
    rewrite (is_derive_n_unique _ _ _ _ (spoly_derive c p m x0 Hp ltac:(lia))). unfold Rdiv. ring.
  - rewrite <- cons_seq. cbn [map]. rewrite Rsum_cons. cbn [fact INR pow].
    rewrite (Rsum_ext _ (fun _ => 0)); [rewrite Rsum_const0; field|]. intros m Hm. apply in_seq in Hm. rewrite Rminus_diag_eq, pow_i by (reflexivity || lia). ring.
Qed.

(** the spline of the specification *)
Lemma spline_spoly (c : nat -> R) l p x : in_interval b p x -> (forall i, (i < n)%nat -> nth i l 0 = c i) -> spline t k c n x = spoly l p 0 x.
Proof.
  intros I Hl. pose proof I as (IL & _). pose proof len_t as L. unfold spline, spoly.
  change (fold_right Rplus 0 (map (fun i => c i * bspline t k i x) (seq 0 n))) with (Rsum (map (fun i => c i * bspline t k i x) (seq 0 n))).
  transitivity (Rsum (map (fun i => Rsum (map (fun a => (if (i =? p + a)%nat then 1 else 0) * (nth i l 0 * deboor t x k (k + p) 0 a)) (seq 0 (k + 1)))) (seq 0 n))).
  - apply Rsum_seq_ext. intros i Hi. rewrite (bspline_bpoly p i x I Hi), <- Hl by exact Hi. unfold bpoly.
    destruct (deboor_same t (k + p) k (aug_sep p IL) ltac:(lia) x 0 ltac:(lia)) as [E _]. cbn [DD] in E. rewrite Nat.sub_0_r in E.
    destruct (Nat.le_gt_cases p i) as [L1|L1]; [destruct (Nat.le_gt_cases i (p + k)) as [L2|L2]|].
    + rewrite (Rsum_seq_ext _ (fun a => (if (a =? i - p)%nat then 1 else 0) * (nth i l 0 * deboor t x k (k + p) 0 a))).
      2:{ intros a Ha. destruct (Nat.eqb_spec i (p + a)), (Nat.eqb_spec a (i - p)); try lia; reflexivity. }
      rewrite (Rsum_single (fun a => nth i l 0 * deboor t x k (k + p) 0 a)) by lia. rewrite E by lia. do 2 f_equal. lia.
    + rewrite V_out by lia. rewrite Rmult_0_r. symmetry. rewrite (Rsum_seq_ext _ (fun _ => 0)); [apply Rsum_const0|].
      intros a Ha. destruct (Nat.eqb_spec i (p + a)); [lia|ring].
    + rewrite V_out by lia. rewrite Rmult_0_r. symmetry. rewrite (Rsum_seq_ext _ (fun _ => 0)); [apply Rsum_const0|].
      intros a Ha. destruct (Nat.eqb_spec i (p + a)); [lia|ring].
  - rewrite Rsum_swap. apply Rsum_seq_ext. intros a Ha.
    rewrite (Rsum_single (fun i => nth i l 0 * deboor t x k (k + p) 0 a)) by (unfold n, k in *; lia). reflexivity.
Qed.
End Aug.
