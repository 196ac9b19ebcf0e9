(** A spline on the knots of augment_breaks that vanishes at enough points has
    zero coefficients. *)
From Coq Require Import Reals List Arith ZArith String Bool Lia Lra.
From Coquelicot Require Import Coquelicot.
From Verif Require Import M_Prelude M_ND Spec_Field Spec_Spline Spec_PP M_Spectrum M_Spline M_PP M_FromSpline
  P_Spectrum P_Spectrum2 P_Spectrum3 P_Spline P_Spline2 P_Spline3 P_Spline4 P_PP P_PP2 P_SHCModel2.
Import ListNotations.
Open Scope R_scope.

Section Grad.
Variables (t : list R) (x : R) (ell : nat).
(** coefficients of the derivative *)
Definition grad (j : nat) (c : nat -> R) (n : nat) : R :=
  (c (S n) - c n) * (INR j / (knot t (ell + S n) - knot t (ell + S n - j))).

Lemma dsum_upd2 (c h : nat -> R) p u v :
  Rsum (map (fun a => c a * upd (upd h p u) (S p) v a) (seq 0 (S (S p)))) = Rsum (map (fun a => c a * h a) (seq 0 p)) + c p * u + c (S p) * v.
Proof.
  rewrite P_Spline.Rsum_snoc, P_Spline.Rsum_snoc.
  replace (upd (upd h p u) (S p) v p) with u.
  2:{ unfold upd. destruct (Nat.eqb_spec p (S p)); [lia|]. rewrite Nat.eqb_refl. reflexivity. }
  replace (upd (upd h p u) (S p) v (S p)) with v by (unfold upd; rewrite Nat.eqb_refl; reflexivity).
  f_equal. f_equal.
  apply Rsum_seq_ext. intros i Hi. unfold upd. destruct (Nat.eqb_spec i (S p)); [lia|]. destruct (Nat.eqb_spec i p); [lia|]. reflexivity.
Qed.
Lemma dsweep_dot j hh c : (forall n, (1 <= n <= j)%nat -> knot t (ell + n) <> knot t (ell + n - j)) -> forall p, (p <= j)%nat ->
  Rsum (map (fun a => c a * fold_left (dsweep_body t ell j hh) (seq 1 p) (upd hh 0 0) a) (seq 0 (S p))) = Rsum (map (fun n => grad j c n * hh n) (seq 0 p)).
Proof.
  intros K. induction p as [|p IH]; intros Hp; [cbn; unfold upd; cbn; ring|].
  rewrite seq_S, fold_left_app. cbn [fold_left]. specialize (IH ltac:(lia)). set (h := fold_left _ _ _) in *.
  unfold dsweep_body. destruct (Req_EM_T _ _) as [E|E]; [exfalso; revert E; apply K; lia|].
  replace (1 + p - 1)%nat with p by lia. replace (1 + p)%nat with (S p) in * by lia.
  rewrite dsum_upd2. rewrite (P_Spline.Rsum_snoc (fun n => grad j c n * hh n)), <- IH, P_Spline.Rsum_snoc. unfold grad. unfold Rdiv. ring.
Qed.

Variable k : nat.
Hypothesis mono : forall i j, (i <= j < List.length t)%nat -> knot t i <= knot t j.
Hypothesis Hell : (k <= ell)%nat.
Hypothesis Hlen : (ell + k < List.length t)%nat.
Hypothesis Hin : knot t ell <= x <= knot t (ell + 1).
Hypothesis Hne : knot t ell < knot t (ell + 1).
Hypothesis Hlen1 : (ell + 1 < List.length t)%nat.

Definition vals (j : nat) : nat -> R := fold_left (fun h j => deboor_sweep t x ell j h) (seq 1 j) (fun _ => 1).
Fixpoint gr (top m : nat) (c : nat -> R) : nat -> R :=
  match m with O => c | S m => gr (top - 1) m (grad top c) end.

Lemma ne j n : (1 <= n <= j)%nat -> (j <= k)%nat -> knot t (ell + n) <> knot t (ell + n - j).
Proof. intros H1 H2. pose proof (mono (ell + n - j) ell ltac:(lia)). pose proof (mono (ell + 1) (ell + n) ltac:(lia)). lra. Qed.

Lemma dot_gr h j : forall m c, (j + m <= k)%nat ->
  Rsum (map (fun a => c a * fold_left (fun h j => deboor_dsweep t ell j h) (seq (j + 1) m) h a) (seq 0 (j + m + 1))) =
  Rsum (map (fun a => gr (j + m) m c a * h a) (seq 0 (j + 1))).
Proof.
  induction m as [|m IH]; intros c Hm; [cbn [seq fold_left gr]; rewrite Nat.add_0_r; reflexivity|].
  rewrite seq_S, fold_left_app. cbn [fold_left gr]. set (h' := fold_left _ _ _) in *.
  replace (j + 1 + m)%nat with (j + S m)%nat by lia. replace (j + S m - 1)%nat with (j + m)%nat by lia. rewrite <- IH by lia.
  change (deboor_dsweep t ell (j + S m) h') with (fold_left (dsweep_body t ell (j + S m) h') (seq 1 (j + S m)) (upd h' 0 0)).
  replace (j + S m + 1)%nat with (S (j + S m)) by lia. rewrite dsweep_dot; [|intros n Hn; apply ne; lia|lia].
  replace (j + m + 1)%nat with (j + S m)%nat by lia. reflexivity.
Qed.
Lemma vanish : forall j c, (j <= k)%nat -> (forall m, (m <= j)%nat -> Rsum (map (fun a => gr j m c a * vals (j - m) a) (seq 0 (j - m + 1))) = 0) ->
  forall a, (a <= j)%nat -> c a = 0.
Proof.
  induction j as [|j IH]; intros c Hj H a Ha.
  - specialize (H 0%nat (le_n _)). unfold vals in H. cbn in H. replace a with 0%nat by lia. lra.
  - assert (GZ : forall n, (n <= j)%nat -> grad (S j) c n = 0).
    { apply IH; [lia|]. intros m Hm. specialize (H (S m) ltac:(lia)). cbn [gr] in H. replace (S j - 1)%nat with j in H by lia.
      replace (S j - S m)%nat with (j - m)%nat in H by lia. exact H. }
    assert (EQ : forall n, (n <= S j)%nat -> c n = c 0%nat).
    { induction n as [|n IHn]; intros Hn; [reflexivity|]. rewrite <- (IHn ltac:(lia)). specialize (GZ n ltac:(lia)). unfold grad in GZ.
      pose proof (ne (S j) (S n) ltac:(lia) Hj) as NE.
      assert (NZ : INR (S j) / (knot t (ell + S n) - knot t (ell + S n - S j)) <> 0).
      { unfold Rdiv. apply Rmult_integral_contrapositive. split; [apply not_0_INR; lia|]. apply Rinv_neq_0_compat. lra. }
      apply Rmult_integral in GZ. destruct GZ as [GZ|GZ]; [lra|contradiction]. }
    specialize (H 0%nat ltac:(lia)). cbn [gr] in H. rewrite Nat.sub_0_r in H.
    rewrite (Rsum_seq_ext _ (fun a => c 0%nat * vals (S j) a)) in H by (intros n Hn; rewrite EQ by lia; reflexivity).
    rewrite <- (map_map (vals (S j)) (Rmult (c 0%nat))), Rsum_scal in H. destruct (values_inv t x ell mono k Hell Hlen Hin Hne Hlen1 (S j) Hj) as [V _]. cbv zeta in V. fold (vals (S j)) in V.
    replace (S j + 1)%nat with (S (S j)) in H by lia. rewrite V in H. rewrite EQ by exact Ha. lra.
Qed.
Lemma local_independent c : (forall m, (m <= k)%nat -> Rsum (map (fun a => c a * deboor t x k ell m a) (seq 0 (k + 1))) = 0) -> forall a, (a <= k)%nat -> c a = 0.
Proof.
  intros H. apply (vanish k c (le_n _)). intros m Hm. specialize (H m Hm). unfold deboor in H. fold (vals (k - m)) in H.
  pose proof (dot_gr (vals (k - m)) (k - m) m c ltac:(lia)) as D. replace (k - m + m)%nat with k in D by lia. rewrite <- D. exact H.
Qed.
End Grad.

(** continuity at a simple knot *)
Lemma V_shift t ell j : knot t ell < knot t (ell + 1) -> knot t (ell + 1) < knot t (ell + 2) ->
  forall z, V t ell (S j) z (knot t (ell + 1)) = V t (S ell) (S j) (z - 1) (knot t (ell + 1)).
Proof.
  intros H1 H2. assert (TS : forall z, T t (S ell) z = T t ell (z + 1)) by (intros z; unfold T; f_equal; lia).
  assert (E0 : T t ell 0 = knot t ell) by (unfold T; f_equal; lia).
  assert (E1 : T t ell 1 = knot t (ell + 1)) by (unfold T; f_equal; lia).
  assert (E2 : T t ell 2 = knot t (ell + 2)) by (unfold T; f_equal; lia).
  induction j as [|j IH]; intros z.
  - cbn [V]. change (Z.of_nat 1) with 1%Z. change (Z.of_nat 0) with 0%Z. rewrite !TS.
    destruct (Z.eqb_spec (z - 1) 0) as [C1|C1].
    + replace z with 1%Z by lia. cbn [Z.eqb Z.sub Z.opp Z.add Z.pos_sub Pos.pred_double Pos.add Pos.succ]. change (1 - 1)%Z with 0%Z. change (1 - 1 - 1)%Z with (-1)%Z.
      cbn [Z.eqb]. change (-1 + 1)%Z with 0%Z. change (0 + 1)%Z with 1%Z. change (0 - 1 + 1)%Z with 0%Z. change (1 - 1 + 1 + 1)%Z with 2%Z. change (0 + 1 + 1)%Z with 2%Z. change (1 - 1 - 0 + 1)%Z with 1%Z. change (0 - 0 + 1)%Z with 1%Z.
      rewrite E0, E1, E2. field. lra.
    + destruct (Z.eqb_spec z 0) as [C2|C2].
      * subst z. cbn. rewrite E1. unfold Rdiv. ring.
      * destruct (Z.eqb_spec (z - 1 - 1) 0) as [C3|C3]; [|ring]. replace z with 2%Z by lia. change (2 - 1 - 1 + 1)%Z with 1%Z. change (2 - 1 + 1)%Z with 2%Z. rewrite E1. unfold Rdiv. ring.
  - change (V t ell (S (S j)) z (knot t (ell + 1))) with
      (V t ell (S j) (z - 1) (knot t (ell + 1)) * ((knot t (ell + 1) - T t ell (z - Z.of_nat (S (S j)))) / (T t ell z - T t ell (z - Z.of_nat (S (S j))))) +
       V t ell (S j) z (knot t (ell + 1)) * ((T t ell (z + 1) - knot t (ell + 1)) / (T t ell (z + 1) - T t ell (z - Z.of_nat (S j))))).
    change (V t (S ell) (S (S j)) (z - 1) (knot t (ell + 1))) with
      (V t (S ell) (S j) (z - 1 - 1) (knot t (ell + 1)) * ((knot t (ell + 1) - T t (S ell) (z - 1 - Z.of_nat (S (S j)))) / (T t (S ell) (z - 1) - T t (S ell) (z - 1 - Z.of_nat (S (S j))))) +
       V t (S ell) (S j) (z - 1) (knot t (ell + 1)) * ((T t (S ell) (z - 1 + 1) - knot t (ell + 1)) / (T t (S ell) (z - 1 + 1) - T t (S ell) (z - 1 - Z.of_nat (S j))))).
    rewrite !IH, !TS. 
    replace (z - 1 - Z.of_nat (S (S j)) + 1)%Z with (z - Z.of_nat (S (S j)))%Z by lia. replace (z - 1 + 1)%Z with z by lia.
    replace (z - 1 - Z.of_nat (S j) + 1)%Z with (z - Z.of_nat (S j))%Z by lia. reflexivity.
Qed.

Section Aug.
Variables (b : list R) (order : nat) (t : list R).
Hypothesis G : good_breaks b.
Hypothesis Ho : (2 <= order)%nat.
Hypothesis Ea : augment_breaks b (Z.of_nat order) = Ok t.
Let k := (order - 1)%nat.
Let n := (List.length t - order)%nat.
Let Ho1 : (1 <= order)%nat. Proof. lia. Qed.

Lemma poly_sum (c : nat -> R) l p y : (p + 1 < List.length b)%nat -> (forall i, (i < n)%nat -> nth i l 0 = c i) ->
  Rsum (map (fun i => c i * bpoly order t p i y) (seq 0 n)) = spoly order t l p 0 y.
Proof.
  intros IL Hl. pose proof (len_t b order t G Ho1 Ea) as L. unfold spoly. fold k.
  transitivity (Rsum (map (fun i => Rsum (map (fun a => (if (i =? p + a)%nat then 1 else 0) * (nth i l 0 * deboor t y k (k + p) 0 a)) (seq 0 (k + 1)))) (seq 0 n))).
  - apply Rsum_seq_ext. intros i Hi. rewrite <- Hl by exact Hi. unfold bpoly. fold k.
    destruct (deboor_same t (k + p) k (aug_sep b order t G Ho1 Ea p IL) ltac:(lia) y 0 ltac:(lia)) as [E _]. cbn [DD] in E. rewrite Nat.sub_0_r in E.
    destruct (Nat.le_gt_cases p i) as [L1|L1]; [destruct (Nat.le_gt_cases i (p + k)) as [L2|L2]|].
    + rewrite (Rsum_seq_ext _ (fun a => (if (a =? i - p)%nat then 1 else 0) * (nth i l 0 * deboor t y k (k + p) 0 a))).
      2:{ intros a Ha. destruct (Nat.eqb_spec i (p + a)), (Nat.eqb_spec a (i - p)); try lia; reflexivity. }
      rewrite (Rsum_single (fun a => nth i l 0 * deboor t y k (k + p) 0 a)) by lia. rewrite E by lia. do 2 f_equal. lia.
    + rewrite V_out by lia. rewrite Rmult_0_r. symmetry. rewrite (Rsum_seq_ext _ (fun _ => 0)); [apply Rsum_const0|].
      intros a Ha. destruct (Nat.eqb_spec i (p + a)); [lia|ring].
    + rewrite V_out by lia. rewrite Rmult_0_r. symmetry. rewrite (Rsum_seq_ext _ (fun _ => 0)); [apply Rsum_const0|].
      intros a Ha. destruct (Nat.eqb_spec i (p + a)); [lia|ring].
  - rewrite Rsum_swap. apply Rsum_seq_ext. intros a Ha.
    rewrite (Rsum_single (fun i => nth i l 0 * deboor t y k (k + p) 0 a)) by (unfold n, k in *; lia). reflexivity.
Qed.
(** the polynomial of interval p is the spline on the closed interval *)
Lemma spline_closed (c : nat -> R) l p x : (p + 1 < List.length b)%nat -> nth p b 0 <= x <= nth (p + 1) b 0 -> (forall i, (i < n)%nat -> nth i l 0 = c i) ->
  spline t k c n x = spoly order t l p 0 x.
Proof.
  intros IL [X1 X2] Hl. destruct (Rlt_le_dec x (nth (p + 1) b 0)) as [LT|GE].
  - apply (spline_spoly b order t G Ho1 Ea c l p x); [|exact Hl]. split; [exact IL|]. split; [exact X1|left; exact LT].
  - assert (x = nth (p + 1) b 0) by lra. subst x. destruct (Nat.eq_dec (p + 2) (List.length b)) as [E|NE].
    + apply (spline_spoly b order t G Ho1 Ea c l p); [|exact Hl]. split; [exact IL|]. split; [exact X1|right; split; [exact E|reflexivity]].
    + rewrite (spline_spoly b order t G Ho1 Ea c l (p + 1)); [|split; [lia|split; [lra|left; apply (proj2 G); lia]]|exact Hl].
      rewrite <- (poly_sum c l (p + 1)), <- (poly_sum c l p) by (lia || assumption). apply Rsum_seq_ext. intros i Hi. f_equal. unfold bpoly. fold k.
      pose proof (knot_b b order t G Ho1 Ea p ltac:(lia)) as B0. pose proof (knot_b b order t G Ho1 Ea (p + 1) ltac:(lia)) as B1. pose proof (knot_b b order t G Ho1 Ea (p + 2) ltac:(lia)) as B2. fold k in B0, B1, B2.
      pose proof (proj2 G p ltac:(lia)) as S1. pose proof (proj2 G (p + 1)%nat ltac:(lia)) as S2. replace (p + 1 + 1)%nat with (p + 2)%nat in S2 by lia.
      pose proof (V_shift t (k + p) (k - 1)) as SH. replace (k + p + 1)%nat with (k + (p + 1))%nat in SH by lia. replace (k + p + 2)%nat with (k + (p + 2))%nat in SH by lia.
      rewrite B0, B1, B2 in SH. specialize (SH S1 S2 (Z.of_nat i - Z.of_nat p)%Z). replace (S (k - 1)) with k in SH by (unfold k; lia). rewrite SH.
      replace (S (k + p)) with (k + (p + 1))%nat by lia. f_equal. lia.
Qed.

(** K distinct zeros in every interval *)
Definition many_zeros (c : nat -> R) : Prop := forall p, (p + 1 < List.length b)%nat ->
  exists r : nat -> R, (forall i j, (i < order)%nat -> (j < order)%nat -> i <> j -> r i <> r j) /\
    forall i, (i < order)%nat -> nth p b 0 <= r i <= nth (p + 1) b 0 /\ spline t k c n (r i) = 0.

Lemma zero_coefficients c : many_zeros c -> forall j, (j < n)%nat -> c j = 0.
Proof.
  intros Z j Hj. pose proof (len_t b order t G Ho1 Ea) as L. pose proof (proj1 G) as LB.
  set (p := Nat.min j (List.length b - 2)). assert (IL : (p + 1 < List.length b)%nat) by (unfold p; lia).
  destruct (Z p IL) as (r & DI & RZ). set (l := map c (seq 0 n)).
  assert (Hl : forall i, (i < n)%nat -> nth i l 0 = c i) by (intros i Hi; apply map_seq_nth; exact Hi).
  set (x0 := nth p b 0).
  assert (S1 : x0 < nth (p + 1) b 0) by (apply (proj2 G); exact IL).
  assert (TE : forall x, x0 <= x -> spoly order t l p 0 x = fold_right Rplus 0 (map (fun m => spoly order t l p m x0 / INR (fact m) * (x - x0) ^ m) (seq 0 order))).
  { intros x Hx. rewrite (spoly_taylor b order t G Ho1 Ea l p x0 x IL Hx). replace (S (order - 1)) with order by lia. reflexivity. }
  assert (PZ : forall s, fold_right Rplus 0 (map (fun m => spoly order t l p m x0 / INR (fact m) * s ^ m) (seq 0 order)) = fold_right Rplus 0 (map (fun m => 0 * s ^ m) (seq 0 order))).
  { apply (two_polys order (fun m => spoly order t l p m x0 / INR (fact m)) (fun _ => 0) (fun i => r i - x0)).
    - intros i i' Hi Hi' NE E. apply (DI i i' Hi Hi' NE). lra.
    - intros i Hi. destruct (RZ i Hi) as [RI RE]. rewrite <- TE by apply RI. rewrite <- (spline_closed c l p (r i) IL RI Hl), RE.
      change (0 = Rsum (map (fun m => 0 * (r i - x0) ^ m) (seq 0 order))). rewrite (Rsum_seq_ext _ (fun _ => 0)); [rewrite Rsum_const0; reflexivity|]. intros; ring. }
  assert (FZ : forall x, x0 <= x -> spoly order t l p 0 x = 0).
  { intros x Hx. rewrite (TE x Hx), (PZ (x - x0)). change (Rsum (map (fun m => 0 * (x - x0) ^ m) (seq 0 order)) = 0). rewrite (Rsum_seq_ext _ (fun _ => 0)); [rewrite Rsum_const0; reflexivity|]. intros; ring. }
  set (xm := (x0 + nth (p + 1) b 0) / 2).
  assert (DZ : forall m, (m <= k)%nat -> spoly order t l p m xm = 0).
  { intros m Hm. pose proof (spoly_derive b order t G Ho1 Ea l p m xm IL Hm) as D.
    assert (D0 : is_derive_n (spoly order t l p 0) m xm 0).
    { apply (is_derive_n_ext_loc (fun _ => 0)).
      - assert (X : x0 < xm) by (unfold xm; lra). exists (mkposreal (xm - x0) ltac:(lra)). intros y Hy. symmetry. apply FZ.
        unfold ball in Hy. cbn in Hy. unfold AbsRing_ball, abs, minus, plus, opp in Hy. cbn in Hy. apply Rabs_lt_between in Hy. lra.
      - destruct m as [|m]; [reflexivity|]. apply (is_derive_n_const m). }
    rewrite <- (is_derive_n_unique _ _ _ _ D). apply is_derive_n_unique. exact D0. }
  pose proof (knot_b b order t G Ho1 Ea p ltac:(lia)) as B0. pose proof (knot_b b order t G Ho1 Ea (p + 1) ltac:(lia)) as B1. fold k in B0, B1.
  assert (LI : forall a, (a <= k)%nat -> nth (p + a) l 0 = 0).
  { apply (local_independent t xm (k + p) k).
    - apply (aug_mono b order t G Ho1 Ea).
    - lia.
    - unfold k; lia.
    - replace (k + p + 1)%nat with (k + (p + 1))%nat by lia. rewrite B0, B1. fold x0. unfold xm. lra.
    - replace (k + p + 1)%nat with (k + (p + 1))%nat by lia. rewrite B0, B1. exact S1.
    - unfold k; lia.
    - intros m Hm. apply (DZ m Hm). }
  specialize (LI (j - p)%nat ltac:(unfold p, n, k in *; lia)). replace (p + (j - p))%nat with j in LI by (unfold p; lia). rewrite Hl in LI by exact Hj. exact LI.
Qed.
End Aug.
