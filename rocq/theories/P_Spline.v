(** B-spline basis functions: partition of unity. *)
From Coq Require Import Reals List Arith ZArith String Bool Lia Lra Sorted.
From Verif Require Import M_Prelude M_ND Spec_Field M_Spectrum M_Spline P_Spectrum P_Spectrum2 P_Spectrum3.
Import ListNotations.
Open Scope R_scope.

Lemma Rsum_snoc (f : nat -> R) k : Rsum (map f (seq 0 (S k))) = Rsum (map f (seq 0 k)) + f k.
Proof. rewrite seq_S, map_app, Rsum_app. cbn [map]. rewrite Rsum_cons. cbn [Nat.add]. change (Rsum []) with 0. ring. Qed.
Lemma Rsum_seq_ext (f g : nat -> R) k : (forall i, (i < k)%nat -> f i = g i) -> Rsum (map f (seq 0 k)) = Rsum (map g (seq 0 k)).
Proof. intros H. apply Rsum_ext. intros i Hi. apply in_seq in Hi. apply H. lia. Qed.
Lemma Rsum_const0 {A} (l : list A) : Rsum (map (fun _ => 0) l) = 0.
Proof. induction l as [|x l IH]; [reflexivity|]. cbn [map]. rewrite Rsum_cons, IH. ring. Qed.
Lemma Rsum_plus {A} (f g : A -> R) l : Rsum (map (fun i => f i + g i) l) = Rsum (map f l) + Rsum (map g l).
Proof. induction l as [|x l IH]; [cbn; ring|]. cbn [map]. rewrite !Rsum_cons, IH. ring. Qed.
Lemma Rsum_swap {A B} (f : A -> B -> R) l l' :
  Rsum (map (fun a => Rsum (map (f a) l')) l) = Rsum (map (fun b => Rsum (map (fun a => f a b) l)) l').
Proof.
  induction l as [|x l IH].
  - cbn [map]. change (Rsum []) with 0. symmetry. apply Rsum_const0.
  - cbn [map]. rewrite Rsum_cons, IH. symmetry. rewrite <- Rsum_plus. apply Rsum_ext. intros b _. rewrite Rsum_cons. reflexivity.
Qed.
Lemma Rsum_single (f : nat -> R) k i : (i < k)%nat -> Rsum (map (fun n => (if (n =? i)%nat then 1 else 0) * f n) (seq 0 k)) = f i.
Proof.
  induction k as [|k IH]; intros H; [lia|]. rewrite Rsum_snoc. destruct (Nat.eqb_spec k i) as [ -> |N].
  - rewrite (Rsum_seq_ext _ (fun _ => 0)); [rewrite Rsum_const0; ring|]. intros n Hn. destruct (Nat.eqb_spec n i); [lia|ring].
  - rewrite IH by lia. ring.
Qed.

Section DeBoor.
Variables (t : list R) (x : R) (ell : nat).

Definition sweep_body (j : nat) (hh h : nat -> R) (n : nat) : nat -> R :=
  let xb := knot t (ell + n) in
  let xa := knot t (ell + n - j) in
  if Req_EM_T xb xa then upd h n 0 else
  let w := hh (n - 1)%nat / (xb - xa) in
  upd (upd h (n - 1) (h (n - 1)%nat + w * (xb - x))) n (w * (x - xa)).
Definition dsweep_body (j : nat) (hh h : nat -> R) (n : nat) : nat -> R :=
  let xb := knot t (ell + n) in
  let xa := knot t (ell + n - j) in
  if Req_EM_T xb xa then upd h n 0 else
  let w := INR j * hh (n - 1)%nat / (xb - xa) in
  upd (upd h (n - 1) (h (n - 1)%nat - w)) n w.

Lemma sum_upd2 (h : nat -> R) p u v :
  Rsum (map (upd (upd h p u) (S p) v) (seq 0 (S (S p)))) = Rsum (map h (seq 0 p)) + u + v.
Proof.
  rewrite Rsum_snoc, Rsum_snoc.
  replace (upd (upd h p u) (S p) v p) with u.
  2:{ unfold upd. destruct (Nat.eqb_spec p (S p)); [lia|]. rewrite Nat.eqb_refl. reflexivity. }
  replace (upd (upd h p u) (S p) v (S p)) with v by (unfold upd; rewrite Nat.eqb_refl; reflexivity).
  f_equal. f_equal.
  apply Rsum_seq_ext. intros i Hi. unfold upd. destruct (Nat.eqb_spec i (S p)); [lia|]. destruct (Nat.eqb_spec i p); [lia|]. reflexivity.
Qed.

Lemma sweep_inv j hh : (forall n, (1 <= n <= j)%nat -> knot t (ell + n) <> knot t (ell + n - j)) -> forall p, (p <= j)%nat ->
  Rsum (map (fold_left (sweep_body j hh) (seq 1 p) (upd hh 0 0)) (seq 0 (S p))) = Rsum (map hh (seq 0 p)).
Proof.
  intros K. induction p as [|p IH]; intros Hp; [cbn; unfold upd; cbn; ring|].
  rewrite seq_S, fold_left_app. cbn [fold_left]. specialize (IH ltac:(lia)). set (h := fold_left _ _ _) in *.
  unfold sweep_body. destruct (Req_EM_T _ _) as [E|E]; [exfalso; revert E; apply K; lia|].
  replace (1 + p - 1)%nat with p by lia. replace (1 + p)%nat with (S p) in * by lia.
  rewrite sum_upd2, (Rsum_snoc hh), <- IH, Rsum_snoc. field. lra.
Qed.
Lemma dsweep_inv j hh : (forall n, (1 <= n <= j)%nat -> knot t (ell + n) <> knot t (ell + n - j)) -> forall p, (p <= j)%nat ->
  Rsum (map (fold_left (dsweep_body j hh) (seq 1 p) (upd hh 0 0)) (seq 0 (S p))) = 0.
Proof.
  intros K. induction p as [|p IH]; intros Hp; [cbn; unfold upd; cbn; ring|].
  rewrite seq_S, fold_left_app. cbn [fold_left]. specialize (IH ltac:(lia)). set (h := fold_left _ _ _) in *.
  unfold dsweep_body. destruct (Req_EM_T _ _) as [E|E]; [exfalso; revert E; apply K; lia|].
  replace (1 + p - 1)%nat with p by lia. replace (1 + p)%nat with (S p) in * by lia.
  rewrite sum_upd2. rewrite Rsum_snoc in IH. lra.
Qed.
Lemma sweep_nonneg j hh : (forall n, (1 <= n <= j)%nat -> knot t (ell + n - j) <= x <= knot t (ell + n)) ->
  (forall i, (i < j)%nat -> 0 <= hh i) -> forall p, (p <= j)%nat -> forall i, (i <= p)%nat ->
  0 <= fold_left (sweep_body j hh) (seq 1 p) (upd hh 0 0) i.
Proof.
  intros K HH. induction p as [|p IH]; intros Hp i Hi.
  - cbn. replace i with 0%nat by lia. unfold upd. cbn. lra.
  - rewrite seq_S, fold_left_app. cbn [fold_left]. specialize (IH ltac:(lia)). set (h := fold_left _ _ _) in *.
    unfold sweep_body. replace (1 + p - 1)%nat with p by lia. specialize (K (1 + p)%nat ltac:(lia)).
    destruct (Req_EM_T _ _) as [E|E].
    + unfold upd. destruct (Nat.eqb_spec i (1 + p)); [lra|]. apply IH. lia.
    + assert (W : 0 <= hh p / (knot t (ell + (1 + p)) - knot t (ell + (1 + p) - j))).
      { unfold Rdiv. apply Rmult_le_pos; [apply HH; lia|]. left. apply Rinv_0_lt_compat. lra. }
      unfold upd. destruct (Nat.eqb_spec i (1 + p)); [apply Rmult_le_pos; [exact W|lra]|].
      destruct (Nat.eqb_spec i p); [|apply IH; lia].
      apply Rplus_le_le_0_compat; [apply IH; lia|]. apply Rmult_le_pos; [exact W|lra].
Qed.

Hypothesis mono : forall i j, (i <= j < List.length t)%nat -> knot t i <= knot t j.
Variable k : nat.
Hypothesis Hell : (k <= ell)%nat.
Hypothesis Hlen : (ell + k < List.length t)%nat.
Hypothesis Hin : knot t ell <= x <= knot t (ell + 1).
Hypothesis Hne : knot t ell < knot t (ell + 1).
Hypothesis Hlen1 : (ell + 1 < List.length t)%nat.

Lemma sep j n : (1 <= n <= j)%nat -> (j <= k)%nat -> knot t (ell + n - j) <= knot t ell /\ knot t (ell + 1) <= knot t (ell + n).
Proof. intros H1 H2. split; apply mono; lia. Qed.

Lemma values_inv : forall j, (j <= k)%nat ->
  let h := fold_left (fun h j => deboor_sweep t x ell j h) (seq 1 j) (fun _ => 1) in
  Rsum (map h (seq 0 (S j))) = 1 /\ forall i, (i <= j)%nat -> 0 <= h i.
Proof.
  induction j as [|j IH]; intros Hj; cbv zeta.
  - cbn. split; [ring|]. intros; lra.
  - rewrite seq_S, fold_left_app. cbn [fold_left]. specialize (IH ltac:(lia)). cbv zeta in IH. set (h := fold_left _ _ _) in *.
    destruct IH as [S1 S2].
    change (deboor_sweep t x ell (1 + j) h) with (fold_left (sweep_body (1 + j) h) (seq 1 (1 + j)) (upd h 0 0)).
    split.
    + change (S (S j)) with (S (1 + j)). rewrite sweep_inv; [exact S1| |lia].
      intros n Hn E. pose proof (sep (1 + j) n Hn ltac:(lia)). lra.
    + intros i Hi. apply sweep_nonneg; [| |lia|exact Hi].
      * intros n Hn. pose proof (sep (1 + j) n Hn ltac:(lia)). lra.
      * intros i' Hi'. apply S2. lia.
Qed.

Lemma deboor_sum : Rsum (map (deboor t x k ell 0) (seq 0 (S k))) = 1 /\ forall i, (i <= k)%nat -> 0 <= deboor t x k ell 0 i.
Proof. unfold deboor. cbn [seq fold_left]. rewrite Nat.sub_0_r. apply values_inv. lia. Qed.

Lemma deboor_dsum m : (1 <= m <= k)%nat -> Rsum (map (deboor t x k ell m) (seq 0 (S k))) = 0.
Proof.
  intros Hm. unfold deboor. destruct m as [|m]; [lia|]. rewrite seq_S, fold_left_app. cbn [fold_left].
  replace (k - S m + 1 + m)%nat with k by lia. set (h := fold_left _ _ _).
  change (deboor_dsweep t ell k h) with (fold_left (dsweep_body k h) (seq 1 k) (upd h 0 0)).
  apply dsweep_inv; [|lia]. intros n Hn E. pose proof (sep k n Hn ltac:(lia)). lra.
Qed.
End DeBoor.

Lemma find_interval_spec t n x : forall fuel ell, (ell <= n - 1)%nat -> (n - ell <= fuel)%nat -> (1 <= n)%nat -> knot t ell <= x ->
  let e := find_interval fuel t n x ell in
  (ell <= e <= n - 1)%nat /\ knot t e <= x /\ (x < knot t (e + 1) \/ e = (n - 1)%nat).
Proof.
  induction fuel as [|fuel IH]; intros ell H1 H2 Hn H3; cbv zeta; [lia|]. cbn [find_interval].
  destruct (Rle_dec (knot t (ell + 1)) x) as [L|L]; [|split; [lia|split; [exact H3|left; lra]]].
  destruct (Nat.eqb_spec ell (n - 1)); [split; [lia|split; [exact H3|right; assumption]]|].
  destruct (IH (ell + 1)%nat ltac:(lia) ltac:(lia) Hn L) as (Q1 & Q2 & Q3). split; [lia|]. split; assumption.
Qed.

Lemma fold_out (f : nat -> R) l : forall o, fold_left (fun out a => out + f a) l o = o + Rsum (map f l).
Proof. induction l as [|a l IH]; intros o; [cbn; ring|]. cbn [fold_left map]. rewrite IH, Rsum_cons. ring. Qed.

Lemma nth_unit n i k : (k < n)%nat -> nth k (unit_vec n i) 0 = if (k =? i)%nat then 1 else 0.
Proof.
  intros H. unfold unit_vec. rewrite (nth_indep _ 0 ((fun k => if (k =? i)%nat then 1 else 0) 0%nat)) by (rewrite map_length, seq_length; exact H).
  rewrite (map_nth (fun k => if (k =? i)%nat then 1 else 0)), seq_nth by exact H. reflexivity.
Qed.

(** Good knots: sorted, at least [order] basis functions, last interval not empty. *)
Definition good_knots (t : list R) (order : nat) : Prop :=
  (1 <= order)%nat /\ (2 * order <= List.length t)%nat /\
  (forall i j, (i <= j < List.length t)%nat -> knot t i <= knot t j) /\
  knot t (List.length t - order - 1) < knot t (List.length t - order).

Lemma basis_row t order x m : good_knots t order -> (m < order)%nat ->
  knot t (order - 1) <= x <= knot t (List.length t - order) ->
  exists row, (forall n, (n < List.length t - order)%nat ->
      bspline_eval t (unit_vec (List.length t - order) n) (order - 1) x m = Some (row n)) /\
    Rsum (map row (seq 0 (List.length t - order))) = (if (m =? 0)%nat then 1 else 0) /\
    (m = 0%nat -> forall n, (n < List.length t - order)%nat -> 0 <= row n) /\
    exists ell, (order - 1 <= ell < List.length t - order)%nat /\ knot t ell <= x <= knot t (ell + 1) /\
      forall n, (n < List.length t - order)%nat -> (n + (order - 1) < ell \/ ell < n)%nat -> row n = 0.
Proof.
  intros (H1 & H2 & H3 & H4) Hm Hx. set (N := (List.length t - order)%nat) in *. set (k := (order - 1)%nat) in *.
  assert (EN : (List.length t - k - 1)%nat = N) by lia.
  destruct (find_interval_spec t N x (List.length t) k ltac:(lia) ltac:(lia) ltac:(lia) (proj1 Hx)) as (Q1 & Q2 & Q3).
  set (ell := find_interval _ _ _ _ _) in *.
  assert (Hin : knot t ell <= x <= knot t (ell + 1) /\ knot t ell < knot t (ell + 1)).
  { destruct Q3 as [Q3|Q3]; [lra|]. rewrite Q3. replace (N - 1 + 1)%nat with N by lia. rewrite Q3 in Q2. lra. }
  destruct Hin as [Hin Hne].
  set (h := deboor t x k ell m).
  exists (fun n => Rsum (map (fun a => (if (ell + a - k =? n)%nat then 1 else 0) * h a) (seq 0 (k + 1)))). split; [|split; [|split]].
  - intros n Hn. unfold bspline_eval. rewrite EN. destruct (Rlt_dec x (knot t k)); [lra|]. destruct (Rlt_dec (knot t N) x); [lra|].
    fold ell. fold h. rewrite (fold_out (fun a => nth (ell + a - k) (unit_vec N n) 0 * h a)). f_equal. rewrite Rplus_0_l.
    apply Rsum_seq_ext. intros a Ha. rewrite nth_unit by lia. reflexivity.
  - rewrite (Rsum_swap (fun n a => (if (ell + a - k =? n)%nat then 1 else 0) * h a)).
    transitivity (Rsum (map h (seq 0 (k + 1)))).
    + apply Rsum_seq_ext. intros a Ha. rewrite (Rsum_seq_ext _ (fun n => (if (n =? ell + a - k)%nat then 1 else 0) * h a)).
      * apply (Rsum_single (fun _ => h a)). lia.
      * intros n _. rewrite Nat.eqb_sym. reflexivity.
    + rewrite Nat.add_1_r. destruct (Nat.eqb_spec m 0) as [Z|Z].
      * unfold h. rewrite Z. apply deboor_sum; try assumption; lia.
      * unfold h. apply deboor_dsum; try assumption; lia.
  - intros Z n Hn. apply Rsum_nonneg. intros y Hy. apply in_map_iff in Hy. destruct Hy as (a & <- & Ha). apply in_seq in Ha.
    assert (0 <= h a). { unfold h. rewrite Z. apply deboor_sum; try assumption; lia. }
    destruct (_ =? _)%nat; lra.
  - exists ell. split; [lia|]. split; [exact Hin|]. intros n Hn Ho.
    rewrite (Rsum_seq_ext _ (fun _ => 0)); [apply Rsum_const0|]. intros a Ha.
    destruct (Nat.eqb_spec (ell + a - k) n); [lia|ring].
Qed.

(** ** Knots from augment_breaks *)
Lemma aug_knot b order t : (1 <= order)%nat -> (2 <= List.length b)%nat -> augment_breaks b (Z.of_nat order) = Ok t ->
  List.length t = (List.length b + 2 * order - 2)%nat /\
  forall i, knot t i = if (i <? order - 1)%nat then nth 0 b 0 else
    if (i <? order - 1 + List.length b)%nat then nth (i - (order - 1)) b 0
    else if (i <? List.length t)%nat then nth (List.length b - 1) b 0 else 0.
Proof.
  intros Ho Hb E. destruct b as [|b0 b]; [cbn in Hb; lia|]. unfold augment_breaks in E.
  assert (E' : repeat b0 (Z.to_nat (Z.of_nat order - 1)) ++ (b0 :: b) ++ repeat (last (b0 :: b) b0) (Z.to_nat (Z.of_nat order - 1)) = t) by congruence.
  subst t. clear E.
  replace (Z.to_nat (Z.of_nat order - 1)) with (order - 1)%nat by lia. set (k := (order - 1)%nat).
  assert (LL : last (b0 :: b) b0 = nth (List.length (b0 :: b) - 1) (b0 :: b) 0).
  { clear. generalize b0 at 2 as d. revert b0. induction b as [|b1 b IH]; intros b0 d; [reflexivity|].
    change (last (b1 :: b) d = nth (List.length (b0 :: b1 :: b) - 1) (b0 :: b1 :: b) 0). rewrite IH. cbn. rewrite Nat.sub_0_r. reflexivity. }
  rewrite LL. set (B := b0 :: b) in *. set (e := nth (List.length B - 1) B 0).
  assert (L : List.length (repeat b0 k ++ B ++ repeat e k) = (List.length B + 2 * order - 2)%nat) by (rewrite !app_length, !repeat_length; lia).
  split; [exact L|]. intros i. rewrite L. unfold knot.
  assert (RN : forall (c d : R) m i, (i < m)%nat -> nth i (repeat c m) d = c).
  { intros c d m. induction m as [|m IH]; intros i0 Hi; [lia|]. destruct i0; [reflexivity|]. cbn. apply IH. lia. }
  destruct (Nat.ltb_spec i k) as [C|C].
  - rewrite app_nth1 by (rewrite repeat_length; exact C). rewrite RN by exact C. reflexivity.
  - rewrite app_nth2 by (rewrite repeat_length; exact C). rewrite repeat_length.
    destruct (Nat.ltb_spec i (k + List.length B)) as [D|D].
    + rewrite app_nth1 by lia. reflexivity.
    + rewrite app_nth2 by lia. destruct (Nat.ltb_spec i (List.length B + 2 * order - 2)) as [F|F].
      * rewrite RN by lia. reflexivity.
      * apply nth_overflow. rewrite repeat_length. lia.
Qed.

Lemma sorted_nth b : StronglySorted Rlt b -> forall i j, (i < j < List.length b)%nat -> nth i b 0 < nth j b 0.
Proof.
  induction b as [|x b IH]; intros S i j H; [cbn in H; lia|]. inversion S as [|? ? S1 S2]; subst. cbn in H.
  destruct j as [|j]; [lia|]. destruct i as [|i].
  - cbn. rewrite Forall_forall in S2. apply S2, nth_In. lia.
  - cbn. apply IH; [exact S1|lia].
Qed.

Lemma aug_good b order t : (1 <= order)%nat -> (2 <= List.length b)%nat -> StronglySorted Rlt b ->
  augment_breaks b (Z.of_nat order) = Ok t ->
  good_knots t order /\ List.length t = (List.length b + 2 * order - 2)%nat /\
  knot t (order - 1) = hd 0 b /\ knot t (List.length t - order) = last b 0.
Proof.
  intros Ho Hb S E. destruct (aug_knot _ _ _ Ho Hb E) as [L K]. pose proof (sorted_nth b S) as M.
  assert (M' : forall i j, (i <= j < List.length b)%nat -> nth i b 0 <= nth j b 0).
  { intros i j H. destruct (Nat.eq_dec i j) as [ -> |N]; [lra|]. left. apply M. lia. }
  assert (K1 : knot t (order - 1) = hd 0 b).
  { rewrite K. destruct (Nat.ltb_spec (order - 1) (order - 1)); [lia|]. destruct (Nat.ltb_spec (order - 1) (order - 1 + List.length b)); [|lia].
    rewrite Nat.sub_diag. destruct b; reflexivity. }
  assert (LL : forall (c : list R), c <> [] -> last c 0 = nth (List.length c - 1) c 0).
  { induction c as [|y c IH]; intros Hc; [contradiction|]. destruct c as [|z c]; [reflexivity|].
    change (last (z :: c) 0 = nth (List.length (y :: z :: c) - 1) (y :: z :: c) 0). rewrite IH by discriminate. cbn. rewrite Nat.sub_0_r. reflexivity. }
  assert (K2 : knot t (List.length t - order) = last b 0).
  { rewrite K, LL by (intros ->; cbn in Hb; lia). destruct (Nat.ltb_spec (List.length t - order) (order - 1)); [lia|].
    destruct (Nat.ltb_spec (List.length t - order) (order - 1 + List.length b)); [|lia]. f_equal. lia. }
  split; [|split; [exact L|split; assumption]]. split; [exact Ho|]. split; [lia|]. split.
  - intros i j Hij. rewrite !K.
    destruct (Nat.ltb_spec i (order - 1)), (Nat.ltb_spec j (order - 1)); try lia; try lra.
    + destruct (Nat.ltb_spec j (order - 1 + List.length b)); [apply M'; lia|]. destruct (Nat.ltb_spec j (List.length t)); [apply M'; lia|lia].
    + destruct (Nat.ltb_spec i (order - 1 + List.length b)), (Nat.ltb_spec j (order - 1 + List.length b)); try lia; [apply M'; lia| |].
      * destruct (Nat.ltb_spec j (List.length t)); [apply M'; lia|lia].
      * destruct (Nat.ltb_spec i (List.length t)); [|lia]. destruct (Nat.ltb_spec j (List.length t)); [lra|lia].
  - rewrite !K. destruct (Nat.ltb_spec (List.length t - order - 1) (order - 1)); [lia|].
    destruct (Nat.ltb_spec (List.length t - order - 1) (order - 1 + List.length b)); [|lia].
    destruct (Nat.ltb_spec (List.length t - order) (order - 1)); [lia|].
    destruct (Nat.ltb_spec (List.length t - order) (order - 1 + List.length b)); [|lia]. apply M. lia.
Qed.

(** ** C74 *)
Lemma C74_inside b order t x deriv M i : StronglySorted Rlt b -> (2 <= List.length b)%nat -> (1 <= order)%nat ->
  augment_breaks b (Z.of_nat order) = Ok t -> colloc_matrix x t order deriv = Ok M ->
  let nu := match deriv with None => 0%nat | Some d => d end in
  (i < List.length x)%nat -> hd 0 b <= nth i x 0 <= last b 0 ->
  o_rows M = List.length x /\ o_cols M = (List.length b + order - 2)%nat /\
  exists row, (forall n, (n < o_cols M)%nat -> o_at M i n = Some (row n)) /\
    Rsum (map row (seq 0 (o_cols M))) = (if (nu =? 0)%nat then 1 else 0) /\
    (nu = 0%nat -> forall n, (n < o_cols M)%nat -> 0 <= row n) /\
    exists first, forall n, (n < o_cols M)%nat -> (n < first \/ first + order <= n)%nat -> row n = 0.
Proof.
  intros S Hb Ho Ea E nu Hi Hx. destruct (aug_good b order t Ho Hb S Ea) as (Gk & L & K1 & K2).
  unfold colloc_matrix in E. fold nu in E. destruct (Nat.ltb_spec (List.length t) order); [discriminate|].
  destruct (Nat.leb_spec order nu) as [C|C].
  - injection E as <-. cbn [o_rows o_cols o_at]. split; [lia|]. split; [lia|]. exists (fun _ => 0).
    split; [reflexivity|]. destruct (Nat.eqb_spec nu 0); [lia|]. split; [apply Rsum_const0|]. split; [lia|].
    exists 0%nat. reflexivity.
  - destruct (_ && _)%bool eqn:Q; [discriminate|]. injection E as <-. cbn [o_rows o_cols o_at]. split; [lia|]. split; [lia|].
    rewrite <- K1, <- K2 in Hx. destruct (basis_row t order (nth i x 0) nu Gk C Hx) as (row & R1 & R2 & R3 & ell & R4 & R5 & R6).
    exists row. split; [exact R1|]. split; [exact R2|]. split; [exact R3|].
    exists (ell - (order - 1))%nat. intros n Hn Ho'. apply R6; [exact Hn|]. lia.
Qed.

Lemma C74_outside b order t x deriv M i n : StronglySorted Rlt b -> (2 <= List.length b)%nat -> (1 <= order)%nat ->
  augment_breaks b (Z.of_nat order) = Ok t -> colloc_matrix x t order deriv = Ok M ->
  let nu := match deriv with None => 0%nat | Some d => d end in
  nth i x 0 < hd 0 b \/ last b 0 < nth i x 0 -> 
  ((nu < order)%nat -> o_at M i n = None) /\ ((order <= nu)%nat -> o_at M i n = Some 0).
Proof.
  intros S Hb Ho Ea E nu Hx. destruct (aug_good b order t Ho Hb S Ea) as (Gk & L & K1 & K2).
  unfold colloc_matrix in E. fold nu in E. destruct (Nat.ltb_spec (List.length t) order); [discriminate|].
  destruct (Nat.leb_spec order nu) as [C|C].
  - injection E as <-. split; [lia|reflexivity].
  - destruct (_ && _)%bool eqn:Q; [discriminate|]. injection E as <-. split; [intros _|lia]. cbn [o_at]. unfold bspline_eval.
    replace (List.length t - (order - 1) - 1)%nat with (List.length t - order)%nat by lia. rewrite K1, K2.
    destruct (Rlt_dec (nth i x 0) (hd 0 b)); [reflexivity|]. destruct (Rlt_dec (last b 0) (nth i x 0)); [reflexivity|]. lra.
Qed.

Lemma C74_ok b order t x deriv : (2 <= List.length b)%nat -> (1 <= order)%nat -> x <> [] ->
  augment_breaks b (Z.of_nat order) = Ok t -> exists M, colloc_matrix x t order deriv = Ok M.
Proof.
  intros Hb Ho Hx E. destruct (aug_knot _ _ _ Ho Hb E) as [L _]. unfold colloc_matrix.
  destruct (Nat.ltb_spec (List.length t) order); [lia|]. destruct (_ <=? _)%nat; [eexists; reflexivity|].
  destruct x as [|y x]; [contradiction|]. cbn [List.length Nat.eqb andb]. eexists; reflexivity.
Qed.
