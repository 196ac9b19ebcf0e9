(** Piecewise polynomials with continuous derivatives are splines. *)
From Coq Require Import Reals List Arith ZArith String Bool Lia Lra.
From Coquelicot Require Import Coquelicot.
From Verif Require Import M_Prelude M_ND Spec_Field Spec_Spline Spec_PP Spec_Smooth M_Spectrum M_Spline M_PP M_FromSpline
  P_Spectrum P_Spline P_Spline2 P_Spline3 P_Spline4 P_Spline5 P_PP P_PP2 P_SHCModel2.
Import ListNotations.
Open Scope R_scope.

(** polynomials of degree at most j, as functions *)
Fixpoint isP (j : nat) (g : R -> R) : Prop :=
  match j with
  | O => exists c, forall y, g y = c
  | S j => exists g', (forall y, is_derive g y (g' y)) /\ isP j g'
  end.
Lemma isP_const j : forall c, isP j (fun _ => c).
Proof.
  induction j as [|j IH]; intros c; cbn [isP]; [exists c; reflexivity|]. exists (fun _ => 0). split; [|apply IH].
  intros y. apply (is_derive_const (K := R_AbsRing) (V := R_NormedModule)).
Qed.
Lemma isP_ext j : forall g h, (forall y, g y = h y) -> isP j g -> isP j h.
Proof.
  destruct j as [|j]; intros g h E H; cbn [isP] in *.
  - destruct H as [c H]. exists c. intros y. rewrite <- E. apply H.
  - destruct H as (g' & D & H). exists g'. split; [|exact H]. intros y. apply (is_derive_ext g); [exact E|apply D].
Qed.
Lemma isP_plus j : forall g h, isP j g -> isP j h -> isP j (fun y => g y + h y).
Proof.
  induction j as [|j IH]; intros g h H1 H2; cbn [isP] in *.
  - destruct H1 as [c H1], H2 as [d H2]. exists (c + d). intros y. rewrite H1, H2. reflexivity.
  - destruct H1 as (g' & D1 & P1), H2 as (h' & D2 & P2). exists (fun y => g' y + h' y). split; [|apply IH; assumption].
    intros y. apply (is_derive_plus (K := R_AbsRing) (V := R_NormedModule)); [apply D1|apply D2].
Qed.
Lemma isP_scal j : forall g a, isP j g -> isP j (fun y => a * g y).
Proof.
  induction j as [|j IH]; intros g a H1; cbn [isP] in *.
  - destruct H1 as [c H1]. exists (a * c). intros y. rewrite H1. reflexivity.
  - destruct H1 as (g' & D1 & P1). exists (fun y => a * g' y). split; [|apply IH; assumption]. intros y. apply is_derive_scal. apply D1.
Qed.
Lemma isP_up j : forall g, isP j g -> isP (S j) g.
Proof.
  induction j as [|j IH]; intros g H.
  - destruct H as [c H]. apply (isP_ext 1 (fun _ => c)); [intros y; symmetry; apply H|]. apply isP_const.
  - destruct H as (g' & D & P). exists g'. split; [exact D|]. apply IH. exact P.
Qed.
Lemma isP_pow x0 : forall m, isP m (fun y => (y - x0) ^ m).
Proof.
  induction m as [|m IH]; [exists 1; reflexivity|]. exists (fun y => INR (S m) * (y - x0) ^ m). split; [|apply isP_scal; exact IH].
  intros y. auto_derive; [exact I|]. change (match m with 0%nat => 1 | S _ => INR m + 1 end) with (INR (S m)). unfold Rminus. ring.
Qed.
Lemma isP_le j m g : (m <= j)%nat -> isP m g -> isP j g.
Proof. intros H P. induction H as [|j H IH]; [exact P|]. apply isP_up. exact IH. Qed.
Lemma isP_piece x K c i d : (1 <= K)%nat -> isP (K - 1) (piece x K c i d).
Proof.
  intros HK. unfold piece. assert (A : forall m, (m <= K)%nat -> isP (K - 1) (fun t => fold_right Rplus 0 (map (fun k => c (K - 1 - k)%nat i d * (t - nth i x 0) ^ k) (seq 0 m)))).
  { induction m as [|m IH]; intros Hm; [exact (isP_const (K - 1) 0)|].
    apply (isP_ext _ (fun t => fold_right Rplus 0 (map (fun k => c (K - 1 - k)%nat i d * (t - nth i x 0) ^ k) (seq 0 m)) + c (K - 1 - m)%nat i d * (t - nth i x 0) ^ m)).
    - intros y. symmetry. apply (P_Spline.Rsum_snoc (fun k => c (K - 1 - k)%nat i d * (y - nth i x 0) ^ k)).
    - apply isP_plus; [apply IH; lia|]. apply isP_scal. apply (isP_le _ m); [lia|apply isP_pow]. }
  apply A. lia.
Qed.
Lemma const_of_derive (f : R -> R) : (forall y, is_derive f y 0) -> forall y z, f y = f z.
Proof.
  intros H y z. destruct (Rtotal_order y z) as [L|[ -> |L]]; [|reflexivity|symmetry]; apply (eq_is_derive (V := R_NormedModule) f); try exact L; intros t _; apply H.
Qed.

Section Local.
Variables (t : list R) (ell : nat).
Definition L (j : nat) (c : nat -> R) (y : R) : R := Rsum (map (fun a => c a * V t ell j (Z.of_nat a) y) (seq 0 (S j))).
Lemma L_ext j c c' y : (forall a, (a <= j)%nat -> c a = c' a) -> L j c y = L j c' y.
Proof. intros H. apply Rsum_seq_ext. intros a Ha. rewrite H by lia. reflexivity. Qed.

Variable k : nat.
Hypothesis sep : forall j n, (1 <= n <= j)%nat -> (j <= k)%nat -> knot t (ell + n - j) < knot t (ell + n).
Hypothesis Hell : (k <= ell)%nat.


Lemma L_derive j c y : (S j <= k)%nat -> is_derive (L (S j) c) y (L j (grad t ell (S j) c) y).
Proof.
  intros Hj. unfold L.
  assert (D : is_derive (fun y => Rsum (map (fun a => c a * V t ell (S j) (Z.of_nat a) y) (seq 0 (S (S j))))) y
      (Rsum (map (fun a => c a * DV t ell (S j) (fun z => V t ell j z y) (Z.of_nat a)) (seq 0 (S (S j)))))).
  { induction (seq 0 (S (S j))) as [|a l IH]; [exact (is_derive_const (K := R_AbsRing) (V := R_NormedModule) 0 y)|]. cbn [map].
    apply (is_derive_ext (fun y => c a * V t ell (S j) (Z.of_nat a) y + Rsum (map (fun a => c a * V t ell (S j) (Z.of_nat a) y) l))); [intros; rewrite Rsum_cons; reflexivity|].
    rewrite Rsum_cons. apply (is_derive_plus (K := R_AbsRing) (V := R_NormedModule)); [|exact IH]. apply is_derive_scal. apply (V_derive t ell k sep Hell j Hj). }
  match type of D with is_derive _ _ ?v => replace v with (Rsum (map (fun a => grad t ell (S j) c a * V t ell j (Z.of_nat a) y) (seq 0 (S j)))) in D; [exact D|] end.
  symmetry. unfold DV.
  (* summation by parts *)
  set (w := fun n => INR (S j) / (knot t (ell + S n) - knot t (ell + S n - S j)) * V t ell j (Z.of_nat n) y).
  assert (W : forall p, (p <= S j)%nat -> Rsum (map (fun a => c a * (INR (S j) * (V t ell j (Z.of_nat a - 1) y / (T t ell (Z.of_nat a) - T t ell (Z.of_nat a - Z.of_nat (S j))) -
       V t ell j (Z.of_nat a) y / (T t ell (Z.of_nat a + 1) - T t ell (Z.of_nat a + 1 - Z.of_nat (S j)))))) (seq 0 (S p))) =
     Rsum (map (fun a => grad t ell (S j) c a * V t ell j (Z.of_nat a) y) (seq 0 p)) - c p * w p).
  { assert (TT : forall a, c a * (INR (S j) * (V t ell j (Z.of_nat a) y / (T t ell (Z.of_nat a + 1) - T t ell (Z.of_nat a + 1 - Z.of_nat (S j))))) = c a * w a).
    { intros a. unfold w, T. replace (Z.to_nat (Z.of_nat ell + (Z.of_nat a + 1))) with (ell + S a)%nat by lia.
      replace (Z.to_nat (Z.of_nat ell + (Z.of_nat a + 1 - Z.of_nat (S j)))) with (ell + S a - S j)%nat by lia. unfold Rdiv. ring. }
    induction p as [|p IH]; intros Hp.
    - rewrite P_Spline.Rsum_snoc. cbn [seq map]. change (Rsum []) with 0. rewrite Rmult_minus_distr_l, Rmult_minus_distr_l, TT. rewrite (V_out t ell j) by lia. unfold Rdiv. ring.
    - rewrite P_Spline.Rsum_snoc, IH by lia. rewrite (P_Spline.Rsum_snoc (fun a => grad t ell (S j) c a * V t ell j (Z.of_nat a) y)).
      rewrite Rmult_minus_distr_l, Rmult_minus_distr_l, TT. unfold w at 1 , grad. unfold T.
      replace (Z.to_nat (Z.of_nat ell + Z.of_nat (S p))) with (ell + S p)%nat by lia.
      replace (Z.to_nat (Z.of_nat ell + (Z.of_nat (S p) - Z.of_nat (S j)))) with (ell + S p - S j)%nat by lia.
      replace (Z.of_nat (S p) - 1)%Z with (Z.of_nat p) by lia. unfold Rdiv. ring. }
  rewrite (W (S j) (le_n _)). unfold w. rewrite (V_out t ell j (Z.of_nat (S j))) by lia. ring.
Qed.

Lemma V_vals j y a : (j <= k)%nat -> (a <= j)%nat -> V t ell j (Z.of_nat a) y = vals t y ell j a.
Proof.
  intros Hj Ha. destruct (deboor_same t ell j (fun j' n H1 H2 => sep j' n H1 ltac:(lia)) ltac:(lia) y 0 ltac:(lia)) as [E _].
  specialize (E a Ha). cbn [DD] in E. rewrite Nat.sub_0_r in E. rewrite <- E. unfold deboor. cbn [seq fold_left]. rewrite Nat.sub_0_r. reflexivity.
Qed.
Lemma vals_sum j y : (j <= k)%nat -> Rsum (map (vals t y ell j) (seq 0 (S j))) = 1.
Proof.
  induction j as [|j IH]; intros Hj; [unfold vals; cbn; ring|]. specialize (IH ltac:(lia)). unfold vals in *. rewrite seq_S, fold_left_app. cbn [fold_left]. set (h := fold_left _ _ _) in *.
  change (deboor_sweep t y ell (1 + j) h) with (fold_left (sweep_body t y ell (1 + j) h) (seq 1 (1 + j)) (upd h 0 0)).
  change (S (S j)) with (S (1 + j)). rewrite sweep_inv; [exact IH| |lia]. intros n Hn E. pose proof (sep (1 + j) n Hn ltac:(lia)). lra.
Qed.
Lemma L_sum j y : (j <= k)%nat -> L j (fun _ => 1) y = 1.
Proof.
  intros Hj. transitivity (Rsum (map (vals t y ell j) (seq 0 (S j)))); [|apply vals_sum; exact Hj]. unfold L. apply Rsum_seq_ext. intros a Ha. rewrite V_vals by lia. ring.
Qed.
Lemma L_scal j c e y : L j (fun a => c a + e) y = L j c y + e * L j (fun _ => 1) y.
Proof. unfold L. induction (seq 0 (S j)) as [|a l IH]; [cbn; ring|]. cbn [map]. rewrite !Rsum_cons, IH. ring. Qed.

Lemma wne j n : (n <= j)%nat -> (S j <= k)%nat -> knot t (ell + S n) - knot t (ell + S n - S j) <> 0.
Proof. intros H1 H2. pose proof (sep (S j) (S n) ltac:(lia) H2). lra. Qed.

(** every polynomial *)
Lemma local_span j : (j <= k)%nat -> forall g, isP j g -> exists c, forall y, g y = L j c y.
Proof.
  induction j as [|j IH]; intros Hj g H.
  - destruct H as [c H]. exists (fun _ => c). intros y. rewrite H. unfold L. cbn. ring.
  - destruct H as (g' & D & P). destruct (IH ltac:(lia) g' P) as [d Ed].
    set (c := fix c n := match n with O => 0 | S n => c n + d n * ((knot t (ell + S n) - knot t (ell + S n - S j)) / INR (S j)) end).
    assert (GC : forall n, (n <= j)%nat -> grad t ell (S j) c n = d n).
    { intros n Hn. unfold grad. change (c (S n)) with (c n + d n * ((knot t (ell + S n) - knot t (ell + S n - S j)) / INR (S j))). pose proof (wne j n Hn Hj). pose proof (not_0_INR (S j) ltac:(lia)). field. split; assumption. }
    assert (DZ : forall y, is_derive (fun y => g y - L (S j) c y) y 0).
    { intros y. replace 0 with (g' y - L j (grad t ell (S j) c) y). - apply (is_derive_minus (K := R_AbsRing) (V := R_NormedModule)); [apply D|apply L_derive; exact Hj].
      - rewrite (Ed y), (L_ext j d (grad t ell (S j) c)); [ring|]. intros a Ha. rewrite GC by exact Ha. reflexivity. }
    exists (fun a => c a + (g 0 - L (S j) c 0)). intros y. rewrite L_scal, (L_sum (S j) y Hj). pose proof (const_of_derive _ DZ y 0) as E. cbv beta in E. lra.
Qed.
Lemma local_unique j : (j <= k)%nat -> forall c c', (forall y, L j c y = L j c' y) -> forall a, (a <= j)%nat -> c a = c' a.
Proof.
  induction j as [|j IH]; intros Hj c c' H a Ha.
  - specialize (H 0). unfold L in H. cbn in H. replace a with 0%nat by lia. lra.
  - assert (GE : forall n, (n <= j)%nat -> grad t ell (S j) c n = grad t ell (S j) c' n).
    { apply IH; [lia|]. intros y. pose proof (L_derive j c y Hj) as D1. pose proof (L_derive j c' y Hj) as D2.
      apply (is_derive_ext _ (L (S j) c')) in D1; [|exact H]. rewrite <- (is_derive_unique _ _ _ D1), <- (is_derive_unique _ _ _ D2). reflexivity. }
    assert (DE : forall n, (n <= S j)%nat -> c n = c' n + (c 0%nat - c' 0%nat)).
    { induction n as [|n IHn]; intros Hn; [ring|]. specialize (GE n ltac:(lia)). unfold grad in GE. pose proof (wne j n ltac:(lia) Hj) as W. pose proof (not_0_INR (S j) ltac:(lia)) as I0.
      apply Rmult_eq_reg_r in GE; [specialize (IHn ltac:(lia)); lra|]. unfold Rdiv. apply Rmult_integral_contrapositive. split; [exact I0|apply Rinv_neq_0_compat; exact W]. }
    specialize (H 0). rewrite (L_ext (S j) c (fun a => c' a + (c 0%nat - c' 0%nat))) in H by (intros n Hn; apply DE; exact Hn).
    rewrite L_scal, (L_sum (S j) 0 Hj) in H. rewrite (DE a Ha). lra.
Qed.
End Local.

Lemma isP_Derive (j : nat) (g g' : R -> R) : (forall y, is_derive g y (g' y)) -> forall m y, Derive_n g (S m) y = Derive_n g' m y.
Proof.
  intros D m y. transitivity (Derive_n (Derive_n g 1) m y); [rewrite Derive_n_comp, Nat.add_1_r; reflexivity|].
  apply Derive_n_ext. intros z. cbn. apply is_derive_unique. apply D.
Qed.

(** Two neighbouring intervals *)
Section Neighbours.
Variables (t : list R) (ell k : nat).
Hypothesis sep0 : forall j n, (1 <= n <= j)%nat -> (j <= k)%nat -> knot t (ell + n - j) < knot t (ell + n).
Hypothesis sep1 : forall j n, (1 <= n <= j)%nat -> (j <= k)%nat -> knot t (S ell + n - j) < knot t (S ell + n).
Hypothesis Hell : (k <= ell)%nat.
Hypothesis I0 : knot t ell < knot t (ell + 1).
Hypothesis I1 : knot t (ell + 1) < knot t (ell + 2).

Lemma matching j : (j <= k)%nat -> forall g h c c', (forall y, g y = L t ell j c y) -> (forall y, h y = L t (S ell) j c' y) ->
  (forall m, (m < j)%nat -> Derive_n g m (knot t (ell + 1)) = Derive_n h m (knot t (ell + 1))) ->
  forall a, (a < j)%nat -> c' a = c (S a).
Proof.
  induction j as [|j IH]; intros Hj g h c c' Eg Eh DM a Ha; [lia|]. set (y0 := knot t (ell + 1)) in *.
  assert (GE : forall n, (n < j)%nat -> grad t (S ell) (S j) c' n = grad t ell (S j) c (S n)).
  { apply (IH ltac:(lia) (L t ell j (grad t ell (S j) c)) (L t (S ell) j (grad t (S ell) (S j) c'))); [reflexivity|reflexivity|].
    intros m Hm. rewrite <- (isP_Derive j g (L t ell j (grad t ell (S j) c))), <- (isP_Derive j h (L t (S ell) j (grad t (S ell) (S j) c'))).
    - apply DM. lia.
    - intros y. apply (is_derive_ext (L t (S ell) (S j) c')); [intros; symmetry; apply Eh|]. apply (L_derive t (S ell) k); (assumption || lia).
    - intros y. apply (is_derive_ext (L t ell (S j) c)); [intros; symmetry; apply Eg|]. apply (L_derive t ell k); assumption. }
  assert (DE : forall n, (n <= j)%nat -> c' n = c (S n) + (c' 0%nat - c 1%nat)).
  { induction n as [|n IHn]; intros Hn; [ring|]. specialize (GE n ltac:(lia)). unfold grad in GE. replace (S ell + S n)%nat with (ell + S (S n))%nat in GE by lia.
    pose proof (sep0 (S j) (S (S n)) ltac:(lia) Hj) as W. pose proof (not_0_INR (S j) ltac:(lia)) as N0.
    apply Rmult_eq_reg_r in GE; [specialize (IHn ltac:(lia)); lra|]. unfold Rdiv. apply Rmult_integral_contrapositive. split; [exact N0|apply Rinv_neq_0_compat; lra]. }
  pose proof (DM 0%nat ltac:(lia)) as V0. cbn [Derive_n] in V0. rewrite Eg, Eh in V0.
  assert (LG : forall d, L t ell (S j) d y0 = Rsum (map (fun a => d (S a) * V t ell (S j) (Z.of_nat (S a)) y0) (seq 0 (S j)))).
  { intros d. unfold L. change (seq 0 (S (S j))) with (0%nat :: seq 1 (S j)). cbn [map]. rewrite Rsum_cons.
    rewrite (V_shift t ell j I0 I1), (V_out t (S ell)) by lia. rewrite Rmult_0_r, Rplus_0_l. rewrite <- seq_shift, map_map. reflexivity. }
  assert (LH : L t (S ell) (S j) c' y0 = Rsum (map (fun a => c' a * V t ell (S j) (Z.of_nat (S a)) y0) (seq 0 (S j)))).
  { unfold L. rewrite P_Spline.Rsum_snoc. replace (V t (S ell) (S j) (Z.of_nat (S j)) y0) with 0.
    - rewrite Rmult_0_r, Rplus_0_r. apply Rsum_seq_ext. intros n Hn. rewrite (V_shift t ell j I0 I1). do 2 f_equal. lia.
    - pose proof (V_shift t ell j I0 I1 (Z.of_nat (S (S j)))) as E. fold y0 in E. replace (Z.of_nat (S (S j)) - 1)%Z with (Z.of_nat (S j)) in E by lia. rewrite <- E. symmetry. apply V_out. lia. }
  rewrite (LG c), LH in V0.
  assert (SE : Rsum (map (fun a => c' a * V t ell (S j) (Z.of_nat (S a)) y0) (seq 0 (S j))) =
     Rsum (map (fun a => c (S a) * V t ell (S j) (Z.of_nat (S a)) y0) (seq 0 (S j))) + (c' 0%nat - c 1%nat)).
  { rewrite (Rsum_seq_ext _ (fun a => c (S a) * V t ell (S j) (Z.of_nat (S a)) y0 + (c' 0%nat - c 1%nat) * (1 * V t ell (S j) (Z.of_nat (S a)) y0))).
    2:{ intros n Hn. rewrite (DE n) by lia. ring. }
    rewrite P_Spline.Rsum_plus. f_equal. pose proof (L_sum t ell k sep0 Hell (S j) y0 Hj) as LS. rewrite LG in LS.
    rewrite <- (map_map (fun a => 1 * V t ell (S j) (Z.of_nat (S a)) y0) (Rmult (c' 0%nat - c 1%nat))), Rsum_scal, LS. ring. }
  rewrite SE in V0. rewrite (DE a ltac:(lia)). lra.
Qed.
End Neighbours.

Section Global.
Variables (b : list R) (K : nat) (t : list R).
Hypothesis G : good_breaks b.
Hypothesis HK : (2 <= K)%nat.
Hypothesis Ea : augment_breaks b (Z.of_nat K) = Ok t.
Let k := (K - 1)%nat.
Let n := (List.length t - K)%nat.
Let HK1 : (1 <= K)%nat. Proof. lia. Qed.

Lemma coefs_of_pieces (g : nat -> R -> R) : (forall p, (p + 1 < List.length b)%nat -> isP k (g p)) ->
  (forall p m, (p + 2 < List.length b)%nat -> (m < k)%nat -> Derive_n (g p) m (nth (p + 1) b 0) = Derive_n (g (p + 1)%nat) m (nth (p + 1) b 0)) ->
  forall P, (P + 1 <= List.length b)%nat -> exists C : nat -> R, forall p, (p < P)%nat -> forall y, g p y = L t (k + p) k (fun a => C (p + a)%nat) y.
Proof.
  intros HP HM. induction P as [|P IH]; intros HB; [exists (fun _ => 0); intros p Hp; lia|].
  destruct (IH ltac:(lia)) as [C HC].
  destruct (local_span t (k + P) k (aug_sep b K t G HK1 Ea P ltac:(lia)) ltac:(lia) k (le_n _) (g P) (HP P ltac:(lia))) as [c Hc].
  exists (fun i => if (i <? P + k)%nat then (if (P =? 0)%nat then c i else C i) else c (i - P)%nat). intros p Hp y.
  destruct (Nat.eq_dec p P) as [ -> |NE].
  - rewrite (Hc y). apply L_ext. intros a Ha. destruct (Nat.ltb_spec (P + a) (P + k)) as [LT|GE]; [|f_equal; lia].
    destruct (Nat.eqb_spec P 0) as [ -> |N0]; [reflexivity|].
    pose proof (fun i j H => aug_sep b K t G HK1 Ea P ltac:(lia) i j H) as S1. pose proof (aug_sep b K t G HK1 Ea (P - 1) ltac:(lia)) as S0.
    pose proof (knot_b b K t G HK1 Ea (P - 1) ltac:(lia)) as B0. pose proof (knot_b b K t G HK1 Ea P ltac:(lia)) as B1. pose proof (knot_b b K t G HK1 Ea (P + 1) ltac:(lia)) as B2. fold k in B0, B1, B2, S0, S1.
    pose proof (proj2 G (P - 1)%nat ltac:(lia)) as O0. replace (P - 1 + 1)%nat with P in O0 by lia. pose proof (proj2 G P ltac:(lia)) as O1.
    assert (M : forall a, (a < k)%nat -> c a = C (P - 1 + S a)%nat).
    { apply (matching t (k + (P - 1)) k S0) with (g := g (P - 1)%nat) (h := g P) (j := k) (c := fun a => C (P - 1 + a)%nat).
      - replace (S (k + (P - 1)))%nat with (k + P)%nat by lia. exact S1.
      - lia.
      - replace (k + (P - 1) + 1)%nat with (k + P)%nat by lia. rewrite B0, B1. exact O0.
      - replace (k + (P - 1) + 1)%nat with (k + P)%nat by lia. replace (k + (P - 1) + 2)%nat with (k + (P + 1))%nat by lia. rewrite B1, B2. exact O1.
      - lia.
      - intros z. apply HC. lia.
      - intros z. rewrite (Hc z). replace (S (k + (P - 1)))%nat with (k + P)%nat by lia. reflexivity.
      - intros m Hm. replace (k + (P - 1) + 1)%nat with (k + P)%nat by lia. rewrite B1.
        pose proof (HM (P - 1)%nat m ltac:(lia) Hm) as X. replace (P - 1 + 1)%nat with P in X by lia. exact X. }
    rewrite (M a) by lia. f_equal. lia.
  - rewrite (HC p ltac:(lia) y). apply L_ext. intros a Ha. destruct (Nat.ltb_spec (p + a) (P + k)); [|lia]. destruct (Nat.eqb_spec P 0); [lia|reflexivity].
Qed.

Lemma smooth_is_spline (g : nat -> R -> R) : (forall p, (p + 1 < List.length b)%nat -> isP k (g p)) ->
  (forall p m, (p + 2 < List.length b)%nat -> (m < k)%nat -> Derive_n (g p) m (nth (p + 1) b 0) = Derive_n (g (p + 1)%nat) m (nth (p + 1) b 0)) ->
  exists C : nat -> R, forall p y, in_interval b p y -> g p y = spline t k C n y.
Proof.
  intros HP HM. pose proof (len_t b K t G HK1 Ea) as LT. pose proof (proj1 G) as LB.
  destruct (coefs_of_pieces g HP HM (List.length b - 1) ltac:(lia)) as [C HC]. exists C. intros p y I. pose proof I as (IL & _).
  rewrite (HC p ltac:(lia) y).
  pose proof (spline_spoly b K t G HK1 Ea C (map C (seq 0 n)) p y I (fun i Hi => map_seq_nth C n i Hi)) as SS. fold k n in SS. rewrite SS.
  unfold L, spoly. fold k. replace (k + 1)%nat with (S k) by lia. apply Rsum_seq_ext. intros a Ha.
  rewrite (map_seq_nth C n (p + a)) by (unfold n, k in *; lia). f_equal.
  destruct (deboor_same t (k + p) k (aug_sep b K t G HK1 Ea p IL) ltac:(lia) y 0 ltac:(lia)) as [E _]. specialize (E a ltac:(lia)).
  cbn [DD] in E. rewrite Nat.sub_0_r in E. symmetry. exact E.
Qed.
End Global.

Lemma pieces_are_spline b K t c d : good_breaks b -> (2 <= K)%nat -> augment_breaks b (Z.of_nat K) = Ok t -> Spec_Smooth.smooth_at_breaks b K c d ->
  exists C : nat -> R, forall p y, in_interval b p y -> piece b K c p d y = spline t (K - 1) C (List.length t - K) y.
Proof.
  intros G HK Ea S. apply (smooth_is_spline b K t G HK Ea (fun p => piece b K c p d)).
  - intros p _. apply isP_piece. lia.
  - intros p m Hp Hm. apply S; lia.
Qed.

Lemma fin_choice {B} (P : nat -> B -> Prop) (e : B) D : (forall d, (d < D)%nat -> exists x, P d x) -> exists f, forall d, (d < D)%nat -> P d (f d).
Proof.
  induction D as [|D IH]; intros H; [exists (fun _ => e); intros; lia|]. destruct IH as [f Hf]; [intros; apply H; lia|]. destruct (H D ltac:(lia)) as [x Hx].
  exists (fun d => if (d =? D)%nat then x else f d). intros d Hd. destruct (Nat.eqb_spec d D) as [ -> |N]; [exact Hx|]. apply Hf. lia.
Qed.
