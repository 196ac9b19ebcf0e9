(** de Boor's algorithm computes the B-splines of the Cox-de Boor recursion
    and their derivatives. *)
From Coq Require Import Reals List Arith ZArith String Bool Lia Lra Sorted.
From Coquelicot Require Import Coquelicot.
From Verif Require Import M_Prelude M_ND Spec_Field Spec_Spline M_Spectrum M_Spline P_Spectrum P_Spectrum2 P_Spectrum3 P_Spline.
Import ListNotations.
Open Scope R_scope.

Lemma fold_upd (A B : nat -> R) hh : forall p i, (i <= p)%nat ->
  fold_left (fun h n => upd (upd h (n - 1) (h (n - 1)%nat + A n)) n (B n)) (seq 1 p) (upd hh 0 0) i =
  (if (i =? 0)%nat then 0 else B i) + (if (i <? p)%nat then A (i + 1)%nat else 0).
Proof.
  induction p as [|p IH]; intros i Hi.
  - replace i with 0%nat by lia. cbn. ring.
  - rewrite seq_S, fold_left_app. cbn [fold_left]. set (h := fold_left _ _ _) in *. replace (1 + p - 1)%nat with p by lia. replace (1 + p)%nat with (S p) by lia.
    unfold upd at 1. destruct (Nat.eqb_spec i (S p)) as [ -> |N].
    + cbn [Nat.eqb]. rewrite Nat.ltb_irrefl. ring.
    + unfold upd. destruct (Nat.ltb_spec i (S p)); [|lia]. destruct (Nat.eqb_spec i p) as [ -> |N'].
      * rewrite IH by lia. rewrite Nat.ltb_irrefl. rewrite Nat.add_1_r. ring.
      * rewrite IH by lia. destruct (Nat.ltb_spec i p); [reflexivity|lia].
Qed.
Lemma fold_left_ext_in {A B} (f g : A -> B -> A) l : forall a, (forall a b, In b l -> f a b = g a b) -> fold_left f l a = fold_left g l a.
Proof. induction l as [|b l IH]; intros a H; [reflexivity|]. cbn. rewrite H by (left; reflexivity). apply IH. intros; apply H; right; assumption. Qed.

Section V.
Variables (t : list R) (ell : nat).
Definition T (z : Z) : R := knot t (Z.to_nat (Z.of_nat ell + z)).

Fixpoint V (j : nat) (z : Z) (x : R) : R :=
  match j with
  | O => if (z =? 0)%Z then 1 else 0
  | S j => V j (z - 1) x * ((x - T (z - Z.of_nat (S j))) / (T z - T (z - Z.of_nat (S j)))) +
           V j z x * ((T (z + 1) - x) / (T (z + 1) - T (z - Z.of_nat j)))
  end.

Lemma V_out j : forall z x, (z < 0 \/ Z.of_nat j < z)%Z -> V j z x = 0.
Proof.
  induction j as [|j IH]; intros z x H; cbn [V].
  - destruct (Z.eqb_spec z 0); [lia|reflexivity].
  - rewrite !IH by lia. ring.
Qed.

Variable k : nat.
(** the knots around the interval are separated *)
Hypothesis sep : forall j n, (1 <= n <= j)%nat -> (j <= k)%nat -> knot t (ell + n - j) < knot t (ell + n).
Hypothesis Hell : (k <= ell)%nat.

Lemma sepT j z : (1 <= z <= Z.of_nat j)%Z -> (j <= k)%nat -> T (z - Z.of_nat j) < T z.
Proof.
  intros H1 H2. unfold T. specialize (sep j (Z.to_nat z) ltac:(lia) H2).
  replace (Z.to_nat (Z.of_nat ell + (z - Z.of_nat j))) with (ell + Z.to_nat z - j)%nat by lia.
  replace (Z.to_nat (Z.of_nat ell + z)) with (ell + Z.to_nat z)%nat by lia. exact sep.
Qed.

(** derivative of V (S j) *)
Definition DV (j : nat) (F : Z -> R) (z : Z) : R :=
  INR j * (F (z - 1)%Z / (T z - T (z - Z.of_nat j)) - F z / (T (z + 1) - T (z + 1 - Z.of_nat j))).

Lemma V_derive j : (S j <= k)%nat -> forall z x, is_derive (V (S j) z) x (DV (S j) (fun z => V j z x) z).
Proof.
  induction j as [|j IH]; intros Hj z x.
  - unfold DV. cbn [V]. 
    auto_derive; [exact I|].
    replace (z + 1 - Z.of_nat 1)%Z with (z - 0)%Z by lia. change (Z.of_nat 1) with 1%Z. cbn [INR]. unfold Rdiv. ring.
  - specialize (IH ltac:(lia)).
    set (f1 := fun y => V (S j) (z - 1) y). set (f2 := fun y => V (S j) z y).
    assert (D1 : is_derive f1 x (DV (S j) (fun z => V j z x) (z - 1))) by (apply IH).
    assert (D2 : is_derive f2 x (DV (S j) (fun z => V j z x) z)) by (apply IH).
    change (V (S (S j)) z) with (fun y => f1 y * ((y - T (z - Z.of_nat (S (S j)))) / (T z - T (z - Z.of_nat (S (S j))))) +
           f2 y * ((T (z + 1) - y) / (T (z + 1) - T (z - Z.of_nat (S j))))).
    set (p := / (T z - T (z - Z.of_nat (S (S j))))). set (q := / (T (z + 1) - T (z - Z.of_nat (S j)))).
    evar (dd : R). assert (E : is_derive (fun y => f1 y * ((y - T (z - Z.of_nat (S (S j)))) / (T z - T (z - Z.of_nat (S (S j))))) +
           f2 y * ((T (z + 1) - y) / (T (z + 1) - T (z - Z.of_nat (S j))))) x dd).
    { unfold Rdiv. fold p q. subst dd. auto_derive; [split; [eexists; exact D1|split; [eexists; exact D2|exact I]]|reflexivity]. }
    replace (DV (S (S j)) (fun z0 => V (S j) z0 x) z) with dd; [exact E|]. subst dd.
    rewrite (is_derive_unique (fun y : R => f1 y) _ _ D1), (is_derive_unique (fun y : R => f2 y) _ _ D2). clear E D1 D2. change (Z.pos (Pos.succ (Pos.of_succ_nat j))) with (Z.of_nat (S (S j))).
    unfold DV. replace (z + 1 - Z.of_nat (S (S j)))%Z with (z - Z.of_nat (S j))%Z by lia.
    unfold Rdiv. fold p q. unfold f1, f2.
    rewrite (S_INR (S j)).
    assert (EV : forall z, V (S j) z x = V j (z - 1) x * ((x - T (z - Z.of_nat (S j))) / (T z - T (z - Z.of_nat (S j)))) +
           V j z x * ((T (z + 1) - x) / (T (z + 1) - T (z - Z.of_nat j)))) by reflexivity.
    rewrite (EV z), (EV (z - 1)%Z).
    replace (z - 1 + 1)%Z with z by lia. replace (z - 1 - Z.of_nat (S j))%Z with (z - Z.of_nat (S (S j)))%Z by lia.
    replace (z - Z.of_nat (S j))%Z with (z - 1 - Z.of_nat j)%Z in * by lia.
    replace (z + 1 - Z.of_nat (S j))%Z with (z - Z.of_nat j)%Z by lia.
    replace (z + 1 - 1)%Z with z by lia.
    unfold Rdiv.
    destruct (Z.le_gt_cases 1 z) as [Z1|Z1]; [destruct (Z.le_gt_cases z (Z.of_nat (S j))) as [Z2|Z2]|].
    + assert (S1 : T (z - Z.of_nat (S (S j))) < T z) by (apply sepT; lia).
      assert (S2 : T (z + 1 - Z.of_nat (S (S j))) < T (z + 1)) by (apply sepT; lia).
      replace (z + 1 - Z.of_nat (S (S j)))%Z with (z - 1 - Z.of_nat j)%Z in S2 by lia.
      assert (S3 : T (z - Z.of_nat (S j)) < T z) by (apply sepT; lia).
      replace (z - Z.of_nat (S j))%Z with (z - 1 - Z.of_nat j)%Z in S3 by lia.
      set (u := / (T (z - 1) - T (z - Z.of_nat (S (S j))))). set (w := / (T (z + 1) - T (z - Z.of_nat j))).
      assert (Q : q = / (T (z + 1) - T (z - 1 - Z.of_nat j))) by (unfold q; do 3 f_equal; lia).
      rewrite Q. unfold p. clearbody u w. field. repeat split; lra.
    + rewrite (V_out j (z - 1)) by lia. ring.
    + rewrite (V_out j (z - 1)) by lia. ring.
Qed.

(** linearity of the derivative sweep *)
Fixpoint DD (j m : nat) (F : Z -> R) (z : Z) : R :=
  match m with O => F z | S m => DV (j + S m) (DD j m F) z end.

Lemma DD_lin j : forall m (F : R -> Z -> R) (G : Z -> R) x, (forall z, is_derive (fun y => F y z) x (G z)) ->
  forall z, is_derive (fun y => DD j m (F y) z) x (DD j m G z).
Proof.
  induction m as [|m IH]; intros F G x H z; [apply H|]. cbn [DD]. unfold DV, Rdiv.
  pose proof (IH F G x H (z - 1)%Z) as D1. pose proof (IH F G x H z) as D2.
  set (f1 := fun y => DD j m (F y) (z - 1)) in *. set (f2 := fun y => DD j m (F y) z) in *.
  set (p := INR (j + S m)). set (q := / _). set (r := / _).
  change (fun y => p * (DD j m (F y) (z - 1) * q - DD j m (F y) z * r)) with (fun y => p * (f1 y * q - f2 y * r)).
  auto_derive; [split; [eexists; exact D1|split; [eexists; exact D2|exact I]]|].
  rewrite (is_derive_unique (fun y : R => f1 y) _ _ D1), (is_derive_unique (fun y : R => f2 y) _ _ D2). ring.
Qed.
Lemma DV_ext j F G z : (forall z, F z = G z) -> DV j F z = DV j G z.
Proof. intros H. unfold DV. rewrite !H. reflexivity. Qed.
Lemma DD_snoc j : forall m F z, DD (S j) m (DV (S j) F) z = DD j (S m) F z.
Proof.
  induction m as [|m IH]; intros F z.
  - cbn [DD]. rewrite Nat.add_1_r. reflexivity.
  - change (DV (S j + S m) (DD (S j) m (DV (S j) F)) z = DV (j + S (S m)) (DD j (S m) F) z).
    replace (S j + S m)%nat with (j + S (S m))%nat by lia. apply DV_ext. intros z'. apply IH.
Qed.

Lemma DD_derive m : forall j, (j + m <= k)%nat -> forall z x, is_derive_n (V (j + m) z) m x (DD j m (fun z => V j z x) z).
Proof.
  induction m as [|m IH]; intros j Hj z x; [rewrite Nat.add_0_r; reflexivity|].
  change (is_derive (Derive_n (V (j + S m) z) m) x (DD j (S m) (fun z0 => V j z0 x) z)).
  replace (j + S m)%nat with (S j + m)%nat by lia.
  apply (is_derive_ext (fun y => DD (S j) m (fun z => V (S j) z y) z)).
  { intros y. symmetry. apply is_derive_n_unique, IH. lia. }
  rewrite <- DD_snoc. apply DD_lin. intros z0. apply V_derive. lia.
Qed.

(** the sweeps of the code *)
Definition same (j : nat) (h : nat -> R) (F : Z -> R) : Prop :=
  (forall i, (i <= j)%nat -> h i = F (Z.of_nat i)) /\ (forall z, (z < 0 \/ Z.of_nat j < z)%Z -> F z = 0).

Lemma T_nat n : knot t (ell + n) = T (Z.of_nat n).
Proof. unfold T. f_equal. lia. Qed.
Lemma T_sub n j : (j <= ell)%nat -> knot t (ell + n - j) = T (Z.of_nat n - Z.of_nat j).
Proof. intros. unfold T. f_equal. lia. Qed.

Lemma sweep_same x j h : (S j <= k)%nat -> same j h (fun z => V j z x) -> same (S j) (deboor_sweep t x ell (S j) h) (fun z => V (S j) z x).
Proof.
  intros Hj [H1 H2]. split; [|intros z Hz; apply V_out; exact Hz]. intros i Hi.
  unfold deboor_sweep.
  rewrite (fold_left_ext_in _ (fun h0 n => upd (upd h0 (n - 1) (h0 (n - 1)%nat + h (n - 1)%nat / (knot t (ell + n) - knot t (ell + n - S j)) * (knot t (ell + n) - x))) n
      (h (n - 1)%nat / (knot t (ell + n) - knot t (ell + n - S j)) * (x - knot t (ell + n - S j))))).
  2:{ intros h0 n Hn. apply in_seq in Hn. destruct (Req_EM_T _ _) as [E|E]; [|reflexivity]. specialize (sep (S j) n ltac:(lia) Hj). lra. }
  rewrite (fold_upd (fun n => h (n - 1)%nat / (knot t (ell + n) - knot t (ell + n - S j)) * (knot t (ell + n) - x))
                    (fun n => h (n - 1)%nat / (knot t (ell + n) - knot t (ell + n - S j)) * (x - knot t (ell + n - S j)))) by exact Hi.
  cbn [V]. f_equal.
  - destruct (Nat.eqb_spec i 0) as [ -> |N]; [rewrite V_out by lia; ring|]. rewrite T_nat, T_sub by lia.
    rewrite H1 by lia. replace (Z.of_nat (i - 1)) with (Z.of_nat i - 1)%Z by lia. unfold Rdiv. ring.
  - destruct (Nat.ltb_spec i (S j)) as [L|L]; [|rewrite V_out by lia; ring]. rewrite T_nat, T_sub by lia.
    replace (i + 1 - 1)%nat with i by lia. rewrite H1 by lia. replace (Z.of_nat (i + 1)) with (Z.of_nat i + 1)%Z by lia.
    replace (Z.of_nat i + 1 - Z.of_nat (S j))%Z with (Z.of_nat i - Z.of_nat j)%Z by lia. unfold Rdiv. ring.
Qed.

Lemma dsweep_same j h F : (S j <= k)%nat -> same j h F -> same (S j) (deboor_dsweep t ell (S j) h) (DV (S j) F).
Proof.
  intros Hj [H1 H2]. split.
  2:{ intros z Hz. unfold DV. rewrite !H2 by lia. unfold Rdiv. ring. }
  intros i Hi. unfold deboor_dsweep.
  rewrite (fold_left_ext_in _ (fun h0 n => upd (upd h0 (n - 1) (h0 (n - 1)%nat + - (INR (S j) * h (n - 1)%nat / (knot t (ell + n) - knot t (ell + n - S j))))) n
      (INR (S j) * h (n - 1)%nat / (knot t (ell + n) - knot t (ell + n - S j))))).
  2:{ intros h0 n Hn. apply in_seq in Hn. destruct (Req_EM_T _ _) as [E|E]; [|reflexivity]. specialize (sep (S j) n ltac:(lia) Hj). lra. }
  rewrite (fold_upd (fun n => - (INR (S j) * h (n - 1)%nat / (knot t (ell + n) - knot t (ell + n - S j))))
                    (fun n => INR (S j) * h (n - 1)%nat / (knot t (ell + n) - knot t (ell + n - S j)))) by exact Hi.
  unfold DV. rewrite Rmult_minus_distr_l. unfold Rminus at 3. f_equal.
  - destruct (Nat.eqb_spec i 0) as [ -> |N]; [rewrite H2 by lia; unfold Rdiv; ring|]. rewrite T_nat, T_sub by lia.
    rewrite H1 by lia. replace (Z.of_nat (i - 1)) with (Z.of_nat i - 1)%Z by lia. unfold Rdiv. ring.
  - destruct (Nat.ltb_spec i (S j)) as [L|L]; [|rewrite H2 by lia; unfold Rdiv; ring]. rewrite T_nat, T_sub by lia.
    replace (i + 1 - 1)%nat with i by lia. rewrite H1 by lia. replace (Z.of_nat (i + 1)) with (Z.of_nat i + 1)%Z by lia. unfold Rdiv. ring.
Qed.

Lemma deboor_same x m : (m <= k)%nat -> same k (deboor t x k ell m) (DD (k - m) m (fun z => V (k - m) z x)).
Proof.
  intros Hm. unfold deboor.
  assert (A : forall j, (j <= k)%nat -> same j (fold_left (fun h j => deboor_sweep t x ell j h) (seq 1 j) (fun _ => 1)) (fun z => V j z x)).
  { induction j as [|j IH]; intros Hj.
    - cbn. split; [intros i Hi; replace i with 0%nat by lia; reflexivity|]. intros z Hz. destruct (Z.eqb_spec z 0); [lia|reflexivity].
    - rewrite seq_S, fold_left_app. cbn [fold_left]. apply sweep_same; [exact Hj|]. apply IH. lia. }
  specialize (A (k - m)%nat ltac:(lia)). set (h := fold_left _ _ _) in *. clearbody h.
  assert (B : forall p, (p <= m)%nat -> same (k - m + p) (fold_left (fun h j => deboor_dsweep t ell j h) (seq (k - m + 1) p) h) (DD (k - m) p (fun z => V (k - m) z x))).
  { induction p as [|p IH]; intros Hp; [rewrite Nat.add_0_r; exact A|].
    rewrite seq_S, fold_left_app. cbn [fold_left]. replace (k - m + 1 + p)%nat with (S (k - m + p)) by lia.
    replace (k - m + S p)%nat with (S (k - m + p)) by lia.
    cbn [DD]. replace (k - m + S p)%nat with (S (k - m + p)) by lia. apply dsweep_same; [lia|]. apply IH. lia. }
  specialize (B m (le_n m)). replace (k - m + m)%nat with k in B by lia. exact B.
Qed.

(** derivative m of the basis function a *)
Lemma deboor_derive x m a : (m <= k)%nat -> (a <= k)%nat ->
  is_derive_n (fun y => deboor t y k ell 0 a) m x (deboor t x k ell m a).
Proof.
  intros Hm Ha. destruct (deboor_same x m Hm) as [E _]. rewrite E by exact Ha.
  apply (is_derive_n_ext (V k (Z.of_nat a))).
  { intros y. destruct (deboor_same y 0 ltac:(lia)) as [E0 _]. rewrite E0 by exact Ha. rewrite Nat.sub_0_r. reflexivity. }
  pose proof (DD_derive m (k - m) ltac:(lia) (Z.of_nat a) x) as D. replace (k - m + m)%nat with k in D by lia. exact D.
Qed.
Lemma deboor_high x m a : (k < m)%nat -> (a <= k)%nat -> is_derive_n (fun y => deboor t y k ell 0 a) m x 0.
Proof.
  intros Hm Ha. destruct (deboor_same x 0 ltac:(lia)) as [E0 _].
  destruct m as [|m]; [lia|]. change (is_derive (Derive_n (fun y => deboor t y k ell 0 a) m) x 0).
  assert (C : exists c, forall y, Derive_n (fun y => deboor t y k ell 0 a) k y = c).
  { exists (deboor t 0 k ell k a). intros y. rewrite (is_derive_n_unique _ _ _ _ (deboor_derive y k a (le_n k) Ha)).
    destruct (deboor_same y k (le_n k)) as [E1 _]. destruct (deboor_same 0 k (le_n k)) as [E2 _]. rewrite E1, E2 by exact Ha. rewrite Nat.sub_diag. reflexivity. }
  destruct C as [c C]. assert (D : forall p y, Derive_n (fun y => deboor t y k ell 0 a) (p + k) y = match p with O => c | S _ => 0 end).
  { induction p as [|p IH]; intros y; [apply C|]. cbn [Nat.add Derive_n].
    rewrite (Derive_ext _ (fun _ => match p with O => c | S _ => 0 end)) by exact IH. apply Derive_const. }
  apply (is_derive_ext (fun _ => match (m - k)%nat with O => c | S _ => 0 end)).
  { intros y. cbv beta. pose proof (D (m - k)%nat y) as DD0. replace (m - k + k)%nat with m in DD0 by lia. symmetry. exact DD0. }
  apply @is_derive_const.
Qed.

(** V and the recursion *)
Hypothesis mono : forall i j, (i <= j < List.length t)%nat -> knot t i <= knot t j.

Lemma V_bspline x : (forall i, (i + 1 < List.length t)%nat -> indicator t i x = if (i =? ell)%nat then 1 else 0) ->
  forall j i, (j <= k)%nat -> (i + j + 1 < List.length t)%nat -> bspline t j i x = V j (Z.of_nat i + Z.of_nat j - Z.of_nat ell) x.
Proof.
  intros HI. induction j as [|j IH]; intros i Hj Hi.
  - cbn [bspline V]. rewrite HI by lia. destruct (Nat.eqb_spec i ell), (Z.eqb_spec (Z.of_nat i + Z.of_nat 0 - Z.of_nat ell) 0); try lia; reflexivity.
  - cbn [bspline V]. rewrite !IH by lia. set (z := (Z.of_nat i + Z.of_nat (S j) - Z.of_nat ell)%Z).
    replace (Z.of_nat i + Z.of_nat j - Z.of_nat ell)%Z with (z - 1)%Z by lia.
    replace (Z.of_nat (i + 1) + Z.of_nat j - Z.of_nat ell)%Z with z by lia.
    assert (T1 : forall n y, Z.of_nat n = (Z.of_nat ell + y)%Z -> nth n t 0 = T y) by (intros n y E; unfold T, knot; f_equal; lia).
    rewrite (T1 i (z - Z.of_nat (S j))%Z) by lia. rewrite (T1 (i + j + 1)%nat z) by lia. rewrite (T1 (i + j + 2)%nat (z + 1)%Z) by lia.
    rewrite (T1 (i + 1)%nat (z - Z.of_nat j)%Z) by lia.
    f_equal.
    + destruct (Z.le_gt_cases 1 z) as [Z1|Z1]; [|rewrite V_out by lia; ring]. destruct (Z.le_gt_cases z (Z.of_nat (S j))) as [Z2|Z2]; [|rewrite V_out by lia; ring].
      pose proof (sepT (S j) z ltac:(lia) Hj). unfold ratio. destruct (Req_EM_T _ _); [lra|]. ring.
    + destruct (Z.le_gt_cases 0 z) as [Z1|Z1]; [|rewrite V_out by lia; ring]. destruct (Z.le_gt_cases z (Z.of_nat j)) as [Z2|Z2]; [|rewrite V_out by lia; ring].
      pose proof (sepT (S j) (z + 1) ltac:(lia) Hj) as S1. replace (z + 1 - Z.of_nat (S j))%Z with (z - Z.of_nat j)%Z in S1 by lia.
      unfold ratio. destruct (Req_EM_T _ _); [lra|]. ring.
Qed.
End V.
