(** The table computed by [legendre_poly] holds the Schmidt functions. *)
From Coq Require Import Reals List Arith Lia Lra Bool.
From Coquelicot Require Import Coquelicot.
From Verif Require Import M_Prelude Spec_Legendre M_Legendre P_Legendre P_Legendre2.
Open Scope R_scope.

Lemma for_range_inv {A} (I : nat -> A -> Prop) a b f (acc : A) :
  (a <= b)%nat -> I a acc ->
  (forall i x, (a <= i < b)%nat -> I i x -> I (S i) (f x i)) ->
  I b (for_range a b f acc).
Proof.
  intros Hab H0 Hs. unfold for_range.
  assert (G : forall len s x, (a <= s)%nat -> (s + len <= b)%nat -> I s x ->
              I (s + len)%nat (fold_left f (seq s len) x)).
  { induction len as [|len IH]; intros s x H1 H2 Hx; cbn [seq fold_left].
    - now rewrite Nat.add_0_r.
    - replace (s + S len)%nat with (S s + len)%nat by lia.
      apply IH; [lia|lia|]. apply Hs; [lia|exact Hx]. }
  replace b with (a + (b - a))%nat at 1 by lia. apply G; [lia|lia|exact H0].
Qed.

Lemma for_range_empty {A} a b f (acc : A) : (b <= a)%nat -> for_range a b f acc = acc.
Proof. intros H. unfold for_range. replace (b - a)%nat with 0%nat by lia. reflexivity. Qed.

Lemma upd_same P i j v : upd P i j v i j = v.
Proof. unfold upd. now rewrite !Nat.eqb_refl. Qed.

Lemma upd_other P i j v a b : (a <> i \/ b <> j) -> upd P i j v a b = P a b.
Proof.
  intros H. unfold upd. destruct (Nat.eqb_spec a i), (Nat.eqb_spec b j); cbn; try reflexivity. lia.
Qed.

Ltac updsimp :=
  repeat match goal with
  | |- context [upd ?P ?i ?j ?v ?a ?b] =>
      first [ rewrite (upd_other P i j v a b) by lia
            | replace (upd P i j v a b) with v by (unfold upd;
                replace (Nat.eqb a i) with true by (symmetry; apply Nat.eqb_eq; lia);
                replace (Nat.eqb b j) with true by (symmetry; apply Nat.eqb_eq; lia); reflexivity) ]
  end.

Lemma rad_radians t : radians t = rad t.
Proof. unfold radians, rad. field. Qed.

Lemma sinth_sin t : 0 <= t <= 180 -> sqrt (1 - cos (rad t) ^ 2) = sin (rad t).
Proof.
  intros H. rewrite <- cos_sin2. cbn [pow]. rewrite Rmult_1_r. apply sqrt_square.
  apply sin_ge_0; unfold rad; pose proof PI_RGT_0; nra.
Qed.

Section Tab.
Variables (oob : R) (nmax : nat) (th : R).
Hypothesis Hn : (1 <= nmax)%nat.

Lemma rootn_ok k : (k <= 2 * nmax ^ 2)%nat -> rootn oob nmax k = sqrt (INR k).
Proof. intros H. unfold rootn. apply Nat.leb_le in H. now rewrite H. Qed.

(** invariant of the columns: entries below the diagonal of columns < m *)
Definition lowerinv (m : nat) (P : tab) : Prop :=
  (forall n j, (j <= n <= nmax)%nat -> (j < m)%nat -> P n j = schmidt n j th) /\
  ((m <= nmax)%nat -> P m m = schmidt m m th) /\
  (m = 0%nat -> P 1%nat 1%nat = schmidt 1 1 th) /\
  (forall i j, (i < j)%nat -> (i <= nmax)%nat -> (j <= nmax + 1)%nat -> P i j = 0).

Lemma leg_init_inv : lowerinv 0 (leg_init oob nmax (sin th)).
Proof.
  unfold lowerinv, leg_init. repeat split.
  - intros; lia.
  - intros _. updsimp. now rewrite schmidt_00.
  - intros _. updsimp. now rewrite schmidt_11.
  - intros i j Hij Hi Hj. updsimp.
    replace (i <=? nmax)%nat with true by (symmetry; apply Nat.leb_le; lia).
    replace (j <=? nmax + 1)%nat with true by (symmetry; apply Nat.leb_le; lia).
    reflexivity.
Qed.

Lemma leg_col_spec m P0 : (m < nmax)%nat ->
  P0 m m = schmidt m m th -> P0 (m+1)%nat m = schmidt (m+1) m th ->
  let P := leg_col oob nmax (cos th) m P0 in
  (forall n, (m <= n <= nmax)%nat -> P n m = schmidt n m th) /\
  (forall a b, b <> m -> P a b = P0 a b).
Proof.
  intros Hm H0 H1 P.
  set (I := fun k (P : tab) =>
    (forall n, (m <= n < k)%nat -> P n m = schmidt n m th) /\
    (forall a b, b <> m -> P a b = P0 a b)).
  assert (G : I (nmax + 1)%nat P).
  { unfold P, leg_col. apply for_range_inv; [lia| |].
    - split; [|reflexivity]. intros n Hn'.
      destruct (Nat.eq_dec n m) as [->|Hne]; [exact H0|].
      replace n with (m + 1)%nat by lia. exact H1.
    - intros n Q Hr [Q1 Q2]. split.
      + intros n' Hn'. destruct (Nat.eq_dec n' n) as [->|Hne].
        * cbv zeta. updsimp. rewrite !Q1 by lia.
          assert (B : (n * n - m * m <= 2 * nmax ^ 2)%nat) by (cbn [Nat.pow]; nia).
          rewrite !rootn_ok by lia.
          destruct n as [|[|n]]; [lia|lia|].
          replace (S (S n) - 1)%nat with (S n) by lia. replace (S (S n) - 2)%nat with n by lia.
          symmetry. apply schmidt_rec. lia.
        * cbv zeta. updsimp. apply Q1. lia.
      + intros a b Hb. cbv zeta. updsimp. apply Q2, Hb. }
  destruct G as [G1 G2]. split; [|exact G2]. intros n Hn'. apply G1. lia.
Qed.

Lemma leg_vals_inv P0 : lowerinv 0 P0 -> lowerinv nmax (leg_vals oob nmax (cos th) (sin th) P0).
Proof.
  intros H0. unfold leg_vals. apply (for_range_inv lowerinv); [lia|exact H0|].
  intros m P Hm (L1 & L2 & L3 & L4).
  set (tmp := rootn oob nmax (m + m + 1) * P m m).
  assert (Ht : tmp = sqrt (INR (m + m + 1)) * schmidt m m th).
  { unfold tmp. rewrite rootn_ok by (cbn [Nat.pow]; nia). rewrite L2 by lia. reflexivity. }
  set (P1 := upd P (m+1)%nat m (cos th * tmp)).
  set (P2 := if (0 <? m)%nat then upd P1 (m+1)%nat (m+1)%nat (sin th * tmp / rootn oob nmax (m + m + 2)) else P1).
  assert (D : P2 (m+1)%nat (m+1)%nat = schmidt (m+1) (m+1) th).
  { unfold P2. destruct (Nat.ltb_spec 0 m) as [Hp|Hz].
    - updsimp. rewrite Ht, rootn_ok by (cbn [Nat.pow]; nia).
      replace (m + 1)%nat with (S m) by lia. symmetry.
      replace (S m + m)%nat with (m + m + 1)%nat by lia.
      apply schmidt_diag. lia.
    - replace m with 0%nat by lia. unfold P1. replace m with 0%nat by lia. updsimp. apply L3. lia. }
  assert (C : P2 (m+1)%nat m = schmidt (m+1) m th).
  { assert (C1 : P1 (m+1)%nat m = schmidt (m+1) m th).
    { unfold P1. updsimp. rewrite Ht. replace (m + 1)%nat with (S m) by lia.
      replace (S m + m)%nat with (m + m + 1)%nat by lia. symmetry. apply schmidt_sub. }
    unfold P2. destruct (0 <? m)%nat; [updsimp|]; exact C1. }
  assert (O : forall a b, ~ (a = (m+1)%nat /\ (b = m \/ b = (m+1)%nat)) -> P2 a b = P a b).
  { intros a b Hab. unfold P2, P1. destruct (0 <? m)%nat; updsimp; reflexivity. }
  destruct (leg_col_spec m P2) as [G1 G2]; [lia| |exact C|].
  { rewrite O by lia. apply L2. lia. }
  cbv zeta. fold tmp. fold P1. fold P2.
  repeat split.
  - intros n j Hj Hlt. destruct (Nat.eq_dec j m) as [->|Hne]; [apply G1; lia|].
    rewrite G2 by exact Hne. rewrite O by lia. apply L1; lia.
  - intros _. replace (S m) with (m + 1)%nat by lia. rewrite G2 by lia. exact D.
  - intros; lia.
  - intros i j Hij Hi Hj. destruct (Nat.eq_dec j m) as [->|Hne].
    + (* column m above the diagonal is untouched *)
      assert (U : forall k Q, (forall a, (a < m)%nat -> Q a m = P2 a m) ->
        forall a, (a < m)%nat -> for_range (m + 2) k (fun P n =>
        let d := (n * n - m * m)%nat in
        let e := (n + n - 1)%nat in
        upd P n m ((INR e * cos th * P (n-1)%nat m - rootn oob nmax (d - e) * P (n-2)%nat m)
               / rootn oob nmax d)) Q a m = P2 a m).
      { intros k Q HQ a Ha. destruct (Nat.le_gt_cases (m+2) k) as [Hk|Hk].
        - apply (for_range_inv (fun _ (R : tab) => forall a, (a < m)%nat -> R a m = P2 a m)); [lia|exact HQ| |exact Ha].
          intros i0 x Hi0 Hx a0 Ha0. cbv zeta. updsimp. apply Hx, Ha0.
        - rewrite for_range_empty by lia. apply HQ, Ha. }
      unfold leg_col. rewrite U; [|reflexivity|exact Hij]. rewrite O by lia. apply L4; lia.
    + rewrite G2 by exact Hne. rewrite O by lia. apply L4; lia.
Qed.

Definition fullinv (k : nat) (P : tab) : Prop :=
  (forall n j, (j <= n <= nmax)%nat -> P n j = schmidt n j th) /\
  (forall n m, (m <= n)%nat -> (1 <= n < k)%nat -> P m (n+1)%nat = dschmidt n m th) /\
  P 0%nat 1%nat = 0.

Lemma dschmidt_1_0 : dschmidt 1 0 th = - schmidt 1 1 th.
Proof.
  cbn [dschmidt]. replace (INR (1 * 1 + 1) / 2) with 1 by (cbn; field). rewrite sqrt_1. ring.
Qed.
Lemma dschmidt_1_1 : dschmidt 1 1 th = schmidt 1 0 th.
Proof.
  cbn [dschmidt]. replace (INR (2 * (1 * 1 + 1))) with (2 * 2) by (cbn; ring).
  rewrite sqrt_square by lra. rewrite (cn_gt 1 2) by lia. field.
Qed.

Lemma dschmidt_n_n n : (2 <= n)%nat -> dschmidt n n th = sqrt (INR (2 * n)) * schmidt n (n - 1) th / 2.
Proof.
  intros H. destruct n as [|[|n]]; [lia|lia|]. cbn [dschmidt].
  rewrite (cn_gt (S (S n)) (S (S n) + 1)) by lia. rewrite Nat.sub_diag.
  replace (S (S n) + S (S n))%nat with (2 * S (S n))%nat by lia.
  replace (2 * S (S n) * (0 + 1))%nat with (2 * S (S n))%nat by lia. field.
Qed.

Lemma leg_derivs_inv P0 : lowerinv nmax P0 -> fullinv (nmax + 1) (leg_derivs nmax P0).
Proof.
  intros (L1 & L2 & L3 & L4).
  assert (Lw : forall n j, (j <= n <= nmax)%nat -> P0 n j = schmidt n j th).
  { intros n j Hj. destruct (Nat.eq_dec j nmax) as [->|Hne]; [replace n with nmax by lia; apply L2; lia|].
    apply L1; lia. }
  unfold leg_derivs. cbv zeta. apply (for_range_inv fullinv); [lia| |].
  - repeat split.
    + intros n j Hj. updsimp. apply Lw, Hj.
    + intros n m Hm Hr. replace n with 1%nat by lia.
      destruct m as [|[|m]]; [| |lia].
      * replace (1 + 1)%nat with 2%nat by lia. updsimp. rewrite Lw by lia. now rewrite dschmidt_1_0.
      * replace (1 + 1)%nat with 2%nat by lia. updsimp. rewrite Lw by lia. now rewrite dschmidt_1_1.
    + updsimp. apply L4; lia.
  - intros n P Hr (F1 & F2 & F3).
    set (P1 := upd P 0 (n+1)%nat (- sqrt (INR (n*n + n) / 2) * P n 1%nat)).
    set (P2 := upd P1 1 (n+1)%nat ((sqrt (INR (2 * (n*n + n))) * P1 n 0%nat
                                 - sqrt (INR (n*n + n - 2)) * P1 n 2%nat) / 2)).
    set (I := fun k (Q : tab) =>
      (forall a b, (b <= n)%nat \/ (n + 1 < b)%nat -> Q a b = P a b) /\
      (forall a, (n < a)%nat -> Q a (n + 1)%nat = P a (n+1)%nat) /\
      (forall m, (m < k)%nat -> (m < n)%nat -> Q m (n+1)%nat = dschmidt n m th)).
    match goal with |- context [for_range 2 n ?f P2] => set (body := f) end.
    assert (G : I n (for_range 2 n body P2)).
    { apply for_range_inv; [lia| |].
      - split; [|split].
        + intros a b Hb. unfold P2, P1. updsimp. reflexivity.
        + intros a Ha. unfold P2, P1. updsimp. reflexivity.
        + intros m Hm Hmn. destruct m as [|[|m]]; [| |lia].
          * unfold P2. updsimp. unfold P1. updsimp. rewrite F1 by lia. reflexivity.
          * unfold P2. updsimp. unfold P1. updsimp. rewrite !F1 by lia. reflexivity.
      - intros m Q Hm (G1 & G2 & G3). unfold body. split; [|split].
        + intros a b Hb. updsimp. apply G1, Hb.
        + intros a Ha. updsimp. apply G2, Ha.
        + intros m' Hm' Hlt. destruct (Nat.eq_dec m' m) as [->|Hne].
          * updsimp. rewrite !G1 by lia. rewrite !F1 by lia.
            destruct m as [|[|m]]; [lia|lia|]. reflexivity.
          * updsimp. apply G3; lia. }
    set (P3 := for_range 2 n body P2) in *. destruct G as (G1 & G2 & G3).
    repeat split.
    + intros n' j Hj. updsimp.
      destruct (Nat.eq_dec j (n+1)) as [->|Hne].
      * rewrite G2 by lia. apply F1; lia.
      * rewrite G1 by lia. apply F1; lia.
    + intros n' m Hm Hr'. destruct (Nat.eq_dec n' n) as [->|Hne].
      * destruct (Nat.eq_dec m n) as [->|Hmn].
        -- updsimp. rewrite G1 by lia. rewrite F1 by lia. now rewrite dschmidt_n_n by lia.
        -- updsimp. apply G3; lia.
      * updsimp. rewrite G1 by lia. apply F2; lia.
    + updsimp. rewrite G1 by lia. exact F3.
Qed.
End Tab.

Theorem legendre_poly_ok oob nmax theta : (1 <= nmax)%nat -> 0 <= theta <= 180 ->
  exists P, legendre_poly oob nmax theta = Ok P /\
  (forall n m, (m <= n <= nmax)%nat -> P n m = schmidt n m (rad theta)) /\
  (forall n m, (m <= n <= nmax)%nat -> is_derive (schmidt n m) (rad theta) (P m (n + 1)%nat)).
Proof.
  intros Hn Ht. unfold legendre_poly.
  destruct (Nat.eqb_spec nmax 0) as [E|_]; [lia|].
  rewrite !rad_radians, !sinth_sin by exact Ht.
  eexists; split; [reflexivity|].
  pose proof (leg_derivs_inv nmax (rad theta) Hn _
                (leg_vals_inv oob nmax (rad theta) Hn _ (leg_init_inv oob nmax (rad theta) Hn))) as (F1 & F2 & F3).
  split; [exact F1|].
  intros n m Hm. destruct n as [|n].
  - replace m with 0%nat by lia. cbn [Nat.add]. rewrite F3.
    apply (is_derive_ext (fun _ => 1)); [intros t; symmetry; apply schmidt_00|].
    apply (@is_derive_const R_AbsRing R_NormedModule).
  - rewrite F2 by lia. apply is_derive_schmidt; lia.
Qed.

(** ** Normalisation: the squares sum to one *)
Lemma legendre_one n : Qf n 0 1 = 1.
Proof.
  assert (G : Qf n 0 1 = 1 /\ Qf (S n) 0 1 = 1); [|apply G].
  induction n as [|n [IH1 IH2]].
  - split; [apply Qf_00|]. rewrite Qf_sub, Qf_00. cbn. ring.
  - split; [exact IH2|]. pose proof (Qf_rec n 0 1) as R. rewrite IH1, IH2 in R.
    change (INR 0) with 0 in R. rewrite !S_INR in R. pose proof (pos_INR n).
    apply (Rmult_eq_reg_l (INR n + 1 + 1)); [|lra]. lra.
Qed.

Lemma schmidt_pole n m : (m <= n)%nat -> schmidt n m 0 = if Nat.eqb m 0 then 1 else 0.
Proof.
  intros H. rewrite schmidt_Q, cos_0, sin_0. destruct m as [|m].
  - rewrite legendre_one. unfold cn, norm. rewrite Nat.sub_0_r, Nat.add_0_r. cbn [Nat.eqb pow].
    replace (1 * INR (fact n) / INR (fact n)) with 1 by (field; apply INR_fact_neq_0). rewrite sqrt_1. ring.
  - cbn [Nat.eqb pow]. ring.
Qed.

Definition sumsq (n : nat) (th : R) : R := sum_f_R0 (fun m => schmidt n m th ^ 2) n.

(** telescoping flux between the orders m and m+1 *)
Definition flux (n m : nat) (th : R) : R :=
  match m with
  | O => - 2 * sqrt (INR (n * n + n) / 2) * schmidt n 0 th * schmidt n 1 th
  | _ => - sqrt (INR ((n + m + 1) * (n - m))) * schmidt n m th * schmidt n (m + 1) th
  end.

Lemma sqrt_half x : 0 <= x -> sqrt (2 * x) = 2 * sqrt (x / 2).
Proof.
  intros H. replace (2 * x) with ((2 * 2) * (x / 2)) by field.
  rewrite sqrt_mult by lra. rewrite sqrt_square by lra. reflexivity.
Qed.

Lemma sum_flux n th k : (0 < n)%nat -> (k <= n)%nat ->
  sum_f_R0 (fun m => 2 * schmidt n m th * dschmidt n m th) k = flux n k th.
Proof.
  intros Hn. induction k as [|k IH]; intros Hk.
  - cbn [sum_f_R0 flux dschmidt]. ring.
  - cbn [sum_f_R0]. rewrite IH by lia. destruct k as [|[|k]].
    + cbn [flux dschmidt]. replace (n * n + n - 2)%nat with ((n + 1 + 1) * (n - 1))%nat by nia.
      rewrite (mult_INR 2 (n * n + n)). change (INR 2) with 2. rewrite sqrt_half by apply pos_INR.
      cbn [Nat.add]. field.
    + cbn [flux dschmidt].
      replace (n - 2 + 1)%nat with (n - 1)%nat by lia. replace (n + 2)%nat with (n + 1 + 1)%nat by lia.
      replace (2 - 1)%nat with 1%nat by lia. cbn [Nat.add]. field.
    + unfold flux, dschmidt.
      replace (n - S (S (S k)) + 1)%nat with (n - S (S k))%nat by lia.
      replace (n + S (S (S k)))%nat with (n + S (S k) + 1)%nat by lia.
      replace (S (S (S k)) - 1)%nat with (S (S k)) by lia.
      replace (S (S k) + 1)%nat with (S (S (S k))) by lia. field.
Qed.

Lemma flux_end n th : (0 < n)%nat -> flux n n th = 0.
Proof.
  intros H. destruct n as [|n]; [lia|]. unfold flux. rewrite (cn_gt (S n) (S n + 1)) by lia. ring.
Qed.

Lemma is_derive_sum (f d : nat -> R -> R) x k :
  (forall m, (m <= k)%nat -> is_derive (f m) x (d m x)) ->
  is_derive (fun t => sum_f_R0 (fun m => f m t) k) x (sum_f_R0 (fun m => d m x) k).
Proof.
  induction k as [|k IH]; intros H; cbn [sum_f_R0].
  - apply H; lia.
  - apply is_derive_addR; [apply IH; intros; apply H; lia|apply H; lia].
Qed.

Lemma sumsq_derive n th : (0 < n)%nat -> is_derive (sumsq n) th 0.
Proof.
  intros Hn. unfold sumsq.
  rewrite <- (flux_end n th Hn), <- (sum_flux n th n Hn (le_n n)).
  apply (is_derive_sum (fun m t => schmidt n m t ^ 2) (fun m t => 2 * schmidt n m t * dschmidt n m t)).
  intros m Hm. evar_last; [apply is_derive_pow, is_derive_schmidt; lia|]. cbn [INR pred pow]. ring.
Qed.

Lemma sumsq_one n th : sumsq n th = 1.
Proof.
  destruct n as [|n].
  - unfold sumsq. cbn [sum_f_R0]. rewrite schmidt_00. ring.
  - assert (E : sumsq (S n) th = sumsq (S n) 0).
    { destruct (Rtotal_order 0 th) as [H|[H|H]].
      - symmetry. apply (eq_is_derive (sumsq (S n)) 0 th); [|exact H].
        intros t _. apply sumsq_derive; lia.
      - now rewrite <- H.
      - apply (eq_is_derive (sumsq (S n)) th 0); [|exact H].
        intros t _. apply sumsq_derive; lia. }
    rewrite E. unfold sumsq.
    assert (G : forall k, (k <= S n)%nat -> sum_f_R0 (fun m => schmidt (S n) m 0 ^ 2) k = 1).
    { induction k as [|k IH]; intros Hk; cbn [sum_f_R0].
      - rewrite schmidt_pole by lia. cbn. ring.
      - rewrite IH, schmidt_pole by lia. cbn [Nat.eqb]. ring. }
    apply G. lia.
Qed.

Lemma sum_f_R0_term_le (f : nat -> R) k m : (forall i, 0 <= f i) -> (m <= k)%nat -> f m <= sum_f_R0 f k.
Proof.
  intros Hf. induction k as [|k IH]; intros H; cbn [sum_f_R0].
  - replace m with 0%nat by lia. lra.
  - destruct (Nat.eq_dec m (S k)) as [->|Hne].
    + pose proof (cond_pos_sum f k Hf). lra.
    + specialize (IH ltac:(lia)). specialize (Hf (S k)). lra.
Qed.

Lemma schmidt_bound n m th : (m <= n)%nat -> Rabs (schmidt n m th) <= 1.
Proof.
  intros H. pose proof (sumsq_one n th) as S. unfold sumsq in S.
  pose proof (sum_f_R0_term_le (fun m => schmidt n m th ^ 2) n m (fun i => pow2_ge_0 _) H) as B.
  cbv beta in B. rewrite S in B. apply Rabs_le. split; nra.
Qed.

(** ** Parity *)
Lemma dw_parity n k x : dw n k (- x) = (-1) ^ k * dw n k x.
Proof.
  revert x. unfold dw. induction k as [|k IH]; intros x.
  - cbn. unfold w. replace ((- x) ^ 2) with (x ^ 2) by ring. ring.
  - cbn [Derive_n pow].
    assert (D : is_derive (fun t => Derive_n (w n) k (- t)) x (- Derive (Derive_n (w n) k) (- x))).
    { evar_last.
      - apply (is_derive_comp (Derive_n (w n) k) (fun t => - t)).
        + apply (smooth_is_derive (w n) k), smooth_w.
        + apply (is_derive_opp (fun t : R => t)). apply (@is_derive_id R_AbsRing).
      - unfold scal; cbn. unfold mult, opp, one; cbn. ring. }
    assert (D2 : is_derive (fun t => Derive_n (w n) k (- t)) x ((-1) ^ k * Derive (Derive_n (w n) k) x)).
    { apply (is_derive_ext (fun t => (-1) ^ k * Derive_n (w n) k t)).
      - intros t. symmetry. apply IH.
      - apply is_derive_scalR, (smooth_is_derive (w n) k), smooth_w. }
    pose proof (is_derive_unique _ _ _ D) as U1. rewrite (is_derive_unique _ _ _ D2) in U1. lra.
Qed.

Lemma schmidt_parity n m th : schmidt n m (PI - th) = (-1) ^ (n + m) * schmidt n m th.
Proof.
  rewrite !schmidt_Q. rewrite sin_PI_x.
  replace (cos (PI - th)) with (- cos th).
  2:{ rewrite cos_minus, cos_PI, sin_PI. ring. }
  rewrite !Qf_dw, dw_parity. field. apply cw_neq.
Qed.
