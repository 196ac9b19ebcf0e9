(** Piecewise polynomials: evaluation and derivatives. *)
From Coq Require Import Reals List Arith ZArith String Bool Lia Lra.
From Coquelicot Require Import Coquelicot.
From Verif Require Import M_Prelude M_ND Spec_Field Spec_PP M_Spectrum M_PP P_Spectrum P_Spline.
Import ListNotations.
Open Scope R_scope.

(** ** Polynomials *)
Lemma poch_snoc n : forall z, poch z (S n) = (poch z n * (z + n))%nat.
Proof.
  induction n as [|n IH]; intros z; [cbn; lia|]. change (poch z (S (S n))) with (z * poch (z + 1) (S n))%nat.
  rewrite IH. change (poch z (S n)) with (z * poch (z + 1) n)%nat. nia.
Qed.
Lemma falling_poch n : forall k, falling (k + n) n = poch (k + 1) n.
Proof.
  induction n as [|n IH]; intros k; [reflexivity|]. cbn [falling]. replace (k + S n - 1)%nat with (k + n)%nat by lia. rewrite IH.
  rewrite poch_snoc. nia.
Qed.
Lemma falling_zero n : forall k, (k < n)%nat -> falling k n = 0%nat.
Proof. induction n as [|n IH]; intros k H; [lia|]. cbn. destruct k; [reflexivity|]. rewrite IH by lia. lia. Qed.
Lemma falling_S n : forall k, falling k (S n) = (falling k n * (k - n))%nat.
Proof.
  induction n as [|n IH]; intros k; [cbn; lia|]. change (falling k (S (S n))) with (k * falling (k - 1) (S n))%nat.
  rewrite IH. change (falling k (S n)) with (k * falling (k - 1) n)%nat. replace (k - 1 - n)%nat with (k - S n)%nat by lia. lia.
Qed.

Lemma fold_plus_Rsum l : fold_left Rplus l 0 = Rsum l.
Proof. exact (npsum_Rsum l). Qed.

Lemma Rsum_shift (f : nat -> R) a n : Rsum (map f (seq a n)) = Rsum (map (fun k => f (a + k)%nat) (seq 0 n)).
Proof.
  f_equal. revert a. induction n as [|n IH]; intros a; [reflexivity|]. cbn [seq map]. rewrite Nat.add_0_r. f_equal.
  rewrite IH, <- (seq_shift n 0), map_map. apply map_ext. intros k. f_equal. lia.
Qed.

Lemma poly_eval_full K row nu s :
  poly_eval K row nu s = Rsum (map (fun k => row (K - 1 - k)%nat * INR (falling k nu) * s ^ (k - nu)) (seq 0 K)).
Proof.
  unfold poly_eval. rewrite fold_plus_Rsum. destruct (Nat.le_gt_cases nu K) as [L|L].
  - replace (seq 0 K) with (seq 0 nu ++ seq nu (K - nu)).
    + rewrite map_app, Rsum_app, (Rsum_seq_ext _ (fun _ => 0)), Rsum_const0; [ring|].
      intros k Hk. rewrite falling_zero by exact Hk. cbn [INR]. ring.
    + replace K with (nu + (K - nu))%nat at 2 by lia. rewrite seq_app. reflexivity.
  - replace (K - nu)%nat with 0%nat by lia. cbn [seq map]. rewrite (Rsum_seq_ext _ (fun _ => 0)), Rsum_const0; [reflexivity|].
    intros k Hk. rewrite falling_zero by lia. cbn [INR]. ring.
Qed.

Lemma poly_deriv K row nu s : (nu < K)%nat ->
  poly_eval (K - nu) (fun r => row r * INR (poch (K - nu - r) nu)) 0 s = poly_eval K row nu s.
Proof.
  intros H. unfold poly_eval. rewrite !fold_plus_Rsum, (Rsum_shift _ nu). rewrite Nat.sub_0_r. apply Rsum_seq_ext. intros k Hk.
  cbn [falling]. change (INR 1) with 1. rewrite Nat.sub_0_r. replace (nu + k - nu)%nat with k by lia.
  replace (K - 1 - (nu + k))%nat with (K - nu - 1 - k)%nat by lia.
  rewrite (Nat.add_comm nu k), falling_poch. replace (K - nu - (K - nu - 1 - k))%nat with (k + 1)%nat by lia. ring.
Qed.

Lemma poly_eval_high K row nu s : (K <= nu)%nat -> poly_eval K row nu s = 0.
Proof. intros H. unfold poly_eval. replace (K - nu)%nat with 0%nat by lia. reflexivity. Qed.

Lemma pp_deriv_eval p nu v d : pp_eval (pp_deriv p nu) 0 v d = pp_eval p nu v d.
Proof.
  unfold pp_eval. assert (EI : interval (pp_deriv p nu) v = interval p v).
  { unfold interval, pp_deriv. destruct (_ <=? _)%nat; [destruct (_ =? _)%nat|]; reflexivity. }
  rewrite EI. destruct (interval p v) as [i|]; [|reflexivity]. f_equal. unfold pp_deriv.
  destruct (Nat.leb_spec (p_k p) nu) as [L|L].
  - destruct (Nat.eqb_spec nu 0) as [ -> |N]; [reflexivity|]. rewrite (poly_eval_high (p_k p) (fun r => p_c p r i d) nu) by exact L. cbn. ring.
  - cbn [p_k p_c p_x]. exact (poly_deriv (p_k p) (fun r => p_c p r i d) nu _ L).
Qed.

Lemma is_derive_poly K row nu s : is_derive (fun s => poly_eval K row nu s) s (poly_eval K row (S nu) s).
Proof.
  rewrite poly_eval_full.
  apply (is_derive_ext (fun s => Rsum (map (fun k => row (K - 1 - k)%nat * INR (falling k nu) * s ^ (k - nu)) (seq 0 K)))).
  { intros t. symmetry. apply poly_eval_full. }
  generalize (seq 0 K). intros l. induction l as [|k l IH].
  - cbn [map]. change (Rsum []) with 0. apply (is_derive_const 0 s).
  - cbn [map]. rewrite Rsum_cons. 
    apply (is_derive_ext (fun s => row (K - 1 - k)%nat * INR (falling k nu) * s ^ (k - nu) +
              Rsum (map (fun k => row (K - 1 - k)%nat * INR (falling k nu) * s ^ (k - nu)) l))); [intros t; rewrite Rsum_cons; reflexivity|].
    apply (is_derive_plus (V := R_NormedModule)); [|exact IH]. clear IH.
    rewrite falling_S, mult_INR. destruct (k - nu)%nat as [|j] eqn:E.
    + auto_derive; [exact I|]. cbn [INR]. ring.
    + auto_derive; [exact I|]. replace (k - S nu)%nat with j by lia. cbn [pred]. change (match j with O => 1 | S _ => INR j + 1 end) with (INR (S j)). ring.
Qed.

Lemma Derive_n_poly K row a q : forall nu y,
  Derive_n (fun y => poly_eval K row 0 (q * y - a)) nu y = q ^ nu * poly_eval K row nu (q * y - a).
Proof.
  induction nu as [|nu IH]; intros y; [cbn [Derive_n]; rewrite pow_O; ring|].
  cbn [Derive_n]. rewrite (Derive_ext _ (fun y => q ^ nu * poly_eval K row nu (q * y - a))) by (intros t; apply IH).
  apply is_derive_unique.
  evar_last. { apply is_derive_scal. apply (is_derive_comp (fun s => poly_eval K row nu s) (fun y => q * y - a)).
    - apply is_derive_poly.
    - auto_derive; [exact I|reflexivity]. }
  unfold scal; cbn; unfold mult; cbn. ring.
Qed.
Lemma is_derive_n_poly K row a q nu y :
  is_derive_n (fun y => poly_eval K row 0 (q * y - a)) nu y (q ^ nu * poly_eval K row nu (q * y - a)).
Proof.
  destruct nu as [|nu]; [cbn [is_derive_n]; rewrite pow_O; ring|]. cbn [is_derive_n].
  apply (is_derive_ext (fun y => q ^ nu * poly_eval K row nu (q * y - a))); [intros t; symmetry; apply Derive_n_poly|].
  evar_last. { apply is_derive_scal. apply (is_derive_comp (fun s => poly_eval K row nu s) (fun y => q * y - a)).
    - apply is_derive_poly.
    - auto_derive; [exact I|reflexivity]. }
  unfold scal; cbn; unfold mult; cbn. ring.
Qed.

Lemma piece_poly x K c i d t : piece x K c i d t = poly_eval K (fun r => c r i d) 0 (t - nth i x 0).
Proof.
  rewrite poly_eval_full. apply Rsum_seq_ext. intros k _. cbn [falling INR]. rewrite Nat.sub_0_r. ring.
Qed.

(** ** Interval search *)
Lemma scan_spec v : forall x k i, (i + 1 < List.length x)%nat -> v < nth (i + 1) x 0 ->
  (forall j, (j < i)%nat -> nth (j + 1) x 0 <= v) -> scan x v k = (k + i)%nat.
Proof.
  induction x as [|a x IH]; intros k i L H1 H2; [cbn in L; lia|]. destruct x as [|b x]; [cbn in L; lia|].
  change (scan (a :: b :: x) v k) with (if Rlt_dec v b then k else scan (b :: x) v (S k)). destruct i as [|i].
  - cbn in H1. destruct (Rlt_dec v b); [lia|contradiction].
  - pose proof (H2 0%nat ltac:(lia)) as H0. cbn in H0. destruct (Rlt_dec v b); [lra|].
    rewrite (IH (S k) i); [lia|cbn in L |- *; lia|exact H1|]. intros j Hj. apply (H2 (S j)). lia.
Qed.

Lemma good_mono x : good_breaks x -> forall i j, (i <= j < List.length x)%nat -> nth i x 0 <= nth j x 0.
Proof.
  intros [_ G] i j. induction j as [|j IH]; intros H; [replace i with 0%nat by lia; lra|].
  destruct (Nat.eq_dec i (S j)) as [ -> |N]; [lra|]. pose proof (G j ltac:(lia)) as Gj. rewrite Nat.add_1_r in Gj.
  specialize (IH ltac:(lia)). lra.
Qed.
Lemma good_lt x : good_breaks x -> forall i j, (i < j < List.length x)%nat -> nth i x 0 < nth j x 0.
Proof.
  intros G i j H. pose proof (proj2 G i ltac:(lia)). rewrite Nat.add_1_r in H0. pose proof (good_mono x G (S i) j ltac:(lia)). lra.
Qed.

(** every time inside lies in exactly one interval *)
Lemma in_interval_ex x t : good_breaks x -> first_break x <= t <= last_break x -> exists i, in_interval x i t.
Proof.
  intros G Ht. destruct G as [L G]. unfold first_break, last_break in Ht.
  assert (A : forall n, (n + 2 <= List.length x)%nat -> t < nth (n + 1) x 0 -> exists i, (i <= n)%nat /\ nth i x 0 <= t < nth (i + 1) x 0).
  { induction n as [|n IH]; intros Hn H.
    - exists 0%nat. cbn in H |- *. split; [lia|lra].
    - destruct (Rlt_dec t (nth (n + 1) x 0)) as [Q|Q]; [destruct (IH ltac:(lia) Q) as (i & ? & ?); exists i; split; [lia|assumption]|].
      exists (S n). split; [lia|]. split; [|exact H]. rewrite <- Nat.add_1_r. lra. }
  destruct (Req_EM_T t (nth (List.length x - 1) x 0)) as [E|E].
  - exists (List.length x - 2)%nat. replace (List.length x - 1)%nat with (List.length x - 2 + 1)%nat in * by lia.
    split; [lia|]. split; [|right; split; [lia|exact E]]. pose proof (G (List.length x - 2)%nat ltac:(lia)). lra.
  - destruct (A (List.length x - 2)%nat ltac:(lia)) as (i & Hi & Q).
    + replace (List.length x - 2 + 1)%nat with (List.length x - 1)%nat by lia. lra.
    + exists i. split; [lia|]. split; [lra|left; lra].
Qed.

Lemma interval_inside x K c e i t : good_breaks x -> in_interval x i t -> interval (mkpp x K c e) t = Some i.
Proof.
  intros G (L & H1 & H2). unfold interval. cbn [p_x p_ext]. pose proof (good_mono x G) as M.
  pose proof (M 0%nat i ltac:(lia)) as M0.
  destruct (Rlt_dec t (nth 0 x 0)); [lra|].
  destruct H2 as [H2|[H2 H3]].
  - pose proof (M (i + 1)%nat (List.length x - 1)%nat ltac:(lia)) as M1.
    destruct (Rlt_dec _ t); [lra|]. destruct (Req_EM_T t _); [lra|]. f_equal.
    apply (scan_spec t x 0 i L H2). intros j Hj. pose proof (M (j + 1)%nat i ltac:(lia)). lra.
  - replace (List.length x - 1)%nat with (i + 1)%nat by lia. destruct (Rlt_dec _ t); [lra|].
    destruct (Req_EM_T t _); [|contradiction]. f_equal. lia.
Qed.

(** breaks with zero-length intervals at both ends *)
Definition wrap (x : list R) : list R := first_break x :: x ++ [last_break x].
Lemma wrap_length x : List.length (wrap x) = (List.length x + 2)%nat.
Proof. unfold wrap. cbn [List.length]. rewrite app_length. cbn. lia. Qed.
Lemma wrap_0 x : nth 0 (wrap x) 0 = first_break x. Proof. reflexivity. Qed.
Lemma wrap_mid x i : (i < List.length x)%nat -> nth (i + 1) (wrap x) 0 = nth i x 0.
Proof. intros H. rewrite Nat.add_1_r. unfold wrap. cbn [nth]. apply app_nth1, H. Qed.
Lemma wrap_last x : nth (List.length x + 1) (wrap x) 0 = last_break x.
Proof. rewrite Nat.add_1_r. unfold wrap. cbn [nth]. rewrite app_nth2, Nat.sub_diag by lia. reflexivity. Qed.

Lemma interval_wrap x K c t : good_breaks x ->
  (t < first_break x -> interval (mkpp (wrap x) K c true) t = Some 0%nat) /\
  (last_break x <= t -> interval (mkpp (wrap x) K c true) t = Some (List.length x)) /\
  (forall i, in_interval x i t -> t < last_break x -> interval (mkpp (wrap x) K c true) t = Some (i + 1)%nat).
Proof.
  intros G. pose proof G as [L2 _]. pose proof (good_mono x G) as M. unfold interval. cbn [p_x p_ext]. rewrite wrap_length.
  replace (List.length x + 2 - 1)%nat with (List.length x + 1)%nat by lia. rewrite wrap_last, wrap_0.
  replace (List.length x + 2 - 2)%nat with (List.length x) by lia.
  assert (FL : first_break x < last_break x) by (unfold first_break, last_break; apply good_lt; [exact G|lia]).
  split; [|split].
  - intros H. destruct (Rlt_dec t _); [reflexivity|lra].
  - intros H. destruct (Rlt_dec t _); [lra|]. destruct (Rlt_dec _ t); [reflexivity|]. destruct (Req_EM_T _ _); [reflexivity|lra].
  - intros i (L & H1 & H2) Hl. pose proof (M 0%nat i ltac:(lia)) as M0. fold (first_break x) in M0.
    destruct (Rlt_dec t _); [lra|]. destruct (Rlt_dec _ t); [lra|]. destruct (Req_EM_T _ _); [lra|]. f_equal.
    assert (H2' : t < nth (i + 1) x 0).
    { destruct H2 as [H2|[E1 E2]]; [exact H2|]. unfold last_break in Hl. replace (List.length x - 1)%nat with (i + 1)%nat in Hl by lia. lra. }
    rewrite (scan_spec t (wrap x) 0 (i + 1)); [lia| | |].
    + rewrite wrap_length. lia.
    + rewrite wrap_mid by lia. exact H2'.
    + intros j Hj. rewrite wrap_mid by lia. pose proof (M j i ltac:(lia)). lra.
Qed.

(** ** Evaluation *)
Definition model (x : list R) (K D : nat) (c : nat -> nat -> nat -> R) : base :=
  base_init (Some x) None (Some (mkc3 K (List.length x - 1) D c)).

(** the k-th derivative of the polynomial piece at its end *)
Definition end_deriv (x : list R) (K : nat) (c : nat -> nat -> nat -> R) (right : bool) (k d : nat) : R :=
  if right then poly_eval K (fun r => c r (List.length x - 2)%nat d) k (last_break x - nth (List.length x - 2) x 0)
  else poly_eval K (fun r => c r 0%nat d) k 0.

(** the polynomial used outside: no factorials *)
Definition bin_value (x : list R) (K : nat) (c : nat -> nat -> nat -> R) (right : bool) (key nu d : nat) (t : R) : R :=
  let e := if right then last_break x else first_break x in
  Rsum (map (fun k => end_deriv x K c right k d * INR (falling k nu) * (t - e) ^ (k - nu)) (seq 0 key)).

(** the polynomial object after the extension *)
Lemma extended x K D c key : good_breaks x -> (key <= K)%nat ->
  let PP := mkpp x K c true in
  exists P1 P2, pp_extend PP (make_bin PP K key (first_break x)) (first_break x) = Ok P1 /\
    pp_extend P1 (make_bin P1 K key (last_break x)) (last_break x) = Ok P2 /\
    p_x P2 = wrap x /\ p_k P2 = K /\ p_ext P2 = true /\
    forall r d, (r < K)%nat -> (d < D)%nat ->
      p_c P2 r 0%nat d = (if (K - 1 - r <? key)%nat then end_deriv x K c false (K - 1 - r) d else 0) /\
      p_c P2 r (List.length x) d = (if (K - 1 - r <? key)%nat then end_deriv x K c true (K - 1 - r) d else 0) /\
      forall i, (i + 1 < List.length x)%nat -> p_c P2 r (i + 1)%nat d = c r i d.
Proof.
  intros G Hk PP. pose proof G as [L2 _].
  assert (FL : first_break x < last_break x) by (unfold first_break, last_break; apply good_lt; [exact G|lia]).
  assert (IF : in_interval x 0 (first_break x)).
  { split; [lia|]. unfold first_break. split; [lra|]. left. apply good_lt; [exact G|lia]. }
  assert (IL : in_interval x (List.length x - 2) (last_break x)).
  { split; [lia|]. unfold last_break. split; [left; apply good_lt; [exact G|lia]|]. right. split; [lia|]. f_equal. lia. }
  unfold pp_extend at 1. cbn [p_x PP]. fold (last_break x). destruct (Rle_dec (last_break x) (first_break x)); [lra|].
  fold (first_break x). destruct (Rle_dec (first_break x) (first_break x)) as [Hle|]; [|lra]. clear Hle.
  eexists. eexists. split; [reflexivity|]. split.
  { unfold pp_extend. cbn [p_x List.length]. 
    replace (nth (S (List.length x) - 1) (first_break x :: x) 0) with (last_break x).
    - destruct (Rle_dec (last_break x) (last_break x)); [reflexivity|lra].
    - replace (S (List.length x) - 1)%nat with (S (List.length x - 1)) by lia. reflexivity. }
  cbn [p_x p_k p_ext p_c]. split; [reflexivity|]. split; [reflexivity|]. split; [reflexivity|].
  replace (S (List.length x) - 1)%nat with (List.length x) by lia.
  intros r d Hr Hd. split; [|split].
  - destruct (Nat.ltb_spec 0 (List.length x)); [|lia]. cbn [Nat.eqb]. unfold make_bin.
    destruct (Nat.ltb_spec r K); [|lia]. cbn [andb]. destruct (_ <? key)%nat; [|reflexivity].
    unfold pp_eval. unfold PP. rewrite (interval_inside x K c true 0 _ G IF). cbn [p_k p_c p_x]. unfold end_deriv, first_break.
    rewrite Rminus_diag_eq by reflexivity. reflexivity.
  - destruct (Nat.ltb_spec (List.length x) (List.length x)); [lia|]. unfold make_bin.
    destruct (Nat.ltb_spec r K); [|lia]. cbn [andb]. destruct (_ <? key)%nat; [|reflexivity].
    unfold pp_eval. 
    set (P1 := mkpp (first_break x :: x) _ _ _).
    assert (EI : interval P1 (last_break x) = Some (List.length x - 1)%nat).
    { unfold interval, P1. cbn [p_x p_ext List.length]. change (nth 0 (first_break x :: x) 0) with (first_break x). destruct (Rlt_dec (last_break x) (first_break x)); [lra|].
      replace (nth (S (List.length x) - 1) (first_break x :: x) 0) with (last_break x).
      - destruct (Rlt_dec (last_break x) (last_break x)); [lra|]. destruct (Req_EM_T (last_break x) (last_break x)); [|contradiction]. apply (f_equal (@Some nat)). lia.
      - replace (S (List.length x) - 1)%nat with (S (List.length x - 1)) by lia. reflexivity. }
    change (interval _ (last_break x)) with (interval P1 (last_break x)). rewrite EI. unfold P1. cbn [p_k p_c p_x].
    destruct (Nat.eqb_spec (List.length x - 1) 0); [lia|]. unfold end_deriv.
    replace (List.length x - 1 - 1)%nat with (List.length x - 2)%nat by lia.
    replace (List.length x - 1)%nat with (S (List.length x - 2)) at 1 by lia. reflexivity.
  - intros i Hi. destruct (Nat.ltb_spec (i + 1) (List.length x)); [|lia]. destruct (Nat.eqb_spec (i + 1) 0); [lia|].
    cbn [PP p_c]. f_equal. lia.
Qed.

Lemma bin_poly x K c right key nu d s (row : nat -> R) : (key <= K)%nat ->
  (forall r, (r < K)%nat -> row r = if (K - 1 - r <? key)%nat then end_deriv x K c right (K - 1 - r) d else 0) ->
  poly_eval K row nu s = Rsum (map (fun k => end_deriv x K c right k d * INR (falling k nu) * s ^ (k - nu)) (seq 0 key)).
Proof.
  intros Hk H. rewrite poly_eval_full. replace (seq 0 K) with (seq 0 key ++ seq (0 + key) (K - key)) by (rewrite <- seq_app; f_equal; lia). rewrite map_app, Rsum_app.
  rewrite (Rsum_shift _ (0 + key)), (Rsum_seq_ext (fun k => _ * INR (falling (0 + key + k) nu) * _) (fun _ => 0)).
  - rewrite Rsum_const0, Rplus_0_r. apply Rsum_seq_ext. intros k Hk'. rewrite H by lia.
    replace (K - 1 - (K - 1 - k))%nat with k by lia. destruct (Nat.ltb_spec k key); [reflexivity|lia].
  - intros k Hk'. rewrite H by lia. replace (K - 1 - (K - 1 - (0 + key + k)))%nat with (key + k)%nat by lia.
    destruct (Nat.ltb_spec (key + k) key); [lia|]. ring.
Qed.

(** Some requested time is outside. *)
Definition some_outside (x : list R) (time : nd R) : Prop := exists t, In t (elems time) /\ outside x t.

Lemma fold_min_le l : forall y, (forall z, In z (y :: l) -> fold_left Rmin l y <= z) /\ In (fold_left Rmin l y) (y :: l).
Proof.
  induction l as [|a l IH]; intros y; cbn [fold_left]; [split; [intros z [ -> |[]]; lra|left; reflexivity]|].
  destruct (IH (Rmin y a)) as [I1 I2]. split.
  - intros z [ -> |[ -> |Hz]].
    + pose proof (I1 _ (or_introl eq_refl)). pose proof (Rmin_l z a). lra.
    + pose proof (I1 _ (or_introl eq_refl)). pose proof (Rmin_r y z). lra.
    + apply I1. right. exact Hz.
  - destruct I2 as [I2|I2]; [|right; right; exact I2]. rewrite <- I2. unfold Rmin. destruct (Rle_dec y a); [left; reflexivity|right; left; reflexivity].
Qed.
Lemma fold_max_ge l : forall y, (forall z, In z (y :: l) -> z <= fold_left Rmax l y) /\ In (fold_left Rmax l y) (y :: l).
Proof.
  induction l as [|a l IH]; intros y; cbn [fold_left]; [split; [intros z [ -> |[]]; lra|left; reflexivity]|].
  destruct (IH (Rmax y a)) as [I1 I2]. split.
  - intros z [ -> |[ -> |Hz]].
    + pose proof (I1 _ (or_introl eq_refl)). pose proof (Rmax_l z a). lra.
    + pose proof (I1 _ (or_introl eq_refl)). pose proof (Rmax_r y z). lra.
    + apply I1. right. exact Hz.
  - destruct I2 as [I2|I2]; [|right; right; exact I2]. rewrite <- I2. unfold Rmax. destruct (Rle_dec y a); [right; left; reflexivity|left; reflexivity].
Qed.

Lemma out_test x time mn mx : amin (elems time) = Ok mn -> amax (elems time) = Ok mx ->
  (if Rlt_dec mn (first_break x) then true else if Rlt_dec (last_break x) mx then true else false) = true <-> some_outside x time.
Proof.
  unfold amin, amax, some_outside. destruct (elems time) as [|y l]; [discriminate|]. intros E1 E2. injection E1 as <-. injection E2 as <-.
  destruct (fold_min_le l y) as [A1 A2]. destruct (fold_max_ge l y) as [B1 B2]. unfold outside. split.
  - destruct (Rlt_dec _ _) as [Q|Q]; [intros _; eexists; split; [exact A2|left; exact Q]|].
    destruct (Rlt_dec _ _) as [Q'|Q']; [intros _; eexists; split; [exact B2|right; exact Q']|discriminate].
  - intros (t & Ht & Ho). specialize (A1 t Ht). specialize (B1 t Ht).
    destruct (Rlt_dec _ _) as [Q|Q]; [reflexivity|]. destruct (Rlt_dec _ _) as [Q'|Q']; [reflexivity|]. exfalso. lra.
Qed.

Definition nu_of (o : option nat) : nat := match o with None => 0%nat | Some n => n end.
Definition key_of (K : nat) (e : extrap) : result Z := bind (extrap_key (Z.of_nat K) e) (fun z => Ok (Z.min z (Z.of_nat K))).
Definition dim_of (D : nat) (o : option nat) : nat := match o with None => D | Some n => Nat.min n D end.

(** Complete description of synth_coeffs. *)
Lemma synth_coeffs_spec x K D c time dim deriv e : good_breaks x -> (1 <= K)%nat -> (1 <= D)%nat -> elems time <> [] ->
  let nu := nu_of deriv in
  (~ some_outside x time ->
     exists r, synth_coeffs (model x K D c) time dim deriv e = Ok r /\ s_sh r = sh time /\ s_dim r = dim_of D dim /\
       forall idx d i, (d < D)%nat -> in_interval x i (at_ time idx) ->
         s_at r idx d = Some (poly_eval K (fun r => c r i d) nu (at_ time idx - nth i x 0) * 365.25 ^ nu)) /\
  (some_outside x time -> (exists z, extrap_key (Z.of_nat K) e = Err z) ->
     synth_coeffs (model x K D c) time dim deriv e = Err ValueError) /\
  (some_outside x time -> forall z, key_of K e = Ok z -> (z <= 0)%Z ->
     exists r, synth_coeffs (model x K D c) time dim deriv e = Ok r /\ s_sh r = sh time /\ s_dim r = dim_of D dim /\
       (forall idx d i, (d < D)%nat -> in_interval x i (at_ time idx) ->
         s_at r idx d = Some (poly_eval K (fun r => c r i d) nu (at_ time idx - nth i x 0) * 365.25 ^ nu)) /\
       (forall idx d, outside x (at_ time idx) -> s_at r idx d = None)) /\
  (some_outside x time -> forall z, key_of K e = Ok z -> (0 < z)%Z ->
     exists r, synth_coeffs (model x K D c) time dim deriv e = Ok r /\ s_sh r = sh time /\ s_dim r = dim_of D dim /\
       (forall idx d i, (d < D)%nat -> in_interval x i (at_ time idx) -> at_ time idx < last_break x ->
         s_at r idx d = Some (poly_eval K (fun r => c r i d) nu (at_ time idx - nth i x 0) * 365.25 ^ nu)) /\
       (forall idx d, (d < D)%nat -> last_break x <= at_ time idx ->
         s_at r idx d = Some (bin_value x K c true (Z.to_nat z) nu d (at_ time idx) * 365.25 ^ nu)) /\
       (forall idx d, (d < D)%nat -> at_ time idx < first_break x ->
         s_at r idx d = Some (bin_value x K c false (Z.to_nat z) nu d (at_ time idx) * 365.25 ^ nu))).
Proof.
  intros G HK HD HE nu. pose proof G as [L2 _].
  assert (SC : synth_coeffs (model x K D c) time dim deriv e =
    let PP := mkpp x K (fun r i d => c (r + 0)%nat i d) true in
    bind (amin (elems time)) (fun mn => bind (amax (elems time)) (fun mx =>
      bind (if (if Rlt_dec mn (first_break x) then true else if Rlt_dec (last_break x) mx then true else false) then
              bind (key_of K e) (fun key =>
              if (0 <? key)%Z then
                bind (pp_extend PP (make_bin PP K (Z.to_nat key) (first_break x)) (first_break x)) (fun PP =>
                pp_extend PP (make_bin PP K (Z.to_nat key) (last_break x)) (last_break x))
              else Ok (mkpp (p_x PP) (p_k PP) (p_c PP) false))
            else Ok PP) (fun PP =>
      Ok (mkcres (sh time) (dim_of D dim) (fun i d =>
            option_map (fun v => v * 365.25 ^ nu) (pp_eval (pp_deriv PP nu) 0 (at_ time i) d))))))).
  { unfold model, base_init, synth_coeffs. cbn [c_k c_m c_d c_v b_coeffs b_breaks b_dim b_order].
    assert (EB : match x with [b] => Some [b; b] | _ => Some x end = Some x) by (destruct x as [|? [|]]; cbn in L2; try lia; reflexivity).
    rewrite EB. unfold take_last. cbn [c_k c_m c_d c_v].
    replace (if (Z.of_nat K =? 0)%Z then 0%Z else if (0 <? Z.of_nat K)%Z then Z.max 0 (Z.of_nat K - Z.of_nat K) else Z.min (Z.of_nat K) (- Z.of_nat K)) with 0%Z.
    2:{ destruct (Z.eqb_spec (Z.of_nat K) 0); [reflexivity|]. destruct (Z.ltb_spec 0 (Z.of_nat K)); lia. }
    change (Z.to_nat 0) with 0%nat. rewrite Nat.sub_0_r.
    destruct (Nat.eqb_spec K 0); [lia|]. destruct (Nat.eqb_spec (List.length x - 1) 0); [lia|]. destruct (Nat.eqb_spec D 0); [lia|]. cbn [orb].
    replace (if match dim with Some n2 => (D <? n2)%nat | None => true end then D else match dim with Some n2 => n2 | None => D end) with (dim_of D dim).
    2:{ unfold dim_of. destruct dim as [n2|]; [|reflexivity]. destruct (Nat.ltb_spec D n2); lia. }
    replace (match dim with None => D | Some n2 => if (D <? n2)%nat then D else n2 end) with (dim_of D dim).
    2:{ unfold dim_of. destruct dim as [n2|]; [|reflexivity]. destruct (Nat.ltb_spec D n2); lia. }
    fold nu. destruct x as [|x0 x']; [cbn in L2; lia|]. set (xx := x0 :: x') in *.
    change x0 with (first_break xx). fold (last_break xx).
    destruct (amin (elems time)) as [mn|]; [cbn [bind]|reflexivity]. destruct (amax (elems time)) as [mx|]; [cbn [bind]|reflexivity].
    destruct (if Rlt_dec mn (first_break xx) then true else _); [|reflexivity].
    rewrite Nat2Z.id.
    assert (EK : extrap_key (Z.of_nat K) (match e with XNone => XStr "linear" | _ => e end) = extrap_key (Z.of_nat K) e) by (destruct e; reflexivity).
    rewrite EK. clear EK. unfold key_of. destruct (extrap_key (Z.of_nat K) e) as [z|]; [|reflexivity]. cbn [bind].
    reflexivity. }
  assert (SC' := SC). cbv zeta in SC'.
  destruct (elems time) as [|y l] eqn:EL; [contradiction|]. cbn [amin amax bind] in SC'.
  assert (OT : (if Rlt_dec (fold_left Rmin l y) (first_break x) then true else if Rlt_dec (last_break x) (fold_left Rmax l y) then true else false) = true <-> some_outside x time)
    by (apply out_test; rewrite EL; reflexivity).
  set (test := if Rlt_dec _ _ then _ else _) in *.
  assert (EXT : forall (f g : nat -> R) s, (forall r, f (r + 0)%nat = g r) -> poly_eval K (fun r => f (r + 0)%nat) nu s = poly_eval K g nu s).
  { intros f g s H. rewrite !poly_eval_full. apply Rsum_seq_ext. intros k _. rewrite H. reflexivity. }
  assert (C0 : forall i d s, poly_eval K (fun r => c (r + 0)%nat i d) nu s = poly_eval K (fun r => c r i d) nu s).
  { intros i d s. apply (EXT (fun r => c r i d)). intros r. rewrite Nat.add_0_r. reflexivity. }
  split; [|split; [|split]].
  - intros NO. destruct test; [exfalso; apply NO, OT; reflexivity|]. cbn [bind] in SC'. rewrite SC'. eexists. split; [reflexivity|].
    cbn [s_sh s_dim s_at]. split; [reflexivity|]. split; [reflexivity|]. intros idx d i Hd Hi.
    rewrite pp_deriv_eval. unfold pp_eval. rewrite (interval_inside _ _ _ _ _ _ G Hi). cbn [p_k p_c p_x option_map]. f_equal. f_equal. apply C0.
  - intros SO (z & EZ). apply OT in SO. rewrite SO in SC'. unfold key_of in SC'. rewrite EZ in SC'. cbn [bind] in SC'. rewrite SC'.
    destruct e as [|bb|s|zz]; cbn [extrap_key] in EZ; try discriminate. 
    repeat match type of EZ with (if ?q then _ else _) = _ => destruct q; [discriminate|] end. congruence.
  - intros SO z EZ Hz. apply OT in SO. rewrite SO, EZ in SC'. cbn [bind] in SC'. destruct (Z.ltb_spec 0 z); [lia|]. cbn [bind p_x p_k p_c] in SC'.
    rewrite SC'. eexists. split; [reflexivity|]. cbn [s_sh s_dim s_at]. split; [reflexivity|]. split; [reflexivity|]. split.
    + intros idx d i Hd Hi. rewrite pp_deriv_eval. unfold pp_eval. rewrite (interval_inside _ _ _ _ _ _ G Hi). cbn [p_k p_c p_x option_map]. f_equal. f_equal. apply C0.
    + intros idx d Ho. rewrite pp_deriv_eval. unfold pp_eval, interval. cbn [p_x p_ext]. fold (first_break x). fold (last_break x).
      destruct (Rlt_dec (at_ time idx) (first_break x)); [reflexivity|]. destruct (Rlt_dec (last_break x) (at_ time idx)); [reflexivity|].
      exfalso. unfold outside in Ho. lra.
  - intros SO z EZ Hz. apply OT in SO. rewrite SO, EZ in SC'. cbn [bind] in SC'. destruct (Z.ltb_spec 0 z); [|lia].
    assert (Hk : (Z.to_nat z <= K)%nat).
    { unfold key_of in EZ. destruct (extrap_key _ _) as [z0|]; [|discriminate]. cbn [bind] in EZ. injection EZ as <-. lia. }
    destruct (extended x K D (fun r i d => c (r + 0)%nat i d) (Z.to_nat z) G Hk) as (P1 & P2 & E1 & E2 & X1 & X2 & X3 & X4).
    cbv zeta in E1, E2. rewrite E1 in SC'. cbn [bind] in SC'. rewrite E2 in SC'. cbn [bind] in SC'.
    destruct P2 as [px pk pc pe]. cbn [p_x p_k p_c p_ext] in X1, X2, X3, X4. subst px pk pe.
    rewrite SC'. eexists. split; [reflexivity|]. cbn [s_sh s_dim s_at]. split; [reflexivity|]. split; [reflexivity|].
    assert (ED : forall right k d, end_deriv x K (fun r i d => c (r + 0)%nat i d) right k d = end_deriv x K c right k d).
    { intros right k d. unfold end_deriv. destruct right; rewrite !poly_eval_full; apply Rsum_seq_ext; intros j _; rewrite Nat.add_0_r; reflexivity. }
    split; [|split].
    + intros idx d i Hd Hi Hl. rewrite pp_deriv_eval. unfold pp_eval. destruct (interval_wrap x K pc (at_ time idx) G) as (_ & _ & W).
      rewrite (W i Hi Hl). cbn [p_k p_c p_x option_map]. f_equal. f_equal. destruct Hi as (Li & _). rewrite wrap_mid by lia.
      rewrite !poly_eval_full. apply Rsum_seq_ext. intros k Hk'. destruct (X4 (K - 1 - k)%nat d ltac:(lia) Hd) as (_ & _ & Y).
      rewrite Y by exact Li. rewrite Nat.add_0_r. reflexivity.
    + intros idx d Hd Hl. rewrite pp_deriv_eval. unfold pp_eval. destruct (interval_wrap x K pc (at_ time idx) G) as (_ & W & _).
      rewrite (W Hl). cbn [p_k p_c p_x option_map]. f_equal. f_equal. 
      replace (nth (List.length x) (wrap x) 0) with (last_break x).
      2:{ unfold last_break. rewrite <- (wrap_mid x (List.length x - 1)) by lia. f_equal. lia. }
      rewrite (bin_poly x K c true (Z.to_nat z) nu d); [reflexivity|exact Hk|]. intros r Hr. destruct (X4 r d Hr Hd) as (_ & Y & _). rewrite Y, ED. reflexivity.
    + intros idx d Hd Hl. rewrite pp_deriv_eval. unfold pp_eval. destruct (interval_wrap x K pc (at_ time idx) G) as (W & _ & _).
      rewrite (W Hl). cbn [p_k p_c p_x option_map]. f_equal. f_equal. rewrite wrap_0.
      rewrite (bin_poly x K c false (Z.to_nat z) nu d); [reflexivity|exact Hk|]. intros r Hr. destruct (X4 r d Hr Hd) as (Y & _ & _). rewrite Y, ED. reflexivity.
Qed.
