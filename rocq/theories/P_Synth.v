(** The synthesis loops compute closed sums. *)
From Coq Require Import Reals List Arith ZArith Lia Lra Bool.
From Verif Require Import M_Prelude Spec_Legendre Spec_Field M_Legendre M_Synth.
Import ListNotations.
Open Scope R_scope.

(** ** Lists and sums *)
Lemma Rsum_app l k : Rsum (l ++ k) = Rsum l + Rsum k.
Proof.
  induction l as [|x l IH]; cbn [app].
  - change (Rsum []) with 0. ring.
  - change (Rsum (x :: l ++ k)) with (x + Rsum (l ++ k)). change (Rsum (x :: l)) with (x + Rsum l).
    rewrite IH. ring.
Qed.

Lemma Rsum_cons x l : Rsum (x :: l) = x + Rsum l. Proof. reflexivity. Qed.
Lemma Rsum_nil : Rsum [] = 0. Proof. reflexivity. Qed.

Lemma Rsum_snoc l x : Rsum (l ++ [x]) = Rsum l + x.
Proof. rewrite Rsum_app, Rsum_cons, Rsum_nil. lra. Qed.

Lemma Rsum_map_ext {A} (f g : A -> R) l : (forall x, In x l -> f x = g x) -> Rsum (map f l) = Rsum (map g l).
Proof. intros H. f_equal. apply map_ext_in, H. Qed.

Lemma Rsum_map_scal {A} (f : A -> R) k l : Rsum (map (fun x => k * f x) l) = k * Rsum (map f l).
Proof. induction l as [|x l IH]; cbn [map]; rewrite ?Rsum_cons, ?Rsum_nil; [ring|]. rewrite IH. ring. Qed.

Lemma Rsum_map_plus {A} (f g : A -> R) l :
  Rsum (map (fun x => f x + g x) l) = Rsum (map f l) + Rsum (map g l).
Proof. induction l as [|x l IH]; cbn [map]; rewrite ?Rsum_cons, ?Rsum_nil; [ring|]. rewrite IH. ring. Qed.

Lemma Rsum_map_0 {A} (f : A -> R) l : (forall x, In x l -> f x = 0) -> Rsum (map f l) = 0.
Proof.
  induction l as [|x l IH]; intros H; cbn [map]; rewrite ?Rsum_cons; [reflexivity|].
  rewrite H by (left; reflexivity). rewrite IH; [lra|]. intros; apply H; right; assumption.
Qed.

Lemma range_incl_1_S M : range_incl 1 (S M) = range_incl 1 M ++ [S M].
Proof.
  unfold range_incl. replace (S M + 1 - 1)%nat with (S (M + 1 - 1)) by lia.
  rewrite seq_S. do 2 f_equal. lia.
Qed.

Lemma range_incl_0 M : range_incl 0 M = 0%nat :: range_incl 1 M.
Proof.
  unfold range_incl. replace (M + 1 - 0)%nat with (S (M + 1 - 1)) by lia. reflexivity.
Qed.

Lemma range_incl_spec a b n : In n (range_incl a b) <-> (a <= n <= b)%nat.
Proof. unfold range_incl. rewrite in_seq. lia. Qed.

(** ** Loops *)
Lemma for_rangeM_snoc {A} a b (f : A -> nat -> result A) x : (a <= b)%nat ->
  for_rangeM a (S b) f x = bind (for_rangeM a b f x) (fun y => f y b).
Proof.
  intros H. unfold for_rangeM. replace (S b - a)%nat with (S (b - a)) by lia.
  rewrite seq_S, fold_left_app. cbn [fold_left]. replace (a + (b - a))%nat with b by lia. reflexivity.
Qed.

Lemma for_rangeM_nil {A} a (f : A -> nat -> result A) x : for_rangeM a a f x = Ok x.
Proof. unfold for_rangeM. rewrite Nat.sub_diag. reflexivity. Qed.

Lemma getc_app pre x post : getc (pre ++ x :: post) (length pre) = Ok x.
Proof. unfold getc. rewrite nth_error_app2, Nat.sub_diag by lia. reflexivity. Qed.

Lemma getc_at c pre x post i : c = pre ++ x :: post -> i = length pre -> getc c i = Ok x.
Proof. intros -> ->. apply getc_app. Qed.

Section Gen.
Variables (s : src) (r : R) (P : tab) (sinth : R) (pole : bool) (phi : R).

Definition kk (s : src) (n : nat) : R := match s with Internal => INR (n + 1) | External => - INR n end.
Definition rr (s : src) (r : R) (n : nat) : R :=
  match s with Internal => / r ^ (n + 2) | External => r ^ (n - 1) end.

Definition ang (g h : nat -> R) (m : nat) : R := g m * cos (INR m * phi) + h m * sin (INR m * phi).
Definition ang' (g h : nat -> R) (m : nat) : R := g m * sin (INR m * phi) - h m * cos (INR m * phi).

Lemma synth_m_loop c n pre post g h rn br bt bp M :
  c = pre ++ flat_map (fun m => [g m; h m]) (range_incl 1 M) ++ post ->
  for_rangeM 1 (M + 1) (synth_m s P sinth pole phi c n) (mkacc (length pre) rn br bt bp)
  = Ok (mkacc (length pre + 2 * M) rn
         (br + rn * (kk s n * Rsum (map (fun m => ang g h m * P n m) (range_incl 1 M))))
         (bt + rn * Rsum (map (fun m => - ang g h m * P m (n+1)%nat) (range_incl 1 M)))
         (bp + rn * Rsum (map (fun m => ang' g h m * (INR m * div_P P sinth pole n m)) (range_incl 1 M)))).
Proof.
  revert post. induction M as [|M IH]; intros post E.
  - cbn [Nat.add]. rewrite for_rangeM_nil. cbn [range_incl seq map Nat.sub Nat.add].
    rewrite !Rsum_nil. f_equal. f_equal; [lia|ring|ring|ring].
  - replace (S M + 1)%nat with (S (M + 1)) by lia. rewrite for_rangeM_snoc by lia.
    rewrite range_incl_1_S, flat_map_app, <- app_assoc in E. cbn [flat_map app] in E.
    rewrite (IH _ E). cbn [bind]. unfold synth_m at 1. cbn [a_num a_rn a_br a_bt a_bp].
    replace (M + 1)%nat with (S M) by lia.
    assert (L : length (pre ++ flat_map (fun m => [g m; h m]) (range_incl 1 M)) = (length pre + 2 * M)%nat).
    { rewrite app_length. f_equal. unfold range_incl. replace (M + 1 - 1)%nat with M by lia.
      clear. cut (forall a, length (flat_map (fun m => [g m; h m]) (seq a M)) = (2 * M)%nat); [intros H; apply H|].
      induction M as [|M IHM]; intros a; [reflexivity|].
      cbn [seq flat_map app length]. rewrite IHM. lia. }
    rewrite (getc_at c (pre ++ flat_map (fun m => [g m; h m]) (range_incl 1 M)) (g (S M)) (h (S M) :: post));
      [|rewrite <- app_assoc; exact E|lia].
    cbn [bind].
    rewrite (getc_at c (pre ++ flat_map (fun m => [g m; h m]) (range_incl 1 M) ++ [g (S M)]) (h (S M)) post);
      [|rewrite <- !app_assoc; exact E|rewrite app_assoc, app_length, L; cbn; lia].
    cbn [bind]. rewrite range_incl_1_S, !map_app. cbn [map]. rewrite !Rsum_snoc.
    f_equal. unfold ang, ang', kk. f_equal; [lia| | |]; try ring. destruct s; ring.
Qed.

Definition blk (mmax : nat) (g h : nat -> nat -> R) (n : nat) : list R :=
  g n O :: flat_map (fun m => [g n m; h n m]) (range_incl 1 (Nat.min n mmax)).

Lemma blk_length mmax g h n : length (blk mmax g h n) = (2 * Nat.min n mmax + 1)%nat.
Proof.
  unfold blk. cbn [length]. set (M := Nat.min n mmax). unfold range_incl.
  replace (M + 1 - 1)%nat with M by lia.
  assert (G : forall a, length (flat_map (fun m => [g n m; h n m]) (seq a M)) = (2 * M)%nat); [|rewrite G; lia].
  induction M as [|M' IH]; intros a; [reflexivity|]. cbn [seq flat_map app length]. rewrite IH. lia.
Qed.

(** closed sums for arbitrary tables *)
Definition sum_r (mmax : nat) (g h : nat -> nat -> R) (A : nat -> nat -> R) (n : nat) : R :=
  rr s r n * (kk s n * Rsum (map (fun m => ang (g n) (h n) m * A n m) (range_incl 0 (Nat.min n mmax)))).
Definition sum_t (mmax : nat) (g h : nat -> nat -> R) (D : nat -> nat -> R) (n : nat) : R :=
  rr s r n * Rsum (map (fun m => - ang (g n) (h n) m * D n m) (range_incl 0 (Nat.min n mmax))).
Definition sum_p (mmax : nat) (g h : nat -> nat -> R) (E : nat -> nat -> R) (n : nat) : R :=
  rr s r n * Rsum (map (fun m => ang' (g n) (h n) m * (INR m * E n m)) (range_incl 0 (Nat.min n mmax))).

Lemma rr_step n : (1 <= n)%nat ->
  match s with Internal => rr s r n / r | External => rr s r n * r end = rr s r (S n).
Proof.
  intros H. unfold rr. destruct s.
  - cbn [Nat.add pow]. unfold Rdiv. rewrite <- Rinv_mult. f_equal. ring.
  - replace (S n - 1)%nat with (S (n - 1)) by lia. cbn [pow]. ring.
Qed.

Lemma ang_0 g h : ang g h 0 = g O.
Proof. unfold ang. cbn [INR]. rewrite Rmult_0_l, cos_0, sin_0. ring. Qed.

Lemma synth_n_step c pre post mmax g h n br bt bp :
  (1 <= n)%nat ->
  c = pre ++ blk mmax g h n ++ post ->
  synth_n s r P sinth pole phi c mmax (mkacc (length pre) (rr s r n) br bt bp) n
  = Ok (mkacc (length pre + length (blk mmax g h n)) (rr s r (S n))
         (br + sum_r mmax g h P n)
         (bt + sum_t mmax g h (fun n m => P m (n+1)%nat) n)
         (bp + sum_p mmax g h (div_P P sinth pole) n)).
Proof.
  intros Hn E. unfold synth_n. cbn [a_num a_rn a_br a_bt a_bp].
  unfold blk in E. cbn [app] in E.
  rewrite (getc_at c pre (g n O) _ _ E eq_refl). cbn [bind].
  rewrite blk_length. set (M := Nat.min n mmax) in *.
  replace (length pre + 1)%nat with (length (pre ++ [g n O])) by (rewrite app_length; reflexivity).
  rewrite (synth_m_loop c n (pre ++ [g n O]) post (g n) (h n)) by (rewrite <- app_assoc; exact E).
  cbn [bind a_num a_rn a_br a_bt a_bp]. rewrite rr_step by exact Hn.
  unfold sum_r, sum_t, sum_p. fold M. rewrite !range_incl_0. cbn [map]. rewrite !Rsum_cons, ang_0.
  rewrite app_length. cbn [length].
  f_equal. f_equal; [lia| | |].
  - unfold kk. destruct s; ring.
  - ring.
  - cbn [INR]. ring.
Qed.

Lemma synth_n_loop c post mmax g h nmin K :
  (1 <= nmin)%nat ->
  c = flat_map (blk mmax g h) (seq nmin K) ++ post ->
  for_rangeM nmin (nmin + K) (synth_n s r P sinth pole phi c mmax)
    (mkacc 0 (rr s r nmin) 0 0 0)
  = Ok (mkacc (length (flat_map (blk mmax g h) (seq nmin K))) (rr s r (nmin + K))
         (Rsum (map (sum_r mmax g h P) (seq nmin K)))
         (Rsum (map (sum_t mmax g h (fun n m => P m (n+1)%nat)) (seq nmin K)))
         (Rsum (map (sum_p mmax g h (div_P P sinth pole)) (seq nmin K)))).
Proof.
  intros Hn. revert post. induction K as [|K IH]; intros post E.
  - rewrite Nat.add_0_r, for_rangeM_nil. reflexivity.
  - rewrite Nat.add_succ_r, for_rangeM_snoc by lia.
    rewrite seq_S, flat_map_app in E. cbn [flat_map] in E. rewrite app_nil_r, <- app_assoc in E.
    rewrite (IH _ E). cbn [bind].
    rewrite (synth_n_step c (flat_map (blk mmax g h) (seq nmin K)) post mmax g h (nmin + K)); [|lia|exact E].
    rewrite seq_S, flat_map_app, !map_app, app_length. cbn [flat_map map]. rewrite app_nil_r, !Rsum_snoc.
    reflexivity.
Qed.

(** Errors of the loop: only IndexError, and only for missing coefficients. *)
Lemma getc_ok c i v : getc c i = Ok v -> (i < length c)%nat.
Proof. unfold getc. destruct (nth_error c i) eqn:E; [|discriminate]. intros _. apply nth_error_Some. congruence. Qed.

Lemma getc_err c i : (length c <= i)%nat -> getc c i = Err IndexError.
Proof. intros H. unfold getc. apply nth_error_None in H. now rewrite H. Qed.

Lemma getc_cases c i : getc c i = Err IndexError \/ exists v, getc c i = Ok v /\ (i < length c)%nat.
Proof.
  destruct (Nat.lt_ge_cases i (length c)) as [H|H].
  - right. unfold getc. destruct (nth_error c i) eqn:E; [|apply nth_error_None in E; lia]. eauto.
  - left. apply getc_err, H.
Qed.

Lemma for_rangeM_cases {A} (I : nat -> A -> Prop) a b (f : A -> nat -> result A) x :
  (a <= b)%nat -> I a x ->
  (forall i y, (a <= i < b)%nat -> I i y -> f y i = Err IndexError \/ exists z, f y i = Ok z /\ I (S i) z) ->
  for_rangeM a b f x = Err IndexError \/ exists z, for_rangeM a b f x = Ok z /\ I b z.
Proof.
  intros Hab H0 Hs. induction b as [|b IH].
  - replace a with 0%nat in * by lia. rewrite for_rangeM_nil. right; eauto.
  - destruct (Nat.eq_dec a (S b)) as [->|Hne].
    + rewrite for_rangeM_nil. right; eauto.
    + rewrite for_rangeM_snoc by lia.
      destruct IH as [E|[y [E Hy]]]; [lia|intros; apply Hs; [lia|assumption]| |].
      * rewrite E. left; reflexivity.
      * rewrite E. cbn [bind]. apply Hs; [lia|exact Hy].
Qed.

Definition count (mmax nmin k : nat) : nat := length (flat_map (blk mmax (fun _ _ => 0) (fun _ _ => 0)) (seq nmin (k - nmin))).

Lemma count_S mmax nmin k : (nmin <= k)%nat -> count mmax nmin (S k) = (count mmax nmin k + (2 * Nat.min k mmax + 1))%nat.
Proof.
  intros H. unfold count. replace (S k - nmin)%nat with (S (k - nmin)) by lia.
  rewrite seq_S, flat_map_app, app_length. cbn [flat_map]. rewrite app_nil_r, blk_length.
  replace (nmin + (k - nmin))%nat with k by lia. reflexivity.
Qed.

Lemma synth_n_cases c mmax nmin nmax x0 :
  (nmin <= nmax + 1)%nat -> a_num x0 = 0%nat ->
  let res := for_rangeM nmin (nmax + 1) (synth_n s r P sinth pole phi c mmax) x0 in
  res = Err IndexError \/
  exists z, res = Ok z /\ a_num z = count mmax nmin (nmax + 1) /\ (a_num z <= length c)%nat.
Proof.
  intros Hn Hx res. unfold res.
  apply (for_rangeM_cases (fun k z => a_num z = count mmax nmin k /\ (a_num z <= length c)%nat)); [lia| |].
  - rewrite Hx. split; [unfold count; rewrite Nat.sub_diag; reflexivity|lia].
  - intros n y Hi [Hy1 Hy2]. unfold synth_n.
    destruct (getc_cases c (a_num y)) as [E|[v [E Hv]]]; rewrite E; cbn [bind]; [left; reflexivity|].
    match goal with |- context [for_rangeM 1 ?b ?f ?x] =>
      destruct (for_rangeM_cases (fun m z => a_num z = (a_num y + 1 + 2 * (m - 1))%nat /\ (a_num z <= length c)%nat) 1 b f x) as [F|[z [F [Z1 Z2]]]] end.
    + lia.
    + cbn [a_num]. split; [lia|lia].
    + intros m w Hm [W1 W2]. unfold synth_m.
      destruct (getc_cases c (a_num w)) as [E1|[v1 [E1 Hv1]]]; rewrite E1; cbn [bind]; [left; reflexivity|].
      destruct (getc_cases c (a_num w + 1)) as [E2|[v2 [E2 Hv2]]]; rewrite E2; cbn [bind]; [left; reflexivity|].
      right. eexists; split; [reflexivity|]. cbn [a_num]. split; lia.
    + rewrite F. left; reflexivity.
    + rewrite F. cbn [bind]. right. eexists; split; [reflexivity|]. cbn [a_num].
      rewrite count_S by lia. split; lia.
Qed.
End Gen.

Lemma gauss_list_blk nmin nmax mmax g h :
  gauss_list nmin nmax mmax g h = flat_map (blk mmax g h) (seq nmin (nmax + 1 - nmin)).
Proof. reflexivity. Qed.

Lemma gauss_list_length nmin nmax mmax g h :
  length (gauss_list nmin nmax mmax g h) = count mmax nmin (nmax + 1).
Proof.
  rewrite gauss_list_blk. unfold count. generalize (seq nmin (nmax + 1 - nmin)).
  induction l as [|n l IH]; [reflexivity|]. cbn [flat_map]. rewrite !app_length, !blk_length, IH. reflexivity.
Qed.
