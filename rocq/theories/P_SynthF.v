(** Proofs about M_SynthF *)
From Coq Require Import ZArith Reals List Lia Lra Psatz.
From Flocq Require Import Core.
From Verif Require Import M_Prelude Spec_Field Spec_Float Spec_Rounding Spec_SynthF M_Legendre M_Synth M_SynthF P_Float P_Synth P_Rounding P_SpectrumF.
Import ListNotations.
Open Scope R_scope.

(** ** Zero or large *)
Lemma large_ge e x : bpow radix2 e <= Rabs x -> large e x.
Proof. intros H. right. rewrite powerRZ_bpow. exact H. Qed.
Lemma large_mono e f x : (f <= e)%Z -> large e x -> large f x.
Proof.
  intros H [->|L]; [left; reflexivity|]. right. rewrite powerRZ_bpow in *. apply Rle_trans with (2 := L). apply bpow_le, H.
Qed.
Lemma large_normal e x : (-1022 <= e)%Z -> large e x -> normal x.
Proof. intros H L. exact (large_mono e (-1022) x H L). Qed.
Lemma large_mul e f x y : large e x -> large f y -> large (e + f) (x * y).
Proof.
  intros [->|L]; [intros _; left; ring|]. intros [->|M]; [left; ring|]. right. rewrite powerRZ_bpow in *.
  rewrite bpow_plus, Rabs_mult. apply Rmult_le_compat; try apply bpow_ge_0; assumption.
Qed.
Lemma large_opp e x : large e x -> large e (- x).
Proof. intros [->|L]; [left; ring|right; rewrite Rabs_Ropp; exact L]. Qed.
Lemma double_bpow e : (-1074 <= e)%Z -> double (bpow radix2 e).
Proof. intros H. exists 1%Z, e. split; [rewrite powerRZ_bpow; ring|]. split; [reflexivity|exact H]. Qed.
Lemma double_opp x : double x -> double (- x).
Proof. intros (m & e & -> & A & B). exists (- m)%Z, e. split; [rewrite opp_IZR; ring|]. split; [lia|exact B]. Qed.
Lemma large_rn e x : (-1074 <= e)%Z -> large e x -> large e (rn x).
Proof.
  intros He [->|L]; [left; apply rn_0|]. apply large_ge. rewrite powerRZ_bpow in L. pose proof (bpow_gt_0 radix2 e).
  destruct (Rle_lt_dec 0 x) as [P|N].
  - rewrite Rabs_pos_eq in L by exact P. pose proof (rn_ge _ _ (double_bpow e He) L). rewrite Rabs_pos_eq; lra.
  - rewrite Rabs_left in L by exact N. pose proof (rn_ge _ _ (double_bpow e He) L) as X. rewrite rn_opp in X. rewrite Rabs_left; lra.
Qed.
(** numbers that are zero or large have a common last bit *)
Lemma large_units e x : double x -> large e x -> exists m, x = IZR m * bpow radix2 (e - 53).
Proof.
  intros (m & f & -> & Hm & Hf) [Z|L].
  - exists 0%Z. rewrite Z. ring.
  - rewrite !powerRZ_bpow in *.
    assert (F : (e - 53 <= f)%Z).
    { destruct (Z_le_gt_dec (e - 53) f) as [|G]; [assumption|exfalso].
      rewrite Rabs_mult, (Rabs_pos_eq (bpow radix2 f)) in L by apply bpow_ge_0.
      assert (Rabs (IZR m) < bpow radix2 53).
      { rewrite <- abs_IZR. change (bpow radix2 53) with (IZR (2 ^ 53)). apply IZR_lt, Hm. }
      assert (Rabs (IZR m) * bpow radix2 f < bpow radix2 53 * bpow radix2 f) by (apply Rmult_lt_compat_r; [apply bpow_gt_0|assumption]).
      rewrite <- bpow_plus in H0. assert (bpow radix2 (53 + f) <= bpow radix2 e) by (apply bpow_le; lia). lra. }
    exists (m * 2 ^ (f - (e - 53)))%Z. rewrite mult_IZR, <- (bpow_lt_Z _ m) by lia. rewrite Rmult_assoc, <- bpow_plus. do 2 f_equal. lia.
Qed.
Lemma large_plus e x y : double x -> double y -> large e x -> large e y -> large (e - 53) (x + y).
Proof.
  intros Dx Dy Lx Ly. destruct (large_units e x Dx Lx) as (m & ->). destruct (large_units e y Dy Ly) as (k & ->).
  rewrite <- Rmult_plus_distr_r, <- plus_IZR. destruct (Z.eq_dec (m + k) 0) as [->|N]; [left; ring|].
  apply large_ge. rewrite Rabs_mult, (Rabs_pos_eq (bpow _ _)) by apply bpow_ge_0. rewrite <- abs_IZR.
  assert (1 <= IZR (Z.abs (m + k))) by (apply (IZR_le 1); lia). pose proof (bpow_gt_0 radix2 (e - 53)). nra.
Qed.

(** ** Sums with rounded terms *)
Lemma terms_near_mono k k' l y : (k <= k')%nat -> terms_near k l y -> terms_near k' l y.
Proof.
  intros H (l' & F & ->). exists l'. split; [|reflexivity]. induction F; constructor; [eapply near_mono; eassumption|assumption].
Qed.
Lemma terms_near_nil k : terms_near k [] 0.
Proof. exists []. split; [constructor|reflexivity]. Qed.
Lemma terms_near_one k x y : near k x y -> terms_near k [x] y.
Proof. intros H. exists [y]. split; [constructor; [exact H|constructor]|cbn; ring]. Qed.
Lemma terms_near_scale k j l y w w' : terms_near k l y -> near j w w' -> terms_near (k + j) (map (Rmult w) l) (w' * y).
Proof.
  intros (l' & F & ->) N. exists (map (Rmult w') l'). split.
  - induction F; cbn; constructor; [|assumption]. rewrite Nat.add_comm. apply near_mul; assumption.
  - clear. induction l' as [|x l' IH]; cbn [map fold_right]; [ring|]. rewrite <- IH. ring.
Qed.
Lemma terms_near_rn k j l y y' : terms_near k l y -> near j y y' -> terms_near (k + j) l y'.
Proof.
  intros H (q & T & ->). assert (X : terms_near (k + j) (map (Rmult 1) l) (q * y)).
  { apply terms_near_scale; [exact H|]. exists q. split; [exact T|ring]. }
  rewrite Rmult_comm. replace l with (map (Rmult 1) l); [exact X|]. rewrite <- (map_id l) at 2. apply map_ext. intros; ring.
Qed.
Lemma terms_near_app k l y l' y' : terms_near k l y -> terms_near k l' y' -> terms_near k (l ++ l') (y + y').
Proof.
  intros (m & F & ->) (m' & F' & ->). exists (m ++ m'). split; [apply Forall2_app; assumption|].
  symmetry. apply (Rsum_app m m').
Qed.
Lemma terms_near_err k l y : INR k <= 1000000 -> terms_near k l y -> Rabs (y - Rsum l) <= 1.2e-16 * INR k * Rsum (map Rabs l).
Proof.
  intros Hk (l' & F & ->). induction F as [|x y l l' N F IH]; cbn [map fold_right]; unfold Rsum in *; cbn [fold_right].
  - rewrite Rminus_0_r, Rabs_R0. lra.
  - pose proof (near_err k x y Hk N). replace (y + fold_right Rplus 0 l' - (x + fold_right Rplus 0 l)) with
      ((y - x) + (fold_right Rplus 0 l' - fold_right Rplus 0 l)) by ring.
    eapply Rle_trans; [apply Rabs_triang|]. lra.
Qed.

(** Adding up terms that are themselves such sums *)
Definition radd (s t : R) : R := rn (s + t).
Lemma fold_near k Ls ts : Forall2 (fun L t => double t /\ terms_near k L t) Ls ts -> forall i l0 s,
  double s -> terms_near (k + i) l0 s ->
  double (fold_left radd ts s) /\ terms_near (k + (i + length ts)) (l0 ++ concat Ls) (fold_left radd ts s).
Proof.
  intros F. induction F as [|L t Ls ts [Dt St] F IH]; intros i l0 s Ds Ss; cbn [fold_left length concat].
  - rewrite app_nil_r, Nat.add_0_r. auto.
  - rewrite app_assoc. replace (i + S (length ts))%nat with (S i + length ts)%nat by lia. apply IH; [apply rn_double|].
    replace (k + S i)%nat with (k + i + 1)%nat by lia. unfold radd. eapply terms_near_rn; [|apply near_plus; assumption].
    apply terms_near_app; [exact Ss|]. eapply terms_near_mono; [|exact St]. lia.
Qed.

(** ** One term *)
Lemma near_prod k j x X y Y : near k x X -> near j y Y -> normal (X * Y) -> near (k + j + 1) (x * y) (rn (X * Y)).
Proof. intros A B N. eapply near_trans; [apply near_mul; eassumption|]. apply near_rn, N. Qed.

Lemma factor_a c d p q :
  large (-200) c -> large (-200) d -> large (-200) p -> large (-200) q ->
  (terms_near 2 [c * p; d * q] (rn (rn (c * p) + rn (d * q))) /\ large (-453) (rn (rn (c * p) + rn (d * q)))) /\
  (terms_near 2 [c * p; - (d * q)] (rn (rn (c * p) - rn (d * q))) /\ large (-453) (rn (rn (c * p) - rn (d * q)))).
Proof.
  intros Lc Ld Lp Lq.
  assert (A : large (-400) (c * p)) by exact (large_mul (-200) (-200) _ _ Lc Lp).
  assert (B : large (-400) (d * q)) by exact (large_mul (-200) (-200) _ _ Ld Lq).
  assert (NA : near 1 (c * p) (rn (c * p))) by (apply near_rn, (large_normal (-400)); [lia|exact A]).
  assert (NB : near 1 (d * q) (rn (d * q))) by (apply near_rn, (large_normal (-400)); [lia|exact B]).
  apply (large_rn (-400) _ ltac:(lia)) in A. apply (large_rn (-400) _ ltac:(lia)) in B.
  assert (NB' : near 1 (- (d * q)) (- rn (d * q))).
  { destruct NB as (w & T & E). exists w. split; [exact T|]. rewrite E. ring. }
  split; split.
  - apply (terms_near_rn 1 1 _ (rn (c * p) + rn (d * q))); [|apply near_plus; apply rn_double].
    apply (terms_near_app 1 [c * p] _ [d * q]); apply terms_near_one; assumption.
  - apply (large_rn (-453)); [lia|]. apply (large_plus (-400)); try apply rn_double; assumption.
  - unfold Rminus. apply (terms_near_rn 1 1 _ (rn (c * p) + - rn (d * q))); [|apply near_plus; [apply rn_double|apply double_opp, rn_double]].
    apply (terms_near_app 1 [c * p] _ [- (d * q)]); apply terms_near_one; assumption.
  - apply (large_rn (-453)); [lia|]. unfold Rminus. apply (large_plus (-400)); try apply rn_double; try assumption; [apply double_opp, rn_double|apply large_opp, B].
Qed.

Lemma term_near k l x X A : terms_near 2 l A -> large (-453) A -> near k x X -> large (-510) X ->
  double (rn (X * A)) /\ terms_near (k + 3) (map (Rmult x) l) (rn (X * A)).
Proof.
  intros SA LA NX LX. split; [apply rn_double|]. replace (k + 3)%nat with (2 + k + 1)%nat by lia.
  apply (terms_near_rn (2 + k) 1 _ (X * A)).
  - apply terms_near_scale; assumption.
  - apply near_rn, (large_normal (-510 + -453)); [lia|]. apply large_mul; assumption.
Qed.

Lemma large_INR n : (1 <= n)%nat -> large 0 (INR n).
Proof. intros H. apply large_ge. cbn. rewrite Rabs_pos_eq by apply pos_INR. apply (le_INR 1), H. Qed.
Lemma large_near k x y e : INR k <= 1000000 -> near k x y -> bpow radix2 e <= x -> large (e - 1) y.
Proof.
  intros Hk N B. pose proof (bpow_gt_0 radix2 e). pose proof (near_low k x y Hk ltac:(lra) N). apply large_ge.
  rewrite Rabs_pos_eq by lra. replace (bpow radix2 (e - 1)) with (bpow radix2 e * / 2) by (unfold Z.sub; rewrite bpow_plus; reflexivity). lra.
Qed.

(** weight times radial factor: rn (rn (n * P) * rho') *)
Lemma factor_x k n j P P' rho rho' : (1 <= n)%nat -> near j P P' -> large (-300) P' -> near k rho rho' -> large (-201) rho' ->
  near (j + 1 + k + 1) (INR n * P * rho) (rn (rn (INR n * P') * rho')) /\ large (-510) (rn (rn (INR n * P') * rho')).
Proof.
  intros Hn NP LP NR LR.
  assert (L1 : large (0 + -300) (INR n * P')) by (apply large_mul; [apply large_INR, Hn|exact LP]).
  assert (L2 : large (-300) (rn (INR n * P'))) by (apply large_rn; [lia|exact L1]).
  assert (L3 : large (-300 + -201) (rn (INR n * P') * rho')) by (apply large_mul; assumption).
  split.
  - replace (j + 1 + k + 1)%nat with ((j + 1) + k + 1)%nat by lia. apply near_prod; [|exact NR|apply (large_normal (-300 + -201)); [lia|exact L3]].
    replace (j + 1)%nat with (0 + j + 1)%nat by lia. apply near_prod; [apply near_refl|exact NP|apply (large_normal (0 + -300)); [lia|exact L1]].
  - apply large_rn; [lia|]. apply (large_mono (-300 + -201)); [lia|exact L3].
Qed.
Lemma factor_y k P rho rho' : large (-300) P -> near k rho rho' -> large (-201) rho' ->
  near (k + 1) (P * rho) (rn (P * rho')) /\ large (-510) (rn (P * rho')).
Proof.
  intros LP NR LR. assert (L3 : large (-300 + -201) (P * rho')) by (apply large_mul; assumption). split.
  - replace (k + 1)%nat with (0 + k + 1)%nat by lia. apply near_prod; [apply near_refl|exact NR|apply (large_normal (-300 + -201)); [lia|exact L3]].
  - apply large_rn; [lia|]. apply (large_mono (-300 + -201)); [lia|exact L3].
Qed.

(** ** The loops *)
Lemma flat_len {B} (f : nat -> list B) k (Hf : forall n, length (f n) = k) l : length (flat_map f l) = (k * length l)%nat.
Proof. induction l as [|x l IH]; cbn [flat_map length]; [lia|]. rewrite app_length, Hf, IH. lia. Qed.

Section Loop.
Variables (fcos fsin : R -> R) (s : src) (r : R) (P : tab) (sinth : R) (pole : bool) (phi : R).
Notation cs := (fun m => fcos (rn (INR m * phi))).
Notation sn := (fun m => fsin (rn (INR m * phi))).

Definition aa (g h : R) (m : nat) : R := rn (rn (g * cs m) + rn (h * sn m)).
Definition aa' (g h : R) (m : nat) : R := rn (rn (g * sn m) - rn (h * cs m)).
Definition tmr (n : nat) (rho : R) (g h : nat -> R) (m : nat) : R :=
  match s with
  | Internal => rn (rn (rn (INR (n + 1) * P n m) * rho) * aa (g m) (h m) m)
  | External => - rn (rn (rn (INR n * P n m) * rho) * aa (g m) (h m) m)
  end.
Definition tmt (n : nat) (rho : R) (g h : nat -> R) (m : nat) : R := rn (rn (- P m (n + 1)%nat * rho) * aa (g m) (h m) m).
Definition tmp (n : nat) (rho : R) (g h : nat -> R) (m : nat) : R :=
  rn (rn (rn (INR m * div_P_f P sinth pole n m) * rho) * aa' (g m) (h m) m).
Definition t0r (n : nat) (rho g : R) : R :=
  match s with
  | Internal => rn (rn (rn (INR (n + 1) * P n 0%nat) * rho) * g)
  | External => rn (rn (rn (- INR n * P n 0%nat) * rho) * g)
  end.
Definition t0t (n : nat) (rho g : R) : R := rn (rn (- P 0%nat (n + 1)%nat * rho) * g).

Lemma synth_m_loop_f c n pre post g h rh br bt bp M :
  c = pre ++ flat_map (fun m => [g m; h m]) (range_incl 1 M) ++ post ->
  for_rangeM 1 (M + 1) (synth_m_f fcos fsin s P sinth pole phi c n) (mkacc (length pre) rh br bt bp)
  = Ok (mkacc (length pre + 2 * M) rh
         (fold_left radd (map (tmr n rh g h) (range_incl 1 M)) br)
         (fold_left radd (map (tmt n rh g h) (range_incl 1 M)) bt)
         (fold_left radd (map (tmp n rh g h) (range_incl 1 M)) bp)).
Proof.
  revert post. induction M as [|M IH]; intros post E.
  - cbn [Nat.add]. rewrite for_rangeM_nil. cbn [range_incl seq map Nat.sub Nat.add fold_left]. f_equal. f_equal. lia.
  - replace (S M + 1)%nat with (S (M + 1)) by lia. rewrite for_rangeM_snoc by lia.
    rewrite range_incl_1_S, flat_map_app, <- app_assoc in E. cbn [flat_map app] in E.
    rewrite (IH _ E). cbn [bind]. unfold synth_m_f at 1. cbn [a_num a_rn a_br a_bt a_bp].
    replace (M + 1)%nat with (S M) by lia.
    assert (L : length (pre ++ flat_map (fun m => [g m; h m]) (range_incl 1 M)) = (length pre + 2 * M)%nat).
    { rewrite app_length. f_equal. rewrite (flat_len _ 2) by reflexivity. unfold range_incl. rewrite seq_length. lia. }
    rewrite (getc_at c (pre ++ flat_map (fun m => [g m; h m]) (range_incl 1 M)) (g (S M)) (h (S M) :: post));
      [|rewrite <- app_assoc; exact E|lia].
    cbn [bind].
    rewrite (getc_at c (pre ++ flat_map (fun m => [g m; h m]) (range_incl 1 M) ++ [g (S M)]) (h (S M)) post);
      [|rewrite <- !app_assoc; exact E|rewrite app_assoc, app_length, L; cbn; lia].
    cbn [bind]. rewrite range_incl_1_S, !map_app, !fold_left_app. cbn [map fold_left].
    f_equal. f_equal; [lia|]. unfold tmr, aa, radd. destruct s; reflexivity.
Qed.

Definition step_f (rh : R) : R := match s with Internal => rn (rh / r) | External => rn (rh * r) end.
Definition Tr mmax (g h : nat -> nat -> R) (n : nat) (rh : R) : list R :=
  t0r n rh (g n O) :: map (tmr n rh (g n) (h n)) (range_incl 1 (Nat.min n mmax)).
Definition Tt mmax (g h : nat -> nat -> R) (n : nat) (rh : R) : list R :=
  t0t n rh (g n O) :: map (tmt n rh (g n) (h n)) (range_incl 1 (Nat.min n mmax)).
Definition Tp mmax (g h : nat -> nat -> R) (n : nat) (rh : R) : list R :=
  map (tmp n rh (g n) (h n)) (range_incl 1 (Nat.min n mmax)).

Lemma synth_n_step_f c pre post mmax g h n rh br bt bp :
  c = pre ++ blk mmax g h n ++ post ->
  synth_n_f fcos fsin s r P sinth pole phi c mmax (mkacc (length pre) rh br bt bp) n
  = Ok (mkacc (length pre + length (blk mmax g h n)) (step_f rh)
         (fold_left radd (Tr mmax g h n rh) br) (fold_left radd (Tt mmax g h n rh) bt) (fold_left radd (Tp mmax g h n rh) bp)).
Proof.
  intros E. unfold synth_n_f. cbn [a_num a_rn a_br a_bt a_bp].
  unfold blk in E. cbn [app] in E.
  rewrite (getc_at c pre (g n O) _ _ E eq_refl). cbn [bind].
  rewrite blk_length. unfold Tr, Tt, Tp. set (M := Nat.min n mmax) in *.
  replace (length pre + 1)%nat with (length (pre ++ [g n O])) by (rewrite app_length; reflexivity).
  rewrite (synth_m_loop_f c n (pre ++ [g n O]) post (g n) (h n)) by (rewrite <- app_assoc; exact E).
  cbn [bind a_num a_rn a_br a_bt a_bp]. rewrite app_length. cbn [length fold_left].
  unfold step_f, radd, t0r, t0t. f_equal. f_equal; [lia|]. destruct s; reflexivity.
Qed.

Variables (nmin : nat) (rh0 : R).
Fixpoint rho_it (k : nat) : R := match k with O => rh0 | S k => step_f (rho_it k) end.
Definition rho_f (n : nat) : R := rho_it (n - nmin).

Lemma synth_n_loop_f c post mmax g h K :
  c = flat_map (blk mmax g h) (seq nmin K) ++ post ->
  for_rangeM nmin (nmin + K) (synth_n_f fcos fsin s r P sinth pole phi c mmax) (mkacc 0 rh0 0 0 0)
  = Ok (mkacc (length (flat_map (blk mmax g h) (seq nmin K))) (rho_f (nmin + K))
         (fold_left radd (flat_map (fun n => Tr mmax g h n (rho_f n)) (seq nmin K)) 0)
         (fold_left radd (flat_map (fun n => Tt mmax g h n (rho_f n)) (seq nmin K)) 0)
         (fold_left radd (flat_map (fun n => Tp mmax g h n (rho_f n)) (seq nmin K)) 0)).
Proof.
  revert post. induction K as [|K IH]; intros post E.
  - rewrite Nat.add_0_r, for_rangeM_nil. unfold rho_f. rewrite Nat.sub_diag. reflexivity.
  - rewrite Nat.add_succ_r, for_rangeM_snoc by lia.
    rewrite seq_S, flat_map_app in E. cbn [flat_map] in E. rewrite app_nil_r, <- app_assoc in E.
    rewrite (IH _ E). cbn [bind].
    rewrite (synth_n_step_f c (flat_map (blk mmax g h) (seq nmin K)) post mmax g h (nmin + K)); [|exact E].
    rewrite seq_S, !flat_map_app, app_length. cbn [flat_map]. rewrite !app_nil_r, !fold_left_app.
    replace (rho_f (S (nmin + K))) with (step_f (rho_f (nmin + K))); [reflexivity|].
    unfold rho_f. replace (S (nmin + K) - nmin)%nat with (S (nmin + K - nmin)) by lia. reflexivity.
Qed.
End Loop.

(** ** Error of the loops *)
Lemma Forall2_flat_map {A B C} (Q : B -> C -> Prop) (f : A -> list B) (g : A -> list C) l :
  (forall x, In x l -> Forall2 Q (f x) (g x)) -> Forall2 Q (flat_map f l) (flat_map g l).
Proof.
  induction l as [|x l IH]; intros H; cbn [flat_map]; [constructor|].
  apply Forall2_app; [apply H; left; reflexivity|apply IH; intros; apply H; right; assumption].
Qed.
Lemma Forall2_maps {A B C} (Q : B -> C -> Prop) (f : A -> B) (g : A -> C) l :
  (forall x, In x l -> Q (f x) (g x)) -> Forall2 Q (map f l) (map g l).
Proof. induction l as [|x l IH]; intros H; cbn [map]; constructor; [apply H; left; reflexivity|apply IH; intros; apply H; right; assumption]. Qed.
Lemma concat_contributions m0 nmin nmax mmax f :
  concat (flat_map (fun n => map (f n) (range_incl m0 (Nat.min n mmax))) (range_incl nmin nmax)) = contributions m0 nmin nmax mmax f.
Proof.
  unfold contributions. generalize (range_incl nmin nmax). induction l as [|n l IH]; [reflexivity|].
  cbn [flat_map]. rewrite concat_app, IH, <- flat_map_concat_map. reflexivity.
Qed.
Lemma flat_len_le {B} (f : nat -> list B) k l : (forall n, In n l -> (length (f n) <= k)%nat) -> (length (flat_map f l) <= k * length l)%nat.
Proof.
  induction l as [|x l IH]; intros H; cbn [flat_map length]; [lia|]. rewrite app_length.
  pose proof (H x (or_introl eq_refl)). specialize (IH (fun n Hn => H n (or_intror Hn))). lia.
Qed.
Lemma terms_near_opp k l y l' : terms_near k l y -> l' = map Ropp l -> terms_near k l' (- y).
Proof.
  intros H ->. replace (map Ropp l) with (map (Rmult (-1)) l) by (apply map_ext; intros; ring).
  replace (- y) with (-1 * y) by ring. replace k with (k + 0)%nat by lia. apply terms_near_scale; [exact H|apply near_refl].
Qed.

Section Main.
Variables (p : nat) (pow : R -> Z -> R) (fcos fsin : R -> R) (s : src) (a : R) (nmin nmax mmax : nat) (pole : bool) (P : tab)
  (g h : nat -> nat -> R) (radius phi : R).
Notation cs := (fun m => fcos (rn (INR m * phi))).
Notation sn := (fun m => fsin (rn (INR m * phi))).
Hypothesis Hpow : accurate_pow p pow.
Hypothesis Ha : 0 < a.
Hypothesis Hr : 0 < radius.
Hypothesis Hn : (1 <= nmin <= nmax)%nat.
Hypothesis HK : INR (2 * nmax + 8 + p + (nmax + 1) * (mmax + 1)) <= 1000000.
Hypothesis Hc0 : fcos 0 = 1.
Hypothesis Hs0 : fsin 0 = 0.
Hypothesis Hx : powerRZ 2 (-200) <= radius / a.
Hypothesis Hrho : forall n, (nmin <= n <= nmax)%nat -> powerRZ 2 (-200) <= rho s a radius n.
Hypothesis HP : forall n m, (nmin <= n <= nmax)%nat -> (m <= Nat.min n mmax)%nat -> large (-300) (P n m) /\ large (-300) (P m (n + 1)%nat).
Hypothesis HG : forall n m, (nmin <= n <= nmax)%nat -> (m <= Nat.min n mmax)%nat -> large (-200) (g n m) /\ (m <> 0%nat -> large (-200) (h n m)).
Hypothesis HT : forall m, (m <= Nat.min nmax mmax)%nat -> large (-200) (cs m) /\ large (-200) (sn m).
Hypothesis HD : if pole then Rabs (P 1%nat 0%nat) = 1 else 0 < P 1%nat 1%nat <= 1.

Let x := radius / a.
Let r := rn x.
Let rh0 := match s with Internal => pow r (- (Z.of_nat nmin + 2))%Z | External => pow r (Z.of_nat nmin - 1)%Z end.
Let rf := rho_f s r nmin rh0.
Let k := (2 * nmax + 2 + p)%nat.

Lemma x_pos : 0 < x. Proof. apply Rdiv_lt_0_compat; assumption. Qed.
Lemma rho_x n : rho s a radius n = match s with Internal => / x ^ (n + 2) | External => x ^ (n - 1) end.
Proof.
  unfold rho, x. destruct s; [|reflexivity]. rewrite <- pow_inv. f_equal. field. lra.
Qed.
Lemma x_normal : normal x.
Proof. apply (large_normal (-200)); [lia|]. right. rewrite Rabs_pos_eq by (left; apply x_pos). exact Hx. Qed.
Lemma kle i : (i <= 2 * nmax + 8 + p + (nmax + 1) * (mmax + 1))%nat -> INR i <= 1000000.
Proof. intros H. exact (INR_le_k _ HK i H). Qed.

Lemma rf_near n : (nmin <= n <= nmax)%nat -> near (nmin + 2 + p + 2 * (n - nmin)) (rho s a radius n) (rf n).
Proof.
  intros H. unfold rf, rho_f. remember (n - nmin)%nat as j eqn:Ej. replace n with (nmin + j)%nat in * by lia. clear n Ej.
  induction j as [|j IH].
  - rewrite Nat.mul_0_r, Nat.add_0_r, Nat.add_0_r. cbn [rho_it]. unfold rh0, r. rewrite rho_x. destruct s.
    + replace (- (Z.of_nat nmin + 2))%Z with (- Z.of_nat (nmin + 2))%Z by lia. apply pow_near_neg; [exact Hpow|apply x_normal|apply x_pos].
    + replace (Z.of_nat nmin - 1)%Z with (Z.of_nat (nmin - 1)) by lia.
      apply (near_mono (nmin - 1 + p)); [lia|]. apply pow_near; [exact Hpow|apply x_normal|apply x_pos].
  - cbn [rho_it]. specialize (IH ltac:(lia)). set (rho' := rho_it s r rh0 j) in *.
    pose proof (near_rn x x_normal) as Nr. fold r in Nr.
    pose proof (Hrho (nmin + S j)%nat H) as B. rewrite powerRZ_bpow in B.
    replace (nmin + 2 + p + 2 * S j)%nat with ((nmin + 2 + p + 2 * j) + 1 + 1)%nat by lia.
    assert (Q : near ((nmin + 2 + p + 2 * j) + 1) (rho s a radius (nmin + S j)) (match s with Internal => rho' / r | External => rho' * r end)).
    { rewrite rho_x. rewrite rho_x in IH. pose proof x_pos. destruct s.
      - replace (/ x ^ (nmin + S j + 2)) with (/ x ^ (nmin + j + 2) / x).
        + apply near_div; assumption.
        + replace (nmin + S j + 2)%nat with (S (nmin + j + 2)) by lia. cbn [Rpow_def.pow]. field. split; first [lra | apply pow_nonzero; lra].
      - replace (x ^ (nmin + S j - 1)) with (x ^ (nmin + j - 1) * x).
        + apply near_mul; assumption.
        + replace (nmin + S j - 1)%nat with (S (nmin + j - 1)) by lia. cbn [Rpow_def.pow]. ring. }
    assert (N : normal (match s with Internal => rho' / r | External => rho' * r end)).
    { apply (large_normal (-200 - 1)); [lia|]. eapply large_near; [|exact Q|exact B]. apply kle. lia. }
    eapply near_trans; [exact Q|]. unfold step_f. destruct s; apply near_rn, N.
Qed.
Lemma rf_ok n : (nmin <= n <= nmax)%nat -> near k (rho s a radius n) (rf n) /\ large (-201) (rf n).
Proof.
  intros H. pose proof (rf_near n H) as N. split.
  - eapply near_mono; [|exact N]. unfold k. lia.
  - pose proof (Hrho n H) as B. rewrite powerRZ_bpow in B. apply (large_near (nmin + 2 + p + 2 * (n - nmin)) (rho s a radius n) _ (-200)); [apply kle; lia|exact N|exact B].
Qed.

Notation Q := (fun L t => double t /\ terms_near (k + 6) L t).
Definition W_r n m := weight s n * P n m * rho s a radius n.
Definition W_t n m := - P m (n + 1)%nat * rho s a radius n.
Definition W_p n m := INR m * (if pole then P m (n + 1)%nat * P 1%nat 0%nat else P n m / P 1%nat 1%nat) * rho s a radius n.

Lemma in_range n m : (nmin <= n <= nmax)%nat -> (m <= Nat.min n mmax)%nat -> (m <= Nat.min nmax mmax)%nat.
Proof. lia. Qed.

Lemma a0 n : (nmin <= n <= nmax)%nat -> terms_near 2 [g n 0%nat * cs 0%nat; h n 0%nat * sn 0%nat] (g n 0%nat) /\ large (-453) (g n 0%nat).
Proof.
  intros H. destruct (HG n 0%nat H ltac:(lia)) as [G _]. split; [|apply (large_mono (-200)); [lia|exact G]].
  cbn [INR]. rewrite Rmult_0_l, rn_0, Hc0, Hs0. exists [g n 0%nat; 0]. split; [|cbn; ring].
  constructor; [rewrite Rmult_1_r; apply near_refl|]. constructor; [rewrite Rmult_0_r; apply near_refl|constructor].
Qed.
Lemma am n m : (nmin <= n <= nmax)%nat -> (1 <= m <= Nat.min n mmax)%nat ->
  (terms_near 2 [g n m * cs m; h n m * sn m] (aa fcos fsin phi (g n m) (h n m) m) /\ large (-453) (aa fcos fsin phi (g n m) (h n m) m)) /\
  (terms_near 2 [g n m * sn m; - (h n m * cs m)] (aa' fcos fsin phi (g n m) (h n m) m) /\ large (-453) (aa' fcos fsin phi (g n m) (h n m) m)).
Proof.
  intros H Hm. destruct (HG n m H ltac:(lia)) as [G G']. specialize (G' ltac:(lia)). destruct (HT m ltac:(lia)) as [C S].
  split; [apply (factor_a (g n m) (h n m) (cs m) (sn m)); assumption|apply (factor_a (g n m) (h n m) (sn m) (cs m)); assumption].
Qed.

Lemma out k1 W l y L : double y /\ terms_near k1 (map (Rmult W) l) y -> (k1 <= k + 6)%nat -> L = map (Rmult W) l -> Q L y.
Proof. intros [D T] H ->. split; [exact D|]. eapply terms_near_mono; eassumption. Qed.

Lemma ok_r n m : (nmin <= n <= nmax)%nat -> (m <= Nat.min n mmax)%nat ->
  forall A, terms_near 2 [g n m * cs m; h n m * sn m] A -> large (-453) A ->
  (s = Internal -> Q (cos_sin g h cs sn W_r n m) (rn (rn (rn (INR (n + 1) * P n m) * rf n) * A))) /\
  (s = External -> Q (cos_sin g h cs sn W_r n m) (- rn (rn (rn (INR n * P n m) * rf n) * A))).
Proof.
  intros H Hm A TA LA. destruct (rf_ok n H) as [NR LR]. destruct (HP n m H Hm) as [LP _]. split; intros Es.
  - destruct (factor_x k (n + 1) 0 (P n m) (P n m) _ _ ltac:(lia) (near_refl 0 _) LP NR LR) as [NX LX].
    eapply out; [eapply term_near; [exact TA|exact LA|exact NX|exact LX]|lia|].
    unfold cos_sin, W_r, weight. rewrite Es. cbn [map]. reflexivity.
  - destruct (factor_x k n 0 (P n m) (P n m) _ _ ltac:(lia) (near_refl 0 _) LP NR LR) as [NX LX].
    destruct (term_near _ _ _ _ _ TA LA NX LX) as [D T]. split; [apply double_opp, D|].
    eapply terms_near_mono; [|eapply terms_near_opp; [exact T|]]; [lia|].
    unfold cos_sin, W_r, weight. rewrite Es. cbn [map]. f_equal; [ring|]. f_equal. ring.
Qed.
Lemma ok_t n m : (nmin <= n <= nmax)%nat -> (m <= Nat.min n mmax)%nat ->
  forall A, terms_near 2 [g n m * cs m; h n m * sn m] A -> large (-453) A ->
  Q (cos_sin g h cs sn W_t n m) (rn (rn (- P m (n + 1)%nat * rf n) * A)).
Proof.
  intros H Hm A TA LA. destruct (rf_ok n H) as [NR LR]. destruct (HP n m H Hm) as [_ LP].
  destruct (factor_y k (- P m (n + 1)%nat) _ _ (large_opp _ _ LP) NR LR) as [NX LX].
  eapply out; [eapply term_near; [exact TA|exact LA|exact NX|exact LX]|lia|reflexivity].
Qed.
Lemma div_ok n m : (nmin <= n <= nmax)%nat -> (m <= Nat.min n mmax)%nat ->
  near 1 (if pole then P m (n + 1)%nat * P 1%nat 0%nat else P n m / P 1%nat 1%nat) (div_P_f P (P 1%nat 1%nat) pole n m) /\
  large (-300) (div_P_f P (P 1%nat 1%nat) pole n m).
Proof.
  intros H Hm. destruct (HP n m H Hm) as [L1 L2]. unfold div_P_f. destruct pole.
  - assert (L : large (-300) (P m (n + 1)%nat * P 1%nat 0%nat)).
    { destruct L2 as [->|L2]; [left; ring|]. right. rewrite Rabs_mult, HD, Rmult_1_r. exact L2. }
    split; [apply near_rn, (large_normal (-300)); [lia|exact L]|apply large_rn; [lia|exact L]].
  - assert (L : large (-300) (P n m / P 1%nat 1%nat)).
    { destruct L1 as [->|L1]; [left; unfold Rdiv; ring|]. right. rewrite powerRZ_bpow in *. unfold Rdiv. rewrite Rabs_mult, Rabs_inv, (Rabs_pos_eq (P 1%nat 1%nat)) by lra.
      apply Rle_trans with (1 := L1). pose proof (Rabs_pos (P n m)).
      assert (1 <= / P 1%nat 1%nat); [|nra]. rewrite <- Rinv_1 at 1. apply Rinv_le_contravar; lra. }
    split; [apply near_rn, (large_normal (-300)); [lia|exact L]|apply large_rn; [lia|exact L]].
Qed.
Lemma ok_p n m : (nmin <= n <= nmax)%nat -> (1 <= m <= Nat.min n mmax)%nat ->
  Q (sin_cos g h cs sn W_p n m) (tmp fcos fsin P (P 1%nat 1%nat) pole phi n (rf n) (g n) (h n) m).
Proof.
  intros H Hm. destruct (rf_ok n H) as [NR LR]. destruct (div_ok n m H ltac:(lia)) as [ND LD].
  destruct (am n m H Hm) as [_ [TA LA]].
  destruct (factor_x k m 1 _ _ _ _ ltac:(lia) ND LD NR LR) as [NX LX]. unfold tmp.
  eapply out; [eapply term_near; [exact TA|exact LA|exact NX|exact LX]|lia|reflexivity].
Qed.

Lemma all_r : Forall2 Q (flat_map (fun n => map (cos_sin g h cs sn W_r n) (range_incl 0 (Nat.min n mmax))) (range_incl nmin nmax))
  (flat_map (fun n => Tr fcos fsin s P phi mmax g h n (rf n)) (range_incl nmin nmax)).
Proof.
  apply Forall2_flat_map. intros n Hin. apply range_incl_spec in Hin. unfold Tr. rewrite range_incl_0. cbn [map]. constructor.
  - destruct (a0 n Hin) as [T L]. destruct (ok_r n 0 Hin ltac:(lia) _ T L) as [I E]. unfold t0r. destruct s eqn:Es; [exact (I eq_refl)|].
    specialize (E eq_refl). replace (rn (rn (rn (- INR n * P n 0%nat) * rf n) * g n 0%nat)) with (- rn (rn (rn (INR n * P n 0%nat) * rf n) * g n 0%nat)); [exact E|].
    rewrite <- !rn_opp. rewrite Ropp_mult_distr_l, <- rn_opp, Ropp_mult_distr_l, <- rn_opp, Ropp_mult_distr_l. reflexivity.
  - apply Forall2_maps. intros m Hm. apply range_incl_spec in Hm. destruct (am n m Hin Hm) as [[T L] _].
    destruct (ok_r n m Hin ltac:(lia) _ T L) as [I E]. unfold tmr. destruct s; [exact (I eq_refl)|exact (E eq_refl)].
Qed.
Lemma all_t : Forall2 Q (flat_map (fun n => map (cos_sin g h cs sn W_t n) (range_incl 0 (Nat.min n mmax))) (range_incl nmin nmax))
  (flat_map (fun n => Tt fcos fsin P phi mmax g h n (rf n)) (range_incl nmin nmax)).
Proof.
  apply Forall2_flat_map. intros n Hin. apply range_incl_spec in Hin. unfold Tt. rewrite range_incl_0. cbn [map]. constructor.
  - destruct (a0 n Hin) as [T L]. apply ok_t; [exact Hin|lia|exact T|exact L].
  - apply Forall2_maps. intros m Hm. apply range_incl_spec in Hm. destruct (am n m Hin Hm) as [[T L] _].
    apply ok_t; [exact Hin|lia|exact T|exact L].
Qed.
Lemma all_p : Forall2 Q (flat_map (fun n => map (sin_cos g h cs sn W_p n) (range_incl 1 (Nat.min n mmax))) (range_incl nmin nmax))
  (flat_map (fun n => Tp fcos fsin P (P 1%nat 1%nat) pole phi mmax g h n (rf n)) (range_incl nmin nmax)).
Proof.
  apply Forall2_flat_map. intros n Hin. apply range_incl_spec in Hin. unfold Tp.
  apply Forall2_maps. intros m Hm. apply range_incl_spec in Hm. apply ok_p; assumption.
Qed.

Let KK := (2 * nmax + 8 + p + (nmax + 1) * (mmax + 1))%nat.
Lemma finish m0 f Ts : Forall2 Q (flat_map (fun n => map (f n) (range_incl m0 (Nat.min n mmax))) (range_incl nmin nmax)) (flat_map Ts (range_incl nmin nmax)) ->
  (forall n, (length (Ts n) <= mmax + 1)%nat) ->
  double (fold_left radd (flat_map Ts (range_incl nmin nmax)) 0) /\
  terms_near KK (contributions m0 nmin nmax mmax f) (fold_left radd (flat_map Ts (range_incl nmin nmax)) 0).
Proof.
  intros F L. destruct (fold_near _ _ _ F 0 [] 0 (double_int 0 ltac:(discriminate)) (terms_near_nil _)) as [D T].
  split; [exact D|]. rewrite concat_contributions in T. cbn [app] in T. eapply terms_near_mono; [|exact T].
  pose proof (flat_len_le Ts (mmax + 1) (range_incl nmin nmax) (fun n _ => L n)) as X.
  unfold range_incl in X at 2. rewrite seq_length in X. unfold KK, k.
  assert ((mmax + 1) * (nmax + 1 - nmin) <= (nmax + 1) * (mmax + 1))%nat by nia. lia.
Qed.

Lemma synth_point_near rest : exists br bt bp,
  synth_point_f pow fcos fsin s a nmin nmax mmax pole P (gauss_list nmin nmax mmax g h ++ rest) radius phi = Ok (br, bt, bp) /\
  terms_near KK (contributions 0 nmin nmax mmax (cos_sin g h cs sn W_r)) br /\
  terms_near KK (contributions 0 nmin nmax mmax (cos_sin g h cs sn W_t)) bt /\
  terms_near KK (contributions 1 nmin nmax mmax (sin_cos g h cs sn W_p)) bp.
Proof.
  assert (LM : forall n, (length (range_incl 1 (Nat.min n mmax)) <= mmax)%nat) by (intros; unfold range_incl; rewrite seq_length; lia).
  pose proof (synth_n_loop_f fcos fsin s r P (P 1%nat 1%nat) pole phi nmin rh0 (gauss_list nmin nmax mmax g h ++ rest) rest mmax g h (nmax + 1 - nmin)
    ltac:(rewrite gauss_list_blk; reflexivity)) as E. replace (nmin + (nmax + 1 - nmin))%nat with (nmax + 1)%nat in E by lia.
  unfold synth_point_f. fold x. fold r. fold rh0. cbv zeta. rewrite E.
  cbn [bind a_br a_bt a_bp]. do 3 eexists. split; [reflexivity|].
  split; [|split].
  - apply (finish 0 (cos_sin g h cs sn W_r) _ all_r). intros n. unfold Tr. cbn [length]. rewrite map_length. specialize (LM n). lia.
  - apply (finish 0 (cos_sin g h cs sn W_t) _ all_t). intros n. unfold Tt. cbn [length]. rewrite map_length. specialize (LM n). lia.
  - apply (finish 1 (sin_cos g h cs sn W_p) _ all_p). intros n. unfold Tp. rewrite map_length. specialize (LM n). lia.
Qed.
End Main.
