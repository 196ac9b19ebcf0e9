(** Proofs about M_Rotate: the spectra reproduce the samples. *)
From Coq Require Import Reals List Bool String Arith Permutation Sorted Lia Lra ZArith.
From Coquelicot Require Import Complex.
From Verif Require Import M_Prelude M_ND Spec_Field Spec_Rotate M_Rotate P_ND P_Synth P_Spline P_Dft P_Rotate.
Import ListNotations.
Open Scope R_scope.

Lemma fft_is_dft N x k : fft_over_N N x k = dft N x k.
Proof. reflexivity. Qed.

(** Sum of the first M+1 components, the non-constant ones doubled *)
Lemma one_sided_sum M N x j : (0 < N)%nat ->
  Rsum (map (fun k => (if (k =? 0)%nat then 1 else 2) *
     (fst (dft N x k) * cos (2 * PI * INR k * INR j / INR N) - snd (dft N x k) * sin (2 * PI * INR k * INR j / INR N)))
     (seq 0 (S M)))
  = Rsum (map (fun n => x n * dirichlet M (2 * PI * IZR (Z.of_nat j - Z.of_nat n) / INR N)) (seq 0 N)) / INR N.
Proof.
  intros HN. pose proof (lt_0_INR N HN) as HN'.
  transitivity (Rsum (map (fun k => Rsum (map (fun n => (if (k =? 0)%nat then 1 else 2) * (x n *
      cos (INR k * (2 * PI * IZR (Z.of_nat j - Z.of_nat n) / INR N)) / INR N)) (seq 0 N))) (seq 0 (S M)))).
  - apply Rsum_map_ext. intros k _. unfold dft. cbn [fst snd].
    rewrite P_Synth.Rsum_map_scal. f_equal.
    transitivity (Rsum (map (fun n => cos (2 * PI * INR k * INR j / INR N) / INR N * (x n * cos (2 * PI * INR k * INR n / INR N))) (seq 0 N))
      + Rsum (map (fun n => sin (2 * PI * INR k * INR j / INR N) / INR N * (x n * sin (2 * PI * INR k * INR n / INR N))) (seq 0 N))).
    { rewrite !P_Synth.Rsum_map_scal. field. lra. }
    rewrite <- P_Synth.Rsum_map_plus. apply Rsum_map_ext. intros n _.
    replace (INR k * (2 * PI * IZR (Z.of_nat j - Z.of_nat n) / INR N))
      with (2 * PI * INR k * INR j / INR N - 2 * PI * INR k * INR n / INR N).
    2:{ rewrite minus_IZR, <- !INR_IZR_INZ. field. lra. }
    rewrite cos_minus. field. lra.
  - rewrite P_Spline.Rsum_swap. 
    match goal with |- _ = ?A / _ => replace (A / INR N) with (/ INR N * A) by (unfold Rdiv; ring) end.
    rewrite <- P_Synth.Rsum_map_scal.
    apply Rsum_map_ext. intros n _. cbn [seq map]. rewrite P_Synth.Rsum_cons. cbn [Nat.eqb INR].
    rewrite Rmult_0_l, cos_0. unfold dirichlet.
    transitivity (x n * 1 / INR N + Rsum (map (fun k => x n * 2 / INR N * cos (INR k * (2 * PI * IZR (Z.of_nat j - Z.of_nat n) / INR N))) (seq 1 M))).
    + f_equal; [ring|]. apply Rsum_map_ext. intros k Hk. apply in_seq in Hk.
      destruct (Nat.eqb_spec k 0); [lia|]. field. lra.
    + rewrite P_Synth.Rsum_map_scal. field. lra.
Qed.

Lemma pick (x : nat -> R) N j : (j < N)%nat ->
  Rsum (map (fun n => x n * (if Z.eq_dec (Z.of_nat j - Z.of_nat n) 0 then INR N else 0)) (seq 0 N)) / INR N = x j.
Proof.
  intros Hj. assert (HN : 0 < INR N) by (apply lt_0_INR; lia).
  rewrite (Rsum_map_ext _ (fun n => (if (n =? j)%nat then 1 else 0) * (INR N * x n))).
  - rewrite P_Spline.Rsum_single by exact Hj. field. lra.
  - intros n _. destruct (Z.eq_dec _ 0); destruct (Nat.eqb_spec n j); try lia; ring.
Qed.

Lemma reconstruct_odd M x j : (j < 2 * M + 1)%nat ->
  Rsum (map (fun k => (if (k =? 0)%nat then 1 else 2) *
     (fst (dft (2 * M + 1) x k) * cos (2 * PI * INR k * INR j / INR (2 * M + 1))
      - snd (dft (2 * M + 1) x k) * sin (2 * PI * INR k * INR j / INR (2 * M + 1)))) (seq 0 (S M))) = x j.
Proof.
  intros Hj. rewrite one_sided_sum by lia. rewrite <- (pick x (2 * M + 1) j Hj). f_equal.
  apply Rsum_map_ext. intros n Hn. apply in_seq in Hn. rewrite kernel_odd by lia. reflexivity.
Qed.

Lemma reconstruct_even M x j : (j < 2 * M)%nat ->
  Rsum (map (fun k => (if (k =? 0)%nat then 1 else 2) *
     (fst (dft (2 * M) x k) * cos (2 * PI * INR k * INR j / INR (2 * M))
      - snd (dft (2 * M) x k) * sin (2 * PI * INR k * INR j / INR (2 * M)))) (seq 0 (S M)))
  = x j + (-1) ^ j * alternating_mean (2 * M) x.
Proof.
  intros Hj. rewrite one_sided_sum by lia. rewrite <- (pick x (2 * M) j Hj) at 1. unfold alternating_mean.
  assert (HN : 0 < INR (2 * M)) by (apply lt_0_INR; lia).
  transitivity ((Rsum (map (fun n => x n * (if Z.eq_dec (Z.of_nat j - Z.of_nat n) 0 then INR (2 * M) else 0)) (seq 0 (2 * M)))
     + Rsum (map (fun n => (-1) ^ j * (x n * (-1) ^ n)) (seq 0 (2 * M)))) / INR (2 * M)).
  - f_equal. rewrite <- P_Synth.Rsum_map_plus. apply Rsum_map_ext. intros n Hn. apply in_seq in Hn.
    rewrite kernel_even by lia. rewrite Rmult_plus_distr_l. f_equal.
    rewrite minus_IZR, <- !INR_IZR_INZ, Rmult_minus_distr_l, cos_minus, !cos_PI_nat.
    rewrite !INR_IZR_INZ, !sin_PI_Z. ring.
  - rewrite P_Synth.Rsum_map_scal. field. lra.
Qed.

(** ** The kept components *)

Lemma nth_seq_id {A} (l : list A) d : map (fun j => nth j l d) (seq 0 (List.length l)) = l.
Proof.
  induction l as [|a l IH]; [reflexivity|]. cbn [List.length seq map nth]. f_equal.
  rewrite <- seq_shift, map_map. exact IH.
Qed.

Section keep.
Variables (argsort : list R -> list nat).
Hypothesis Hs : sorts_indices argsort.

Definition order (N : nat) (e : nat -> C) : list nat := rev (argsort (map (fun k => Cmod (e k)) (seq 0 (half N)))).

Lemma order_perm N e : Permutation (order N e) (seq 0 (half N)).
Proof.
  unfold order. rewrite <- Permutation_rev. destruct (Hs (map (fun k => Cmod (e k)) (seq 0 (half N)))) as [P _].
  rewrite map_length, seq_length in P. exact P.
Qed.

Lemma order_length N e : List.length (order N e) = half N.
Proof. rewrite (Permutation_length (order_perm N e)). apply seq_length. Qed.

Lemma keep_all N step e : Permutation (keep argsort (half N) N step e)
  (map (fun k => (frequency_full N step k * (24 * 3600), e k)) (seq 0 (half N))).
Proof.
  unfold keep. fold (order N e). rewrite firstn_all2 by (rewrite order_length; lia).
  apply Permutation_map. apply order_perm.
Qed.

Lemma keep_length filter N step e : (filter <= half N)%nat -> List.length (keep argsort filter N step e) = filter.
Proof. intros H. unfold keep. fold (order N e). rewrite map_length, firstn_length, order_length. lia. Qed.
End keep.

Lemma scale_length sc l : List.length (scale_spectrum sc l) = List.length l.
Proof. unfold scale_spectrum. destruct (truthy sc); [apply map_length | reflexivity]. Qed.

(** Frequencies are not negative, and vanish exactly for k = 0 *)
Lemma freq_pos N step k : (0 < N)%nat -> 0 < step ->
  (k = 0%nat -> frequency_full N step k * (24 * 3600) = 0) /\
  (k <> 0%nat -> 0 < frequency_full N step k * (24 * 3600)).
Proof.
  intros HN Hs. pose proof (lt_0_INR N HN). unfold frequency_full. split; intros Hk.
  - subst. cbn. unfold Rdiv. ring.
  - assert (0 < INR k) by (apply lt_0_INR; lia).
    repeat (apply Rmult_lt_0_compat; [|try apply Rinv_0_lt_compat; try lra]); try lra.
Qed.

(** What the flag of the synthesis does to what the flag of the analysis wrote *)
Lemma flags_agree sc f z t : 0 <= f -> (sc = FlagNone \/ exists b, sc = FlagBool b) ->
  let '(f', z') := if truthy sc then (if Req_EM_T f 0 then (f, z) else (f, Cmult (RtoC 2) z)) else (f, z) in
  f' = f /\ weight sc f' * oscillation f' z' t = one_sided f z t.
Proof.
  intros Hf Hc.
  assert (E : truthy sc = negb (is_False sc)) by (destruct Hc as [-> | [[|] ->]]; reflexivity).
  rewrite E. unfold weight, one_sided. destruct (is_False sc); cbn [negb].
  - split; [reflexivity|]. destruct (Rlt_dec 0 f); destruct (Req_EM_T f 0); try lra.
  - destruct (Req_EM_T f 0) as [Z|Z]; split; try reflexivity.
    unfold oscillation, Cmult, RtoC. cbn [fst snd]. ring.
Qed.

Lemma weighted_sum sc l t : (forall fx, In fx l -> 0 <= fst fx) -> (sc = FlagNone \/ exists b, sc = FlagBool b) ->
  Rsum (map (fun fx => weight sc (fst fx) * oscillation (fst fx) (snd fx) t) (scale_spectrum sc l))
  = Rsum (map (fun fx => one_sided (fst fx) (snd fx) t) l).
Proof.
  intros Hl Hc. unfold scale_spectrum.
  destruct (truthy sc) eqn:T.
  - rewrite map_map. apply Rsum_map_ext. intros [f z] Hi.
    pose proof (flags_agree sc f z t (Hl _ Hi) Hc) as F. rewrite T in F. cbn [fst snd] in *.
    destruct (Req_EM_T f 0); exact (proj2 F).
  - apply Rsum_map_ext. intros [f z] Hi.
    pose proof (flags_agree sc f z t (Hl _ Hi) Hc) as F. rewrite T in F. exact (proj2 F).
Qed.

(** Synthesis of what [spectra] returns: the sum of the kept components *)
Lemma synth_spectra argsort N step filter sc rows cols x q F S FI SI time :
  sorts_indices argsort -> (0 < N)%nat -> 0 < step ->
  (sc = FlagNone \/ exists b, sc = FlagBool b) ->
  spectra argsort N step filter sc rows cols x q = Ok (F, S, FI, SI) ->
  let filter := match filter with None => half N | Some f => f end in
  exists M MI, synth_rotate_gauss time F S sc = Ok M /\ synth_rotate_gauss time FI SI sc = Ok MI /\
   sh M = sh time ++ [rows; cols] /\ sh MI = sh time ++ [rows; cols] /\
   forall i r c, valid (sh time) i -> (r < rows)%nat -> (c < cols)%nat ->
    at_ M (i ++ [r; c]) =
      Rsum (map (fun fx => one_sided (fst fx) (snd fx) (at_ time i))
        (keep argsort filter N step (dft N (fun j => x j r c)))) /\
    at_ MI (i ++ [r; c]) =
      Rsum (map (fun fx => one_sided (fst fx) (snd fx) (at_ time i))
        (keep argsort filter N step (fun f => Cmult (q r f) (dft N (fun j => x j r c) f)))).
Proof.
  intros Hs HN Hstep Hsc E. cbv zeta. unfold spectra in E.
  set (fl := match filter with None => half N | Some f => f end) in *.
  destruct (Nat.leb_spec fl (half N)) as [Hf|Hf]; [|discriminate].
  apply (f_equal (fun r => match r with Ok v => v | Err _ => (F, S, FI, SI) end)) in E. cbn beta iota in E.
  assert (G : forall (e : nat -> nat -> nat -> C),
    let kept k ll := scale_spectrum sc (keep argsort fl N step (e k ll)) in
    exists M, synth_rotate_gauss time (column_array 0 fl rows cols (fun k ll => map fst (kept k ll)))
       (column_array (RtoC 0) fl rows cols (fun k ll => map snd (kept k ll))) sc = Ok M /\
      sh M = sh time ++ [rows; cols] /\
      forall i r c, valid (sh time) i -> (r < rows)%nat -> (c < cols)%nat ->
      at_ M (i ++ [r; c]) = Rsum (map (fun fx => one_sided (fst fx) (snd fx) (at_ time i)) (keep argsort fl N step (e r c)))).
  { intros e kept.
    destruct (synth_rotate_value time (column_array 0 fl rows cols (fun k ll => map fst (kept k ll)))
       (column_array (RtoC 0) fl rows cols (fun k ll => map snd (kept k ll))) sc fl rows cols eq_refl eq_refl) as (M & E1 & E2 & E3).
    exists M. split; [exact E1|]. split; [exact E2|]. intros i r c Hi Hr Hc.
    rewrite (E3 i r c Hi Hr Hc). cbn [column_array at_].
    rewrite <- (weighted_sum sc).
    - fold (kept r c). set (l := kept r c).
      assert (L : List.length l = fl) by (unfold l, kept; rewrite scale_length; apply keep_length; assumption).
      rewrite <- (nth_seq_id l (0, RtoC 0)) at 1. rewrite map_map, L.
      apply Rsum_map_ext. intros j _.
      pose proof (map_nth (@fst R C) l (0, RtoC 0) j) as N1. pose proof (map_nth (@snd R C) l (0, RtoC 0) j) as N2.
      cbn [fst snd] in N1, N2. rewrite N1, N2. reflexivity.
    - intros fx Hx. unfold keep in Hx. apply in_map_iff in Hx. destruct Hx as (k & <- & Hk). cbn [fst].
      destruct (Nat.eq_dec k 0) as [->|Hk0].
      + rewrite (proj1 (freq_pos N step 0 HN Hstep) eq_refl). lra.
      + left. apply (freq_pos N step k HN Hstep). exact Hk0.
    - exact Hsc. }
  destruct (G (fun k ll => dft N (fun j => x j k ll))) as (M & A1 & A2 & A3).
  destruct (G (fun k ll f => Cmult (q k f) (dft N (fun j => x j k ll) f))) as (MI & B1 & B2 & B3).
  cbv zeta in *.
  exists M, MI. injection E as <- <- <- <-.
  split; [exact A1|]. split; [exact B1|]. split; [exact A2|]. split; [exact B2|].
  intros i r c Hi Hr Hc. split; [exact (A3 i r c Hi Hr Hc) | exact (B3 i r c Hi Hr Hc)].
Qed.

Lemma one_sided_sample N step x k j : (0 < N)%nat -> 0 < step ->
  one_sided (frequency_full N step k * (24 * 3600)) (dft N x k) (INR j * step / 24)
  = (if (k =? 0)%nat then 1 else 2) *
    (fst (dft N x k) * cos (2 * PI * INR k * INR j / INR N) - snd (dft N x k) * sin (2 * PI * INR k * INR j / INR N)).
Proof.
  intros HN Hs. pose proof (lt_0_INR N HN). destruct (freq_pos N step k HN Hs) as [F0 F1].
  unfold one_sided, oscillation.
  replace (2 * PI * (frequency_full N step k * (24 * 3600)) * (INR j * step / 24)) with (2 * PI * INR k * INR j / INR N)
    by (unfold frequency_full; field; lra).
  destruct (Nat.eqb_spec k 0) as [E|E].
  - specialize (F0 E). destruct (Req_EM_T _ 0); [reflexivity | contradiction].
  - specialize (F1 E). destruct (Req_EM_T _ 0); [lra | reflexivity].
Qed.

Lemma full_sum argsort N step x j : sorts_indices argsort -> (0 < N)%nat -> 0 < step ->
  Rsum (map (fun fx => one_sided (fst fx) (snd fx) (INR j * step / 24)) (keep argsort (half N) N step (dft N x)))
  = Rsum (map (fun k => (if (k =? 0)%nat then 1 else 2) *
    (fst (dft N x k) * cos (2 * PI * INR k * INR j / INR N) - snd (dft N x k) * sin (2 * PI * INR k * INR j / INR N))) (seq 0 (half N))).
Proof.
  intros Hs HN Hstep. rewrite (Rsum_perm _ _ (Permutation_map _ (keep_all argsort Hs N step (dft N x)))).
  rewrite map_map. apply Rsum_map_ext. intros k _. apply one_sided_sample; assumption.
Qed.

Lemma half_odd M : half (2 * M + 1) = S M.
Proof. unfold half. replace (2 * M + 1)%nat with (1 + M * 2)%nat by lia. rewrite Nat.div_add by lia. cbn. lia. Qed.
Lemma half_even M : half (2 * M) = S M.
Proof. unfold half. rewrite Nat.mul_comm, Nat.div_mul by lia. lia. Qed.
