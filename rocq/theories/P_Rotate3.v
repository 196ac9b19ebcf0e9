(** Proofs about M_Rotate: theorems on whole spectra, and the response of a
    layered conductor. *)
From Coq Require Import Reals List Bool String Arith Permutation Sorted Lia Lra ZArith Psatz.
From Coquelicot Require Import Complex.
From Verif Require Import M_Prelude M_ND Spec_Field Spec_Rotate M_Rotate P_ND P_Synth P_Spline P_Dft P_Rotate P_Rotate2.
Import ListNotations.
Open Scope R_scope.

Definition proper (sc : flag) : Prop := sc = FlagNone \/ exists b, sc = FlagBool b.

Lemma spectra_at_samples : forall argsort N step sc rows cols x q F S FI SI time start j,
  sorts_indices argsort -> (0 < N)%nat -> 0 < step -> proper sc ->
  spectra argsort N step None sc rows cols x q = Ok (F, S, FI, SI) ->
  (forall i, valid (sh time) i -> (j i < N)%nat /\ at_ time i = sample_time step start (j i) - start) ->
  exists M, synth_rotate_gauss time F S sc = Ok M /\ sh M = sh time ++ [rows; cols] /\
  forall i r c, valid (sh time) i -> (r < rows)%nat -> (c < cols)%nat ->
    at_ M (i ++ [r; c]) = x (j i) r c +
      (if Nat.even N then (-1) ^ (j i) * alternating_mean N (fun n => x n r c) else 0).
Proof.
  intros argsort N step sc rows cols x q F S FI SI time start j Hs HN Hstep Hsc E Ht.
  destruct (synth_spectra argsort N step None sc rows cols x q F S FI SI time Hs HN Hstep Hsc E)
    as (M & MI & E1 & _ & E3 & _ & E5).
  exists M. split; [exact E1|]. split; [exact E3|]. intros i r c Hi Hr Hc.
  destruct (E5 i r c Hi Hr Hc) as [E6 _]. rewrite E6. destruct (Ht i Hi) as [Hj ->].
  unfold sample_time. replace (INR (j i) * step / 24 + start - start) with (INR (j i) * step / 24) by ring.
  rewrite (full_sum argsort N step _ _ Hs HN Hstep).
  destruct (Nat.even N) eqn:EN.
  - apply Nat.even_spec in EN. destruct EN as [K ->]. rewrite half_even. apply (reconstruct_even K (fun n => x n r c)). exact Hj.
  - assert (ON : Nat.odd N = true) by (unfold Nat.odd; rewrite EN; reflexivity).
    apply Nat.odd_spec in ON. destruct ON as [K ->]. rewrite half_odd. rewrite Rplus_0_r.
    apply (reconstruct_odd K (fun n => x n r c)). exact Hj.
Qed.

(** ** The retained components are the largest *)

Lemma Sorted_firstn_skipn (R0 : nat -> nat -> Prop) :
  (forall a b c, R0 a b -> R0 b c -> R0 a c) ->
  forall l n a b, Sorted R0 l -> In a (firstn n l) -> In b (skipn n l) -> R0 a b.
Proof.
  intros T l n a b HS. apply Sorted_StronglySorted in HS; [|exact T]. revert n a b.
  induction HS as [|x l HS IH HF]; intros n a b Ha Hb.
  - rewrite firstn_nil in Ha. destruct Ha.
  - destruct n; cbn in *; [destruct Ha|]. destruct Ha as [<-|Ha].
    + rewrite Forall_forall in HF. apply HF. rewrite <- (firstn_skipn n l). apply in_or_app. right. exact Hb.
    + eapply IH; eassumption.
Qed.

Lemma strongly_app (R0 : nat -> nat -> Prop) : forall l x, StronglySorted R0 l -> Forall (fun y => R0 y x) l ->
  StronglySorted R0 (l ++ [x]).
Proof.
  induction l as [|a l IH]; intros x HS HF; cbn; [repeat constructor|].
  inversion HS; subst. inversion HF; subst. constructor; [apply IH; assumption|].
  apply Forall_app. split; [assumption | repeat constructor; assumption].
Qed.

Lemma Sorted_rev_ge (v : nat -> R) : forall l, Sorted (fun i j => v i <= v j) l -> Sorted (fun i j => v j <= v i) (rev l).
Proof.
  intros l HS. apply Sorted_StronglySorted in HS; [|intros a b c; apply Rle_trans].
  apply StronglySorted_Sorted. induction HS as [|x l HS IH HF]; [constructor|]. cbn.
  apply strongly_app; [exact IH|]. apply Forall_forall. intros y Hy. apply in_rev in Hy.
  rewrite Forall_forall in HF. auto.
Qed.

Lemma keep_largest argsort filter N step e : sorts_indices argsort -> 
  exists dropped, Permutation (keep argsort filter N step e ++ dropped)
      (map (fun k => (frequency_full N step k * (24 * 3600), e k)) (seq 0 (half N))) /\
    forall a b, In a (keep argsort filter N step e) -> In b dropped -> Cmod (snd b) <= Cmod (snd a).
Proof.
  intros Hs. set (g := fun k => (frequency_full N step k * (24 * 3600), e k)).
  exists (map g (skipn filter (order argsort N e))). split.
  - unfold keep. fold (order argsort N e). fold g. rewrite <- map_app, firstn_skipn. apply Permutation_map.
    apply order_perm. exact Hs.
  - intros a b Ha Hb. unfold keep in Ha. fold (order argsort N e) in Ha.
    assert (Ra : forall k n, In k (firstn n (order argsort N e)) -> (k < half N)%nat).
    { intros k n Hk. assert (I : In k (order argsort N e)) by (rewrite <- (firstn_skipn n _); apply in_or_app; auto).
      apply (Permutation_in _ (order_perm argsort Hs N e)) in I. apply in_seq in I. lia. }
    assert (Rb : forall k n, In k (skipn n (order argsort N e)) -> (k < half N)%nat).
    { intros k n Hk. assert (I : In k (order argsort N e)) by (rewrite <- (firstn_skipn n _); apply in_or_app; auto).
      apply (Permutation_in _ (order_perm argsort Hs N e)) in I. apply in_seq in I. lia. }
    apply in_map_iff in Ha. destruct Ha as (i & <- & Hi). apply in_map_iff in Hb. destruct Hb as (j & <- & Hj).
    unfold g. cbn [snd].
    destruct (Hs (map (fun k => Cmod (e k)) (seq 0 (half N)))) as [_ HS].
    apply Sorted_rev_ge in HS. fold (order argsort N e) in HS.
    pose proof (Sorted_firstn_skipn _ (fun a b c H1 H2 => Rle_trans _ _ _ H2 H1) _ filter i j HS Hi Hj) as H.
    cbn beta in H.
    assert (V : forall k, (k < half N)%nat -> nth k (map (fun k => Cmod (e k)) (seq 0 (half N))) 0 = Cmod (e k)).
    { intros k Hk. rewrite (nth_indep _ 0 (Cmod (e 0%nat))) by (rewrite map_length, seq_length; exact Hk).
      rewrite (map_nth (fun k => Cmod (e k))), seq_nth by exact Hk. reflexivity. }
    rewrite !V in H by eauto. exact H.
Qed.

Lemma oscillation_bound f z t : Rabs (oscillation f z t) <= Cmod z.
Proof.
  unfold oscillation, Cmod. destruct z as [a b]. cbn [fst snd].
  set (c := cos _). set (s := sin _). pose proof (sin2_cos2 (2 * PI * f * t)) as Q. unfold Rsqr in Q. fold c s in Q.
  rewrite <- sqrt_Rsqr_abs. apply sqrt_le_1_alt. unfold Rsqr.
  assert (0 <= (a * s + b * c) * (a * s + b * c)) by apply Rle_0_sqr. cbn. nra.
Qed.

Lemma one_sided_bound f z t : Rabs (one_sided f z t) <= 2 * Cmod z.
Proof.
  unfold one_sided. rewrite Rabs_mult. pose proof (oscillation_bound f z t) as B. pose proof (Rabs_pos (oscillation f z t)).
  destruct (Req_EM_T f 0); rewrite Rabs_pos_eq by lra; lra.
Qed.

Lemma sum_bound {A} (f g : A -> R) l : (forall x, In x l -> Rabs (f x) <= g x) -> Rabs (Rsum (map f l)) <= Rsum (map g l).
Proof.
  induction l as [|a l IH]; intros H; cbn [map].
  - cbn. rewrite Rabs_R0. lra.
  - rewrite !P_Synth.Rsum_cons. eapply Rle_trans; [apply Rabs_triang|]. apply Rplus_le_compat; [apply H; left; reflexivity|].
    apply IH. intros x Hx. apply H. right. exact Hx.
Qed.

(** ** Layered conductor *)

Lemma q_response_entry : forall file frequency nmax n j f,
  (1 <= n <= nmax)%nat -> nth_error frequency j = Some f ->
  nth_error (nth (n - 1) (q_response file frequency nmax) []) j =
  Some (if Rlt_dec 0 f then Q_1D (1 / f) (map (fun ds => (snd ds, 6371.2 - fst ds)) file) n else RtoC 0).
Proof.
  intros file frequency nmax n j f Hn Hj. unfold q_response.
  set (g := fun n => map _ frequency).
  rewrite (nth_indep _ [] (g 0%nat)) by (rewrite map_length, seq_length; lia).
  rewrite (map_nth g), seq_nth by lia. unfold g. rewrite nth_error_map, Hj. cbn.
  replace (S (n - 1)) with n by lia. reflexivity.
Qed.
