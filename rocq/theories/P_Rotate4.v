(** Final forms of the rotation-spectrum and induction lemmas. *)
From Coq Require Import Reals List Bool String Arith Permutation Sorted Lia Lra ZArith Psatz.
From Coquelicot Require Import Complex.
From Verif Require Import M_Prelude M_ND Spec_Field Spec_Rotate M_Rotate P_ND P_Synth P_Spline P_Dft P_Rotate P_Rotate2 P_Rotate3 P_Response P_Response2.
Import ListNotations.
Open Scope R_scope.

Definition per_day (N : nat) (step : R) (k : nat) : R := frequency_full N step k * (24 * 3600).

Lemma per_day_eq N step k : (0 < N)%nat -> 0 < step -> per_day N step k = 24 * INR k / (INR N * step).
Proof. intros HN Hs. pose proof (lt_0_INR N HN). unfold per_day, frequency_full. field. lra. Qed.

Lemma order_descending argsort N e : sorts_indices argsort ->
  forall f a b, In a (firstn f (order argsort N e)) -> In b (skipn f (order argsort N e)) -> Cmod (e b) <= Cmod (e a).
Proof.
  intros Hs f a b Ha Hb.
  assert (V : forall k, In k (order argsort N e) -> nth k (map (fun k => Cmod (e k)) (seq 0 (half N))) 0 = Cmod (e k)).
  { intros k Hk. apply (Permutation_in _ (order_perm argsort Hs N e)) in Hk. apply in_seq in Hk.
    rewrite (nth_indep _ 0 (Cmod (e 0%nat))) by (rewrite map_length, seq_length; lia).
    rewrite (map_nth (fun k => Cmod (e k))), seq_nth by lia. reflexivity. }
  rewrite <- (V a), <- (V b).
  - destruct (Hs (map (fun k => Cmod (e k)) (seq 0 (half N)))) as [_ S].
    apply (Sorted_rev_ge (fun k => nth k (map (fun k => Cmod (e k)) (seq 0 (half N))) 0)) in S.
    refine (Sorted_firstn_skipn (fun i j => nth j (map (fun k => Cmod (e k)) (seq 0 (half N))) 0 <= nth i (map (fun k => Cmod (e k)) (seq 0 (half N))) 0)
      _ _ f a b S Ha Hb).
    intros x y z H1 H2. lra.
  - rewrite <- (firstn_skipn f). apply in_or_app. right. exact Hb.
  - rewrite <- (firstn_skipn f). apply in_or_app. left. exact Ha.
Qed.

(** [filter] kept, the rest dropped *)
Lemma truncation argsort N step f sc rows cols x q F S FI SI F' S' FI' SI' time :
  sorts_indices argsort -> (0 < N)%nat -> 0 < step -> proper sc ->
  spectra argsort N step (Some f) sc rows cols x q = Ok (F, S, FI, SI) ->
  spectra argsort N step None sc rows cols x q = Ok (F', S', FI', SI') ->
  exists M MI M' MI',
    synth_rotate_gauss time F S sc = Ok M /\ synth_rotate_gauss time FI SI sc = Ok MI /\
    synth_rotate_gauss time F' S' sc = Ok M' /\ synth_rotate_gauss time FI' SI' sc = Ok MI' /\
    forall r c, (r < rows)%nat -> (c < cols)%nat ->
      (exists kept dropped,
        Permutation (kept ++ dropped) (seq 0 (half N)) /\ List.length kept = f /\
        (forall a b, In a kept -> In b dropped ->
           Cmod (dft N (fun j => x j r c) b) <= Cmod (dft N (fun j => x j r c) a)) /\
        (forall i, valid (sh time) i ->
           at_ M (i ++ [r; c]) = Rsum (map (fun k => one_sided (per_day N step k) (dft N (fun j => x j r c) k) (at_ time i)) kept) /\
           Rabs (at_ M (i ++ [r; c]) - at_ M' (i ++ [r; c])) <= 2 * Rsum (map (fun k => Cmod (dft N (fun j => x j r c) k)) dropped))) /\
      (exists kept dropped,
        Permutation (kept ++ dropped) (seq 0 (half N)) /\ List.length kept = f /\
        (forall a b, In a kept -> In b dropped ->
           Cmod (Cmult (q r b) (dft N (fun j => x j r c) b)) <= Cmod (Cmult (q r a) (dft N (fun j => x j r c) a))) /\
        (forall i, valid (sh time) i ->
           at_ MI (i ++ [r; c]) = Rsum (map (fun k => one_sided (per_day N step k) (Cmult (q r k) (dft N (fun j => x j r c) k)) (at_ time i)) kept) /\
           Rabs (at_ MI (i ++ [r; c]) - at_ MI' (i ++ [r; c])) <= 2 * Rsum (map (fun k => Cmod (Cmult (q r k) (dft N (fun j => x j r c) k))) dropped))).
Proof.
  intros Hs HN Hstep Hsc E E'.
  destruct (synth_spectra argsort N step (Some f) sc rows cols x q F S FI SI time Hs HN Hstep Hsc E)
    as (M & MI & A1 & A2 & _ & _ & A5).
  destruct (synth_spectra argsort N step None sc rows cols x q F' S' FI' SI' time Hs HN Hstep Hsc E')
    as (M' & MI' & B1 & B2 & _ & _ & B5).
  exists M, MI, M', MI'. repeat (split; [assumption|]). intros r c Hr Hc.
  assert (Hf : (f <= half N)%nat).
  { unfold spectra in E. destruct (Nat.leb_spec f (half N)); [assumption | discriminate]. }
  assert (G : forall e : nat -> C, exists kept dropped,
     Permutation (kept ++ dropped) (seq 0 (half N)) /\ List.length kept = f /\
     (forall a b, In a kept -> In b dropped -> Cmod (e b) <= Cmod (e a)) /\
     forall t, 
       Rsum (map (fun fx => one_sided (fst fx) (snd fx) t) (keep argsort f N step e))
         = Rsum (map (fun k => one_sided (per_day N step k) (e k) t) kept) /\
       Rabs (Rsum (map (fun fx => one_sided (fst fx) (snd fx) t) (keep argsort f N step e))
         - Rsum (map (fun fx => one_sided (fst fx) (snd fx) t) (keep argsort (half N) N step e)))
       <= 2 * Rsum (map (fun k => Cmod (e k)) dropped)).
  { intros e. exists (firstn f (order argsort N e)), (skipn f (order argsort N e)).
    rewrite firstn_skipn. split; [apply order_perm; exact Hs|].
    split; [rewrite firstn_length, (order_length argsort Hs); lia|].
    split; [apply order_descending; exact Hs|]. intros t.
    assert (K : forall h, Rsum (map (fun fx => one_sided (fst fx) (snd fx) t) (keep argsort h N step e))
       = Rsum (map (fun k => one_sided (per_day N step k) (e k) t) (firstn h (order argsort N e)))).
    { intros h. unfold keep. rewrite map_map. reflexivity. }
    split; [apply K|]. rewrite !K. rewrite (firstn_all2 (n := half N) (order argsort N e)) by (rewrite (order_length argsort Hs); lia).
    rewrite <- (firstn_skipn f (order argsort N e)) at 2. rewrite map_app, P_Synth.Rsum_app.
    match goal with |- Rabs (?a - (?a + ?b)) <= _ => replace (a - (a + b)) with (- b) by ring end.
    rewrite Rabs_Ropp. eapply Rle_trans; [apply (sum_bound _ (fun k => 2 * Cmod (e k))); intros; apply one_sided_bound|].
    rewrite P_Synth.Rsum_map_scal. lra. }
  split.
  - destruct (G (dft N (fun j => x j r c))) as (kp & dr & P1 & P2 & P3 & P4). exists kp, dr.
    split; [exact P1|]. split; [exact P2|]. split; [exact P3|]. intros i Hi.
    destruct (A5 i r c Hi Hr Hc) as [-> _]. destruct (B5 i r c Hi Hr Hc) as [-> _]. apply P4.
  - destruct (G (fun g => Cmult (q r g) (dft N (fun j => x j r c) g))) as (kp & dr & P1 & P2 & P3 & P4). exists kp, dr.
    split; [exact P1|]. split; [exact P2|]. split; [exact P3|]. intros i Hi.
    destruct (A5 i r c Hi Hr Hc) as [_ ->]. destruct (B5 i r c Hi Hr Hc) as [_ ->]. apply P4.
Qed.

Lemma filter_too_large argsort N step f sc rows cols x q : (half N < f)%nat ->
  spectra argsort N step (Some f) sc rows cols x q = Err ValueError.
Proof. intros H. unfold spectra. destruct (Nat.leb_spec f (half N)); [lia | reflexivity]. Qed.

(** ** Conductivity files *)
Definition to_model (file : list (R * R)) := map (fun ds : R * R => (snd ds, 6371.2 - fst ds)) file.

Lemma profile_tail R0 a b l : profile R0 (a :: b :: l) -> profile R0 (b :: l).
Proof.
  intros (_ & H2 & H3). split; [discriminate|]. split.
  - intros d s Hi. apply H2. right. exact Hi.
  - intros i j Hij. cbn [List.length] in Hij. specialize (H3 (S i) (S j)). apply H3. cbn [List.length]. lia.
Qed.

Lemma profile_earthlike file : profile 6371.2 file -> earthlike (to_model file).
Proof.
  induction file as [|[d s] l IH]; intros P; [destruct P as (X & _); congruence|].
  pose proof P as (_ & H2 & H3). destruct (H2 d s (or_introl eq_refl)) as [Hd Hs].
  destruct l as [|[d1 s1] l].
  - cbn. split; lra.
  - specialize (IH (profile_tail _ _ _ _ P)). change (0 <= s /\ 6371.2 - d1 < 6371.2 - d /\ earthlike (to_model ((d1, s1) :: l))).
    split; [exact Hs|]. split; [|exact IH]. specialize (H3 0%nat 1%nat). cbn in H3. assert (d < d1) by (apply H3; lia). lra.
Qed.

Lemma q_response_bound file frequency nmax n j f : profile 6371.2 file -> (1 <= n <= nmax)%nat ->
  nth_error frequency j = Some f ->
  exists z, nth_error (nth (n - 1) (q_response file frequency nmax) []) j = Some z /\
    Cmod z < INR n / (INR n + 1) /\ (f <= 0 -> z = RtoC 0).
Proof.
  intros P Hn Hj. eexists. split; [apply q_response_entry; [exact Hn | exact Hj]|].
  assert (In : 0 < INR n) by (apply lt_0_INR; lia).
  destruct (Rlt_dec 0 f) as [Hf|Hf].
  - split; [|intros; lra]. apply Q_bound; [apply Rdiv_lt_0_compat; lra | exact (profile_earthlike _ P) | lia].
  - split; [|reflexivity]. rewrite Cmod_R, Rabs_R0. apply Rdiv_lt_0_compat; lra.
Qed.

(** Same p, same response *)
Lemma Q_same_p period m1 m2 n : 0 < period -> (1 <= n)%nat -> earthlike m1 -> earthlike m2 ->
  p_of (omega period) n (map (fun sr => (fst sr, 1000 * snd sr)) m1) = p_of (omega period) n (map (fun sr => (fst sr, 1000 * snd sr)) m2) ->
  Q_1D period m1 n = Q_1D period m2 n.
Proof.
  intros Hp Hn E1 E2 H. apply layers_earthlike in E1. apply layers_earthlike in E2. unfold Q_1D.
  destruct (Q_of_p (2 * PI / period) n _ (omega_pos _ Hp) E1 Hn) as [_ G1].
  destruct (Q_of_p (2 * PI / period) n _ (omega_pos _ Hp) E2 Hn) as [_ G2].
  unfold top in G1, G2. unfold omega in *. rewrite G1, G2. rewrite H. reflexivity.
Qed.

Lemma Q_insulator period model n : 0 < period -> (1 <= n)%nat -> earthlike model ->
  (forall sr, In sr model -> fst sr = 0) -> Q_1D period model n = RtoC 0.
Proof.
  intros Hp Hn E Z. unfold Q_1D. apply layers_earthlike in E.
  destruct (Q_of_p (2 * PI / period) n _ (omega_pos _ Hp) E Hn) as [D G]. unfold top in G. unfold omega. rewrite G. clear G.
  cbv zeta in D. rewrite insulator in * ; try assumption.
  - match goal with |- Cmult _ (Cdiv ?a _) = _ => replace a with (RtoC 0) by ring end. field. exact D.
  - apply omega_pos. exact Hp.
  - intros sr Hi. apply in_map_iff in Hi. destruct Hi as (a & <- & Ha). cbn. auto.
  - apply omega_pos. exact Hp.
  - intros sr Hi. apply in_map_iff in Hi. destruct Hi as (a & <- & Ha). cbn. auto.
Qed.

Lemma q_response_split A B d0 s0 d s' frequency nmax :
  profile 6371.2 (A ++ (d0, s0) :: B) -> profile 6371.2 (A ++ (d0, s0) :: (d, s') :: B) ->
  s' * (6371.2 - d) ^ 2 = s0 * (6371.2 - d0) ^ 2 ->
  q_response (A ++ (d0, s0) :: (d, s') :: B) frequency nmax = q_response (A ++ (d0, s0) :: B) frequency nmax.
Proof.
  intros P P' Es. apply profile_earthlike in P. apply profile_earthlike in P'.
  unfold q_response. apply map_ext_in. intros n Hn. apply in_seq in Hn. apply map_ext. intros f.
  destruct (Rlt_dec 0 f) as [Hf|]; [|reflexivity].
  fold (to_model (A ++ (d0, s0) :: (d, s') :: B)). fold (to_model (A ++ (d0, s0) :: B)).
  assert (Hp : 0 < 1 / f) by (apply Rdiv_lt_0_compat; lra).
  apply Q_same_p; [exact Hp | lia | exact P' | exact P |].
  apply layers_earthlike in P. apply layers_earthlike in P'.
  unfold to_model in *. rewrite !map_map in *. cbn [fst snd] in *. rewrite !map_app in *. cbn [map fst snd] in *.
  set (L := map _ A) in *. set (b := map _ B) in *.
  assert (Sub : forall L X, X <> [] -> earthlike (L ++ X) -> earthlike X).
  { induction L0 as [|[s r] L0 IH]; intros X NX EX; [exact EX|]. apply IH; [exact NX|].
    cbn [app] in EX. destruct (L0 ++ X) as [|[s1 r1] k] eqn:EL.
    - destruct L0; [cbn in EL; contradiction | discriminate].
    - destruct EX as (_ & _ & EX). exact EX. }
  pose proof (Sub L ((s0, 1000 * (6371.2 - d0)) :: (s', 1000 * (6371.2 - d)) :: b) ltac:(discriminate) P') as (K1 & K2 & K3).
  unfold omega. apply p_context; try assumption; try discriminate.
  - apply omega_pos. exact Hp.
  - reflexivity.
  - apply split_layer; try assumption.
    + apply omega_pos. exact Hp.
    + pose proof (earthlike_top _ K3) as T. cbn in T. exact T.
    + transitivity (1000 ^ 2 * (s' * (6371.2 - d) ^ 2)); [ring | rewrite Es; ring].
    + intros NB. destruct b as [|[s1 r1] b']; [congruence|]. destruct K3 as (_ & K4 & K5). split; [exact K5 | exact K4].
Qed.

(** Row of the response used for coefficient number k: the degree, less one *)
Lemma response_row_degree n k : (1 <= n)%nat -> (n * n - 1 <= k < (n + 1) * (n + 1) - 1)%nat -> response_row k = (n - 1)%nat.
Proof.
  intros Hn [H1 H2]. unfold response_row. assert (E : Nat.sqrt (k + 1) = n).
  { apply Nat.sqrt_unique. nia. }
  rewrite E. reflexivity.
Qed.
