(** [q_response_1D] with kind='constant' as a whole *)
From Coq Require Import Reals List Bool Lia Lra Psatz Arith.
From Coquelicot Require Import Coquelicot.
From Verif Require Import M_Prelude M_ND M_Rotate M_QConst Spec_Induction Spec_InductionC P_Response P_Response2 P_Induction P_QConst1 P_QConst2 P_QConst3 P_QConst4 P_QConst5 P_QConst6 P_QConst7 P_QConst8 P_QConst9 P_QConst10.
Import ListNotations.
Open Scope R_scope.

(** ** The loops end *)
Lemma small_ends n e z : 0 < e -> exists f0 t, forall f, (f0 <= f)%nat -> small f n e z = Some t.
Proof.
  intros He. destruct (loop_ends n (Cdiv (cpow z 2) (RtoC 2)) e He) as (f0 & m & _ & E).
  eexists f0, _. intros f Hf. unfold small. cbv zeta. rewrite (E f Hf). reflexivity.
Qed.
Lemma ratios_end n e k r r1 : 0 < e -> exists f0 v, forall f, (f0 <= f)%nat -> layer_ratios f n e k r r1 = Some v.
Proof.
  intros He. unfold layer_ratios. destruct (is_small k r).
  - destruct (small_ends n e (Cmult k (RtoC (r * 1000))) He) as (f0 & t0 & E0). destruct (small_ends n e (Cmult k (RtoC (r1 * 1000))) He) as (f1 & t1 & E1).
    exists (Nat.max f0 f1), (ratios_of t0 t1 (RtoC 1)). intros f Hf. rewrite E0, E1 by lia. reflexivity.
  - exists O. eexists. intros. reflexivity.
Qed.
Lemma layers_end n e period L : 0 < e -> (2 <= length L)%nat -> exists f0 b, forall f, (f0 <= f)%nat -> b_layers f n e period L = Some b.
Proof.
  intros He. induction L as [|[s r] L IH]; [cbn; lia|]. destruct L as [|[s1 r1] L]; [cbn; lia|]. intros _.
  destruct (ratios_end n e (k_of period s) r r1 He) as (f0 & v & E).
  destruct L as [|y L].
  - exists f0, (b_first (k_of period s) v). intros f Hf. cbn [b_layers]. rewrite (E f Hf). reflexivity.
  - destruct IH as (f1 & b & Eb); [cbn; lia|]. exists (Nat.max f0 f1), (b_next (k_of period s) v b). intros f Hf.
    change (b_layers f n e period ((s, r) :: (s1, r1) :: y :: L)) with
        (match layer_ratios f n e (k_of period s) r r1 with None => None | Some v => match b_layers f n e period ((s1, r1) :: y :: L) with None => None | Some b => Some (b_next (k_of period s) v b) end end).
    rewrite E, Eb by lia. reflexivity.
Qed.
Lemma response_ends n e period L : 0 < e -> (2 <= length L)%nat -> exists f0 t, forall f, (f0 <= f)%nat -> response_const f n e period L = Some t.
Proof.
  intros He HL. destruct (layers_end n e period L He HL) as (f0 & b & E). exists f0. eexists. intros f Hf. unfold response_const. rewrite (E f Hf). reflexivity.
Qed.
Lemma eps_pos : 0 < eps.
Proof. unfold eps. apply Rinv_0_lt_compat, pow_lt. lra. Qed.
Lemma all_end n L ts : (2 <= length L)%nat -> exists f0 l, forall f, (f0 <= f)%nat -> all_some (map (fun t => response_const f n eps t L) ts) = Some l.
Proof.
  intros HL. induction ts as [|t ts IH]; [exists O, []; reflexivity|].
  destruct IH as (f0 & l & E). destruct (response_ends n eps t L eps_pos HL) as (f1 & v & E1).
  exists (Nat.max f0 f1), (v :: l). intros f Hf. cbn [map all_some]. rewrite E1, E by lia. reflexivity.
Qed.
Lemma call_ends periods L n : exists f0 r, forall f, (f0 <= f)%nat -> q_response_constant f periods L n = Some r.
Proof.
  unfold q_response_constant. destruct (sh periods) as [|d [|d2 ds]].
  - exists O. eexists. reflexivity.
  - destruct ((1 <=? length (elems periods)) && (length L <=? 1))%nat%bool eqn:B; [exists O; eexists; reflexivity|].
    destruct (length L =? 0)%nat eqn:Z0; [exists O; eexists; reflexivity|].
    apply andb_false_iff in B. destruct (le_lt_dec 2 (length L)) as [H|H].
    + destruct (all_end n L (elems periods) H) as (f0 & l & E). exists f0, (Ok l). intros f Hf. rewrite (E f Hf). reflexivity.
    + assert (elems periods = []) as ->.
      { destruct B as [B|B]; [|apply Nat.leb_gt in B; lia]. destruct (elems periods); [reflexivity | cbn in B; discriminate]. }
      exists O, (Ok []). intros f _. reflexivity.
  - exists O. eexists. reflexivity.
Qed.

(** More rounds change nothing *)
Lemma loop_mono n e zz : forall f f' j dp dq s t, (f <= f')%nat -> small_loop f n e zz j dp dq s = Some t -> small_loop f' n e zz j dp dq s = Some t.
Proof.
  induction f as [|f IH]; intros f' j dp dq s t Hf; destruct f' as [|f']; try lia; try (intros E; exact E).
  - cbn [small_loop]. destruct (if Rlt_dec e (Cmod dp) then true else if Rlt_dec e (Cmod dq) then true else false); [discriminate | auto].
  - cbn [small_loop]. destruct (if Rlt_dec e (Cmod dp) then true else if Rlt_dec e (Cmod dq) then true else false); [|auto].
    apply IH. lia.
Qed.
Lemma small_mono n e z f f' t : (f <= f')%nat -> small f n e z = Some t -> small f' n e z = Some t.
Proof.
  intros Hf. unfold small. cbv zeta. set (s0 := mkbessel _ _ _ _). destruct (small_loop f n e _ 1 _ _ s0) as [s|] eqn:E; [|discriminate].
  rewrite (loop_mono n e _ f f' _ _ _ _ _ Hf E). auto.
Qed.
Lemma ratios_mono n e k r r1 f f' v : (f <= f')%nat -> layer_ratios f n e k r r1 = Some v -> layer_ratios f' n e k r r1 = Some v.
Proof.
  intros Hf. unfold layer_ratios. destruct (is_small k r); [|auto].
  destruct (small f n e (Cmult k (RtoC (r * 1000)))) eqn:E0; [|discriminate]. destruct (small f n e (Cmult k (RtoC (r1 * 1000)))) eqn:E1; [|discriminate].
  rewrite (small_mono _ _ _ f f' _ Hf E0), (small_mono _ _ _ f f' _ Hf E1). auto.
Qed.
Lemma layers_mono n e period L f f' b : (f <= f')%nat -> b_layers f n e period L = Some b -> b_layers f' n e period L = Some b.
Proof.
  intros Hf. revert b. induction L as [|[s r] L IH]; intros b; [auto|]. destruct L as [|[s1 r1] L]; [auto|].
  destruct L as [|y L].
  - cbn [b_layers]. destruct (layer_ratios f n e (k_of period s) r r1) eqn:E; [|discriminate]. rewrite (ratios_mono _ _ _ _ _ f f' _ Hf E). auto.
  - assert (U : forall g, b_layers g n e period ((s, r) :: (s1, r1) :: y :: L) =
        (match layer_ratios g n e (k_of period s) r r1 with None => None | Some v => match b_layers g n e period ((s1, r1) :: y :: L) with None => None | Some b => Some (b_next (k_of period s) v b) end end)) by reflexivity.
    rewrite !U. clear U. destruct (layer_ratios f n e (k_of period s) r r1) eqn:E; [|discriminate]. rewrite (ratios_mono _ _ _ _ _ f f' _ Hf E).
    destruct (b_layers f n e period ((s1, r1) :: y :: L)) eqn:Eb; [|discriminate]. rewrite (IH _ eq_refl). auto.
Qed.
Lemma response_mono n e period L f f' t : (f <= f')%nat -> response_const f n e period L = Some t -> response_const f' n e period L = Some t.
Proof.
  intros Hf. unfold response_const. destruct (b_layers f n e period L) eqn:E; [|discriminate]. rewrite (layers_mono _ _ _ _ f f' _ Hf E). auto.
Qed.
Lemma call_mono periods L n f f' r : (f <= f')%nat -> q_response_constant f periods L n = Some r -> q_response_constant f' periods L n = Some r.
Proof.
  intros Hf. unfold q_response_constant. destruct (sh periods) as [|d [|d2 ds]]; auto.
  destruct ((1 <=? length (elems periods)) && (length L <=? 1))%nat%bool; auto.
  destruct (length L =? 0)%nat; auto.
  assert (A : forall ts l, all_some (map (fun t => response_const f n eps t L) ts) = Some l -> all_some (map (fun t => response_const f' n eps t L) ts) = Some l).
  { induction ts as [|t ts IH]; intros l; [auto|]. cbn [map all_some]. destruct (response_const f n eps t L) eqn:E; [|discriminate].
    rewrite (response_mono _ _ _ _ f f' _ Hf E). destruct (all_some (map (fun t => response_const f n eps t L) ts)) eqn:E2; [|discriminate].
    rewrite (IH _ eq_refl). auto. }
  destruct (all_some (map (fun t => response_const f n eps t L) (elems periods))) eqn:E; [|discriminate]. rewrite (A _ _ E). auto.
Qed.

(** ** Sizes *)
Lemma Cmod_sqr z : Cmod z * Cmod z = fst z * fst z + snd z * snd z.
Proof. rewrite <- dot_mod. reflexivity. Qed.
Lemma Q_bound n r0 b : (1 <= n)%nat -> 0 < r0 -> 0 <= fst b -> Cmod (Q_of_C n (1000 * r0) (C_const r0 b)) < INR n / (INR n + 1).
Proof.
  intros Hn Hr Hb. rewrite (Qr_eq n r0 b Hr Hb). set (N := INR n). assert (1 <= N) by (change 1 with (INR 1); apply le_INR; exact Hn).
  set (D := Cplus (RtoC 1) (Cmult (RtoC (1000 * r0)) b)).
  assert (ND := Dn_ne n r0 b Hr Hb). fold N D in ND. assert (NN := n1_ne n). fold N in NN.
  assert (HD : 1 <= fst D).
  { unfold D, Cplus, Cmult, RtoC. cbn [fst snd]. assert (0 <= 1000 * r0 * fst b) by (apply Rmult_le_pos; lra). lra. }
  rewrite Cmod_div by (apply Cmult_neq_0; assumption). rewrite !Cmod_mult. rewrite <- RC_plus, !Cmod_R. rewrite !Rabs_pos_eq by lra.
  assert (P : 0 < Cmod (Cplus D (RtoC N))) by (apply Cmod_gt_0; exact ND).
  assert (LT : Cmod (Cminus D (RtoC (N + 1))) < Cmod (Cplus D (RtoC N))).
  { apply Rnot_le_lt. intros X. assert (Y : Cmod (Cplus D (RtoC N)) * Cmod (Cplus D (RtoC N)) <= Cmod (Cminus D (RtoC (N + 1))) * Cmod (Cminus D (RtoC (N + 1)))) by (apply Rmult_le_compat; lra).
    rewrite !Cmod_sqr in Y. unfold Cminus, Cplus, Copp, RtoC in Y. cbn [fst snd] in Y. nra. }
  apply (Rmult_lt_reg_r ((N + 1) * Cmod (Cplus D (RtoC N)))); [apply Rmult_lt_0_compat; lra|].
  replace (N * Cmod (Cminus D (RtoC (N + 1))) / ((N + 1) * Cmod (Cplus D (RtoC N))) * ((N + 1) * Cmod (Cplus D (RtoC N)))) with (N * Cmod (Cminus D (RtoC (N + 1)))) by (field; lra).
  replace (N / (N + 1) * ((N + 1) * Cmod (Cplus D (RtoC N)))) with (N * Cmod (Cplus D (RtoC N))) by (field; lra).
  apply Rmult_lt_compat_l; lra.
Qed.
Lemma C_bounds r0 b : 0 < r0 -> 0 <= fst b -> 0 < fst (C_const r0 b) /\ Cmod (C_const r0 b) <= r0.
Proof.
  intros Hr Hb. assert (ND := D_ne r0 b Hr Hb). unfold C_const. set (D := Cplus (RtoC 1) (Cmult (RtoC (1000 * r0)) b)) in *.
  assert (HD : 1 <= fst D).
  { unfold D, Cplus, Cmult, RtoC. cbn [fst snd]. assert (0 <= 1000 * r0 * fst b) by (apply Rmult_le_pos; lra). lra. }
  split.
  - destruct D as [x y]. cbn [fst] in HD. unfold Cdiv, Cinv, Cmult, RtoC. cbn [fst snd].
    assert (0 < x ^ 2 + y ^ 2) by nra. replace (r0 * (x / (x ^ 2 + y ^ 2)) - 0 * (- y / (x ^ 2 + y ^ 2))) with (r0 * x / (x ^ 2 + y ^ 2)) by (field; lra).
    apply Rdiv_lt_0_compat; [apply Rmult_lt_0_compat; lra | assumption].
  - rewrite Cmod_div by exact ND. rewrite Cmod_R, Rabs_pos_eq by lra.
    assert (1 <= Cmod D) by (pose proof (Cmod_re_le D); pose proof (Rle_abs (fst D)); lra).
    apply (Rmult_le_reg_r (Cmod D)); [lra|]. replace (r0 / Cmod D * Cmod D) with r0 by (field; lra). nra.
Qed.
Lemma C_meaning r0 b (v dv : C) : 0 < r0 -> 0 <= fst b -> dv = Cmult b v ->
  Cmult (Cmult (RtoC 1000) (C_const r0 b)) (Cplus v (Cmult (RtoC (1000 * r0)) dv)) = Cmult (RtoC (1000 * r0)) v.
Proof.
  intros Hr Hb ->. assert (ND := D_ne r0 b Hr Hb). unfold C_const. rewrite RC_mult in *. field. exact ND.
Qed.

(** ** Deep shells: the whole call *)
Lemma deep_call fuel periods m L n : sh periods = [m] -> (1 <= n)%nat -> conducting L ->
  (forall t, In t (elems periods) -> 0 < t /\ deep (2 * PI / t) mu L) ->
  exists l, q_response_constant fuel periods L n = Some (Ok l) /\
    Forall2 (fun t out => let '(c, rho, Q) := out in
      let r0 := snd (nth 0 L (0, 0)) in
      is_response (2 * PI / t) mu n (1000 * r0) (metres L) Q /\ Cmod Q < INR n / (INR n + 1) /\
      0 < fst c /\ Cmod c <= r0 /\
      (forall v dv, field_const (2 * PI / t) mu n (metres L) v dv ->
         Cmult (Cmult (RtoC 1000) c) (Cplus v (Cmult (RtoC (1000 * r0)) dv)) = Cmult (RtoC (1000 * r0)) v) /\
      rho = 2 * PI / t * mu * (Cmod (Cmult c (RtoC 1000))) ^ 2) (elems periods) l.
Proof.
  intros Hs Hn Hc Hd. unfold q_response_constant. rewrite Hs.
  assert (HL : (length L <=? 1)%nat = false).
  { destruct L as [|[s r] [|[s1 r1] L]]; [contradiction | contradiction | reflexivity]. }
  assert (H0 : (length L =? 0)%nat = false) by (destruct L; [discriminate|reflexivity]).
  rewrite HL, andb_false_r, H0. clear H0. set (ts := elems periods) in *. clearbody ts. clear Hs HL.
  assert (Hr := conducting_top L Hc).
  induction ts as [|t ts IH]; [exists []; split; [reflexivity | constructor]|].
  destruct (Hd t (or_introl eq_refl)) as (Ht & Hdt).
  destruct IH as (l & E & F); [intros; apply Hd; right; assumption|].
  destruct (thick_ratio fuel n eps t L Ht Hc Hdt) as (b & Eb & Rb).
  assert (Er : exists out, response_const fuel n eps t L = Some out /\ let '(c, rho, Q) := out in
      let r0 := snd (nth 0 L (0, 0)) in
      is_response (2 * PI / t) mu n (1000 * r0) (metres L) Q /\ Cmod Q < INR n / (INR n + 1) /\
      0 < fst c /\ Cmod c <= r0 /\
      (forall v dv, field_const (2 * PI / t) mu n (metres L) v dv ->
         Cmult (Cmult (RtoC 1000) c) (Cplus v (Cmult (RtoC (1000 * r0)) dv)) = Cmult (RtoC (1000 * r0)) v) /\
      rho = 2 * PI / t * mu * (Cmod (Cmult c (RtoC 1000))) ^ 2).
  { unfold response_const. rewrite Eb. eexists. split; [reflexivity|]. cbv zeta.
    assert (Fb : 0 <= fst b) by apply Rb.
    split; [apply response_of_ratio; assumption|]. split; [apply Q_bound; assumption|].
    split; [apply C_bounds; assumption|]. split; [apply C_bounds; assumption|]. split.
    - intros v dv Hf. apply C_meaning; [exact Hr | exact Fb | apply Rb; exact Hf].
    - unfold mu. set (g := Cmod _ ^ 2). field. lra. }
  destruct Er as (out & Eo & Ho). exists (out :: l). split.
  - cbn [map all_some]. rewrite Eo. destruct (all_some (map (fun t => response_const fuel n eps t L) ts)); [|discriminate]. congruence.
  - constructor; [exact Ho | exact F].
Qed.

(** ** Thin shells *)
Lemma thin_limit n period L : (1 <= n)%nat -> 0 < period -> conducting L -> seconds_ok n period L ->
  exists Q, is_response (2 * PI / period) mu n (1000 * snd (nth 0 L (0, 0))) (metres L) Q /\ Cmod Q < INR n / (INR n + 1) /\
  forall d, 0 < d -> exists e0, 0 < e0 /\ forall e, 0 < e < e0 -> exists f0, forall f, (f0 <= f)%nat ->
    exists c rho q, response_const f n e period L = Some (c, rho, q) /\ Cmod (Cminus q Q) < d.
Proof.
  intros Hn Hp Hc Hs. destruct (layers_limit n period L Hn Hp Hc Hs) as (b & Rb & Lb). assert (Hr := conducting_top L Hc).
  set (r0 := snd (nth 0 L (0, 0))) in *. exists (Q_of_C n (1000 * r0) (C_const r0 b)). assert (Fb : 0 <= fst b) by apply Rb.
  split; [apply response_of_ratio; assumption|]. split; [apply Q_bound; assumption|].
  intros d Hd. 
  assert (LQ := Q_lim n r0 _ b Hn Hr Fb Lb d Hd). assert (SB := proj1 (olim_get _ _ Lb)).
  generalize (flt_and _ _ SB LQ). apply flt_imp. intros e f [E1 E2]. unfold response_const. rewrite E1.
  do 3 eexists. split; [reflexivity|]. fold r0. exact E2.
Qed.

(** ** The call on a vector *)
Lemma all_some_nth {A} (l : list (option A)) r : all_some l = Some r -> length r = length l /\ forall j, (j < length l)%nat -> nth_error l j = Some (nth_error r j).
Proof.
  revert r. induction l as [|[x|] l IH]; intros r; cbn [all_some]; [|destruct (all_some l) eqn:E; [|discriminate] | discriminate].
  - intros [= <-]. split; [reflexivity|]. cbn. lia.
  - intros [= <-]. destruct (IH _ eq_refl) as (L & N). split; [cbn; lia|]. intros [|j] Hj; [reflexivity|]. cbn [nth_error]. apply N. cbn in Hj. lia.
Qed.
Lemma elems_vec_nth (a : nd R) m j : sh a = [m] -> (j < m)%nat -> nth_error (elems a) j = Some (at_ a [j]) /\ length (elems a) = m.
Proof.
  intros H Hj. unfold elems. rewrite H.
  assert (I : indices [m] = map (fun i => [i]) (seq 0 m)).
  { cbn [indices]. induction (seq 0 m) as [|x l IH]; [reflexivity|]. cbn. f_equal; try exact IH. }
  rewrite I, map_map. split; [|rewrite map_length, seq_length; reflexivity].
  rewrite nth_error_map, (nth_error_nth' _ O) by (rewrite seq_length; exact Hj). rewrite seq_nth by exact Hj. reflexivity.
Qed.
Lemma call_succeeds periods m L n : sh periods = [m] -> (2 <= length L)%nat ->
  exists f0 l, length l = m /\ forall f, (f0 <= f)%nat ->
    q_response_constant f periods L n = Some (Ok l) /\
    (forall j, (j < m)%nat -> nth_error l j = response_const f n eps (at_ periods [j]) L).
Proof.
  intros Hs HL. destruct (all_end n L (elems periods) HL) as (f0 & l & E). exists f0, l.
  assert (HB : (length L <=? 1)%nat = false) by (apply Nat.leb_gt; lia).
  assert (H0 : (length L =? 0)%nat = false) by (apply Nat.eqb_neq; lia).
  assert (Hm : length (elems periods) = m).
  { unfold elems. rewrite Hs, map_length. cbn [indices]. clear. generalize O. induction m; intros a; [reflexivity|]. cbn. f_equal. apply IHm. }
  split.
  - destruct (all_some_nth _ _ (E f0 (le_n _))) as (X & _). rewrite X, map_length. exact Hm.
  - intros f Hf. split.
    + unfold q_response_constant. rewrite Hs, HB, andb_false_r, H0, (E f Hf). reflexivity.
    + intros j Hj. destruct (all_some_nth _ _ (E f Hf)) as (X & N). rewrite map_length, Hm in N. specialize (N j Hj).
      rewrite nth_error_map in N. rewrite (proj1 (elems_vec_nth periods m j Hs Hj)) in N. cbn [option_map] in N. congruence.
Qed.

(** ** Examples *)
Lemma rate_low t : 0 < t -> t <= 86400 -> / 10 ^ 11 <= 2 * PI / t * (4 * PI * / 10 ^ 7).
Proof.
  intros H0 H. pose proof PI2_3_2 as P. assert (3 <= PI) by lra. 
  assert (/ 86400 <= / t) by (apply Rinv_le_contravar; lra).
  assert (9 <= PI * PI) by nra.
  replace (2 * PI / t * (4 * PI * / 10 ^ 7)) with (8 * / 10 ^ 7 * (PI * PI) * / t) by (field; lra).
  apply Rle_trans with (8 * / 10 ^ 7 * 9 * / 86400); [lra|]. apply Rmult_le_compat; [lra | lra | apply Rmult_le_compat_l; lra | assumption].
Qed.
Lemma deep_one t s r : 0 < t -> t <= 86400 -> 1 <= s -> 1000 <= r -> 3 <= sqrt (2 * PI / t * (4 * PI * / 10 ^ 7) * s) * (1000 * r).
Proof.
  intros H0 H Hs Hr. pose proof (rate_low t H0 H) as P. set (w := 2 * PI / t * (4 * PI * / 10 ^ 7)) in *.
  assert (0 < / 10 ^ 11) by (apply Rinv_0_lt_compat, pow_lt; lra).
  assert (/ 10 ^ 11 <= w * s) by nra.
  assert (3 * / 10 ^ 6 <= sqrt (w * s)).
  { apply Rle_trans with (sqrt ((3 * / 10 ^ 6) ^ 2)); [rewrite sqrt_pow2; lra|]. apply sqrt_le_1_alt. lra. }
  nra.
Qed.
Lemma deep_example : forall t, In t [86400; 3600] -> 0 < t /\ deep (2 * PI / t) (4 * PI * / 10 ^ 7) [(1, 6371.2); (10, 5000); (0, 3480)].
Proof.
  intros t Ht. assert (0 < t <= 86400) by (destruct Ht as [<- | [<- | []]]; lra). split; [lra|].
  cbn [deep]. repeat split; apply deep_one; lra.
Qed.
Lemma thin_example : conducting [(/ 10 ^ 6, 6371.2); (0, 3480)] /\ ~ deep (2 * PI / 86400) (4 * PI * / 10 ^ 7) [(/ 10 ^ 6, 6371.2); (0, 3480)].
Proof.
  split; [cbn; lra|]. cbn [deep]. intros [H _]. 
  assert (U : 2 * PI / 86400 * (4 * PI * / 10 ^ 7) * / 10 ^ 6 <= / 10 ^ 15).
  { pose proof PI_4 as P4. pose proof PI_RGT_0. assert (PI * PI <= 16) by nra.
    replace (2 * PI / 86400 * (4 * PI * / 10 ^ 7) * / 10 ^ 6) with (8 * / 10 ^ 13 / 86400 * (PI * PI)) by field. lra. }
  assert (S : sqrt (2 * PI / 86400 * (4 * PI * / 10 ^ 7) * / 10 ^ 6) <= 4 * / 10 ^ 8).
  { apply Rle_trans with (sqrt ((4 * / 10 ^ 8) ^ 2)); [apply sqrt_le_1_alt; lra | rewrite sqrt_pow2; lra]. }
  lra.
Qed.
Lemma not_thin_example : 3 <= Cmod (Cmult (k_of 86400 1) (RtoC (6371.2 * 1000))).
Proof.
  rewrite Cmod_mult, Cmod_R, Rabs_pos_eq, k_mod by lra. replace (6371.2 * 1000) with (1000 * 6371.2) by ring. apply deep_one; lra.
Qed.
