(** Proofs about M_Rotate: bounds and invariance of the response. *)
From Coq Require Import Reals List Bool Arith Lia Lra Psatz.
From Coquelicot Require Import Coquelicot.
From Verif Require Import M_Prelude M_ND Spec_Field M_Rotate P_Response P_Rotate3.
Import ListNotations.
Open Scope R_scope.

Lemma Cmod_div_lt p N : 0 < fst p -> 0 < N -> Cmod (Cdiv (Cminus p (RtoC N)) (Cplus p (RtoC N))) < 1.
Proof.
  intros Hp HN.
  assert (D : Cplus p (RtoC N) <> RtoC 0).
  { intros X. apply (f_equal fst) in X. unfold Cplus, RtoC in X. cbn [fst] in X. lra. }
  rewrite Cmod_div by exact D. pose proof (proj1 (Cmod_gt_0 _) D) as G.
  apply (Rmult_lt_reg_r (Cmod (Cplus p (RtoC N)))); [exact G|].
  unfold Rdiv. rewrite Rmult_assoc, Rinv_l, Rmult_1_r, Rmult_1_l by lra.
  unfold Cmod. apply sqrt_lt_1_alt. destruct p as [x y]. unfold Cminus, Cplus, Copp, RtoC in *. cbn [fst snd] in *.
  split; [|nra]. pose proof (Rle_0_sqr (x + - N)). pose proof (Rle_0_sqr (y + - 0)). unfold Rsqr in *. cbn. lra.
Qed.

Lemma omega_pos period : 0 < period -> 0 < 2 * PI / period.
Proof. intros H. pose proof PI_RGT_0. apply Rdiv_lt_0_compat; lra. Qed.

Lemma layers_earthlike model : earthlike model -> earthlike (map (fun sr => (fst sr, 1000 * snd sr)) model).
Proof.
  induction model as [|[s r] l IH]; [auto|]. destruct l as [|[s1 r1] l].
  - cbn. intros [H1 H2]. split; [assumption | lra].
  - intros (H1 & H2 & E). specialize (IH E). cbn [map fst snd] in *. split; [assumption|]. split; [lra | exact IH].
Qed.

Lemma Q_bound period model n : 0 < period -> earthlike model -> (1 <= n)%nat ->
  Cmod (Q_1D period model n) < INR n / (INR n + 1).
Proof.
  intros Hp E Hn. assert (In : 0 < INR n) by (apply lt_0_INR; lia).
  apply layers_earthlike in E. unfold Q_1D. set (layers := map _ model) in *.
  destruct (Q_of_p (2 * PI / period) n layers (omega_pos _ Hp) E Hn) as [_ H]. cbv zeta in H.
  unfold top in H. unfold omega. rewrite H, Cmod_mult, Cmod_R.
  assert (K : 0 < INR n / (INR n + 1)) by (apply Rdiv_lt_0_compat; lra).
  rewrite Rabs_pos_eq by lra.
  pose proof (p_quadrant (2 * PI / period) n layers (omega_pos _ Hp) E) as [Q1 _].
  assert (HN : 0 < INR n + 1 / 2) by lra.
  pose proof (Cmod_div_lt _ _ Q1 HN) as B.
  rewrite <- (Rmult_1_r (INR n / (INR n + 1))) at 2. apply Rmult_lt_compat_l; assumption.
Qed.

(** The C-response lies in the fourth quadrant *)
Lemma C_quadrant period layers n : 0 < period -> earthlike layers ->
  let c := C_response (omega period) n layers in 0 < fst c /\ snd c <= 0 /\ Cmod c < 2 * top layers / 1000.
Proof.
  intros Hp E c. destruct (C_of_p (2 * PI / period) n layers (omega_pos _ Hp) E) as [D H].
  pose proof (p_quadrant (2 * PI / period) n layers (omega_pos _ Hp) E) as [Q1 Q2].
  pose proof (earthlike_top _ E) as T. unfold c, omega. rewrite H.
  set (p := p_of _ n layers) in *. clearbody p. destruct p as [x y]. cbn [fst snd] in *.
  set (t := top layers / 1000). assert (Ht : 0 < t) by (unfold t; lra).
  assert (N2 : 0 < (x + 1 / 2) ^ 2 + (y + 0) ^ 2).
  { assert (0 <= (y + 0) ^ 2) by apply pow2_ge_0. assert (0 < (x + 1 / 2) ^ 2) by (apply pow_lt; lra). lra. }
  assert (F : Cdiv (RtoC t) (Cplus (x, y) (RtoC (1 / 2))) = (t * (x + 1 / 2) / ((x + 1 / 2) ^ 2 + (y + 0) ^ 2), - (t * y) / ((x + 1 / 2) ^ 2 + (y + 0) ^ 2))).
  { unfold Cdiv, Cinv, Cmult, Cplus, RtoC. cbn [fst snd]. f_equal; field; lra. }
  split; [rewrite F; cbn [fst]; apply Rdiv_lt_0_compat; [nra | exact N2]|].
  split.
  { rewrite F. cbn [snd]. assert (0 <= t * y) by nra.
    apply (Rmult_le_reg_r ((x + 1 / 2) ^ 2 + (y + 0) ^ 2)); [exact N2|].
    unfold Rdiv. rewrite Rmult_assoc, Rinv_l by lra. lra. }
  rewrite Cmod_div by exact D. rewrite Cmod_R, Rabs_pos_eq by lra.
  assert (M : 1 / 2 < Cmod (Cplus (x, y) (RtoC (1 / 2)))).
  { pose proof (Cmod_re_le (Cplus (x, y) (RtoC (1 / 2)))) as B. unfold Cplus at 1, RtoC at 1 in B. cbn [fst] in B.
    rewrite Rabs_pos_eq in B by lra. lra. }
  replace (2 * top layers / 1000) with (t / (1 / 2)) by (unfold t; field).
  apply Rmult_lt_compat_l; [lra|]. apply Rinv_lt_contravar; [|exact M]. apply Rmult_lt_0_compat; lra.
Qed.

(** ** Layers with the same product sigma * r^2 are one layer *)

(** p of a stack with a new top layer, as a function of p below *)
Lemma p_step w n s r s1 r1 l : 0 < w -> 0 <= s -> r1 < r -> earthlike ((s1, r1) :: l) ->
  p_of (0, w) n ((s, r) :: (s1, r1) :: l) =
  step_p (b_of (0, w) n s r) (tau_of (Rcpow (r / r1) (Cmult (RtoC 2) (b_of (0, w) n s r)))) (p_of (0, w) n ((s1, r1) :: l)) /\
  Cminus (b_of (0, w) n s r) (Cmult (tau_of (Rcpow (r / r1) (Cmult (RtoC 2) (b_of (0, w) n s r)))) (p_of (0, w) n ((s1, r1) :: l))) <> RtoC 0.
Proof.
  intros Hw Hs Hr E. pose proof (earthlike_top _ E) as H1. cbn in H1.
  assert (Hx : 1 < r / r1) by (apply (Rmult_lt_reg_r r1); [assumption|]; unfold Rdiv; rewrite Rmult_assoc, Rinv_l by lra; lra).
  pose proof (p_quadrant w n _ Hw E) as Q.
  destruct (layer_step (r / r1) (b_of (0, w) n s r) _ Hx (b_sector w n s r (Rlt_le _ _ Hw) Hs) Q) as [D _].
  split; [apply p_layer; [apply q_ne; lra | exact D] | exact D].
Qed.

Lemma step_compose b z1 z2 p : b <> RtoC 0 -> Cplus (RtoC 1) z1 <> RtoC 0 -> Cplus (RtoC 1) z2 <> RtoC 0 ->
  Cplus (RtoC 1) (Cmult z1 z2) <> RtoC 0 ->
  Cminus b (Cmult (tau_of z2) p) <> RtoC 0 ->
  Cminus b (Cmult (tau_of z1) (step_p b (tau_of z2) p)) <> RtoC 0 ->
  Cminus b (Cmult (tau_of (Cmult z1 z2)) p) <> RtoC 0 ->
  step_p b (tau_of z1) (step_p b (tau_of z2) p) = step_p b (tau_of (Cmult z1 z2)) p.
Proof.
  intros Hb H1 H2 H12 D2 D1 D12.
  set (u2 := Cplus b p). set (v2 := Cminus b p).
  (* b - tau p = (b (1 + z) + p (z - 1)) / (1 + z) = ((b + p) z + (b - p)) / (1 + z) *)
  assert (F : forall z q, Cplus (RtoC 1) z <> RtoC 0 ->
     Cminus b (Cmult (tau_of z) q) = Cdiv (Cplus (Cmult (Cplus b q) z) (Cminus b q)) (Cplus (RtoC 1) z) /\
     Cminus q (Cmult b (tau_of z)) = Cdiv (Cminus (Cmult (Cplus b q) z) (Cminus b q)) (Cplus (RtoC 1) z)).
  { intros z q Hz. unfold tau_of. split; field; assumption. }
  assert (S : forall z q, Cplus (RtoC 1) z <> RtoC 0 -> Cminus b (Cmult (tau_of z) q) <> RtoC 0 ->
     Cplus (Cmult (Cplus b q) z) (Cminus b q) <> RtoC 0 /\
     step_p b (tau_of z) q = Cdiv (Cmult b (Cminus (Cmult (Cplus b q) z) (Cminus b q))) (Cplus (Cmult (Cplus b q) z) (Cminus b q))).
  { intros z q Hz Dz. destruct (F z q Hz) as [F1 F2].
    assert (N : Cplus (Cmult (Cplus b q) z) (Cminus b q) <> RtoC 0).
    { intros X. apply Dz. rewrite F1, X. field. exact Hz. }
    split; [exact N|]. unfold step_p. rewrite F1, F2. field. split; assumption. }
  destruct (S z2 p H2 D2) as [N2 S2]. destruct (S _ _ H1 D1) as [N1 S1]. destruct (S _ _ H12 D12) as [N12 S12].
  rewrite S1, S12. rewrite S2 in *. clear S S1 S2 S12 F D1 D2 D12.
  set (A := Cmult (Cplus b p) z2) in *. set (B := Cminus b p) in *.
  assert (P1 : Cplus b (Cdiv (Cmult b (Cminus A B)) (Cplus A B)) = Cdiv (Cmult (Cmult (RtoC 2) b) A) (Cplus A B)).
  { replace (RtoC 2) with (Cplus (RtoC 1) (RtoC 1)) by (unfold RtoC, Cplus; cbn [fst snd]; f_equal; ring). field. exact N2. }
  assert (P2 : Cminus b (Cdiv (Cmult b (Cminus A B)) (Cplus A B)) = Cdiv (Cmult (Cmult (RtoC 2) b) B) (Cplus A B)).
  { replace (RtoC 2) with (Cplus (RtoC 1) (RtoC 1)) by (unfold RtoC, Cplus; cbn [fst snd]; f_equal; ring). field. exact N2. }
  rewrite P1, P2 in *.
  replace (Cmult (Cplus b p) (Cmult z1 z2)) with (Cmult A z1) in * by (unfold A; ring).
  assert (T2 : RtoC 2 <> RtoC 0) by (intros E; injection E; lra).
  clearbody A B. field. repeat split; try assumption.
  match goal with |- ?g <> _ => replace g with (Cmult (Cmult (RtoC 2) b) (Cplus (Cmult A z1) B)) by ring end.
  repeat apply Cmult_neq_0; assumption.
Qed.

(** A layer is split at radius r' without changing the conductivity profile *)
Lemma split_layer w n s r s' r' below : 0 < w -> 0 <= s -> 0 < r' -> r' < r -> s' * r' ^ 2 = s * r ^ 2 ->
  (below <> [] -> earthlike below /\ top below < r') ->
  p_of (0, w) n ((s, r) :: (s', r') :: below) = p_of (0, w) n ((s, r) :: below).
Proof.
  intros Hw Hs Hr' Hr Es Hb.
  assert (Hs' : 0 <= s').
  { assert (0 <= s' * r' ^ 2) by (rewrite Es; apply Rmult_le_pos; [assumption | apply pow2_ge_0]).
    assert (0 < r' ^ 2) by (apply pow_lt; assumption). nra. }
  pose proof (b_same (0, w) n s' r' s r Es) as Eb.
  pose proof (b_sector w n s r (Rlt_le _ _ Hw) Hs) as (B1 & B2 & B3).
  set (b := b_of (0, w) n s r) in *.
  assert (Bn : b <> RtoC 0) by (intros X; rewrite X in B1; cbn in B1; lra).
  destruct below as [|[s1 r1] l].
  - destruct (p_step w n s r s' r' [] Hw Hs Hr) as [P D]; [cbn; auto|]. fold b in P, D.
    rewrite P. rewrite p_core in * by (apply q_ne; lra). rewrite p_core in * by (apply q_ne; lra).
    rewrite Eb in *. fold b. set (tau := tau_of _) in *. clearbody tau. unfold step_p.
    assert (G : Cminus b (Cmult b tau) = Cminus b (Cmult tau b)) by ring. rewrite G. field. exact D.
  - destruct Hb as [E Ht]; [discriminate|]. cbn in Ht.
    pose proof (earthlike_top _ E) as H1. cbn in H1.
    assert (E' : earthlike ((s', r') :: (s1, r1) :: l)) by (split; [exact Hs'|]; split; [exact Ht | exact E]).
    destruct (p_step w n s r s' r' _ Hw Hs Hr E') as [P D].
    destruct (p_step w n s' r' s1 r1 l Hw Hs' Ht E) as [P' D'].
    destruct (p_step w n s r s1 r1 l Hw Hs (Rlt_trans _ _ _ Ht Hr) E) as [P'' D''].
    fold b in P, D, P'', D''. rewrite Eb in P', D'.
    rewrite P, P''. rewrite P' in *. 
    assert (X1 : 1 < r / r') by (apply (Rmult_lt_reg_r r'); [assumption|]; unfold Rdiv; rewrite Rmult_assoc, Rinv_l by lra; lra).
    assert (X2 : 1 < r' / r1) by (apply (Rmult_lt_reg_r r1); [assumption|]; unfold Rdiv; rewrite Rmult_assoc, Rinv_l by lra; lra).
    assert (Er : r / r1 = r / r' * (r' / r1)) by (field; lra).
    rewrite Er, Rcpow_mult in * by lra.
    apply step_compose; try assumption.
    + exact (proj2 (zeta_ne _ b X1 B1)).
    + exact (proj2 (zeta_ne _ b X2 B1)).
    + rewrite <- Rcpow_mult by lra. refine (proj2 (zeta_ne _ b _ B1)).
      assert (1 * 1 < r / r' * (r' / r1)) by (apply Rmult_le_0_lt_compat; lra). lra.
Qed.

(** ... also deeper in the model *)
Lemma p_context w n L X X' : 0 < w -> X <> [] -> X' <> [] -> top X = top X' ->
  p_of (0, w) n X = p_of (0, w) n X' -> earthlike (L ++ X) -> earthlike (L ++ X') ->
  p_of (0, w) n (L ++ X) = p_of (0, w) n (L ++ X').
Proof.
  intros Hw N N' T P. induction L as [|[s r] L IH]; [auto|]. intros E E'.
  assert (G : forall l, earthlike ((s, r) :: l) -> l <> [] -> exists s1 r1 k, l = (s1, r1) :: k /\ 0 <= s /\ r1 < r /\ earthlike l).
  { intros l El Nl. destruct l as [|[s1 r1] k]; [contradiction|]. exists s1, r1, k. destruct El as (A & B & D). auto. }
  assert (NX : L ++ X <> []) by (destruct L; [exact N | discriminate]).
  assert (NX' : L ++ X' <> []) by (destruct L; [exact N' | discriminate]).
  destruct (G (L ++ X) E NX) as (s1 & r1 & k & Ek & Hs & Hr & El). destruct (G (L ++ X') E' NX') as (s1' & r1' & k' & Ek' & _ & Hr' & El').
  specialize (IH El El').
  assert (Rr : r1 = r1').
  { destruct L as [|[a c] L].
    - cbn in Ek, Ek'. subst X X'. exact T.
    - cbn in Ek, Ek'. congruence. }
  subst r1'. change (p_of (0, w) n ((s, r) :: (L ++ X)) = p_of (0, w) n ((s, r) :: (L ++ X'))). rewrite Ek in IH, El |- *. rewrite Ek' in IH, El' |- *.
  destruct (p_step w n s r s1 r1 k Hw Hs Hr El) as [P1 _]. destruct (p_step w n s r s1' r1 k' Hw Hs Hr El') as [P2 _].
  rewrite P1, P2, IH. reflexivity.
Qed.

(** Nothing conducts *)
Lemma insulator w n layers : 0 < w -> earthlike layers -> (forall sr, In sr layers -> fst sr = 0) ->
  p_of (0, w) n layers = RtoC (INR n + 1 / 2).
Proof.
  intros Hw. pose proof (pos_INR n) as Hn.
  assert (B : forall r, b_of (0, w) n 0 r = RtoC (INR n + 1 / 2)).
  { intros r. unfold b_of, Csqrt. rewrite Rmult_0_l.
    replace (Cminus (RtoC ((INR n + 1 / 2) ^ 2)) (Cmult (q_of (0, w) r) (RtoC 0))) with (RtoC ((INR n + 1 / 2) ^ 2)) by ring.
    rewrite Cmod_R, Rabs_pos_eq by (apply pow2_ge_0). unfold RtoC. cbn [fst snd].
    destruct (Rlt_dec 0 0); [lra|]. f_equal.
    - replace (((INR n + 1 / 2) ^ 2 + (INR n + 1 / 2) ^ 2) / 2) with ((INR n + 1 / 2) * (INR n + 1 / 2)) by field.
      apply sqrt_square. lra.
    - replace (((INR n + 1 / 2) ^ 2 - (INR n + 1 / 2) ^ 2) / 2) with 0 by field. rewrite sqrt_0. ring. }
  induction layers as [|[s r] l IH]; [contradiction|]. intros E H.
  pose proof (H (s, r) (or_introl eq_refl)) as Hs. cbn in Hs. subst s.
  destruct l as [|[s1 r1] l].
  - cbn in E. rewrite p_core by (apply q_ne; tauto). apply B.
  - pose proof E as (Hs & Hr & E2). destruct (p_step w n 0 r s1 r1 l Hw Hs Hr E2) as [P D].
    rewrite P. rewrite IH in * by (auto; intros; apply H; right; assumption). rewrite B in *.
    set (tau := tau_of _) in *. clearbody tau. set (b := RtoC (INR n + 1 / 2)) in *. clearbody b. unfold step_p.
    assert (G : Cminus b (Cmult b tau) = Cminus b (Cmult tau b)) by ring. rewrite G. field. exact D.
Qed.
