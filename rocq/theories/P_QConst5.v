(** The closed form computed by the code for large arguments *)
From Coq Require Import Reals List Lia Lra Psatz.
From Coquelicot Require Import Coquelicot.
From Verif Require Import M_Rotate M_QConst Spec_Induction Spec_InductionC P_Response P_Response2 P_Induction P_QConst1 P_QConst2 P_QConst3 P_QConst4.
Import ListNotations.
Open Scope R_scope.

Section sums.
Variables (n : nat) (z : C).
Hypothesis Hz : z <> RtoC 0.
Definition Ps (f : nat -> R) (m : nat) : C := csum (fun j => Cmult (RtoC (f j)) (cpow (Cinv z) j)) (S m).

Lemma sums_state m : (m <= n)%nat ->
  fold_left (big_step n (Cmult (RtoC 2) z)) (seq 1 m) (mkbig (RtoC 1) (RtoC 1) (RtoC 1) (RtoC 1) (RtoC 1) (RtoC 1)) =
  mkbig (Ps (af n (-1)) m) (Ps (af n 1) m) (Ps (fun j => INR (S j) * af n (-1) j) m) (Ps (fun j => INR (S j) * af n 1 j) m)
        (Cmult (RtoC (cf n m)) (cpow (Cinv z) m)) (RtoC ((-1) ^ m)).
Proof.
  induction m; intros Hm.
  - cbn [seq fold_left]. unfold Ps, af. cbn [csum pow cf cpow INR]. rewrite !Rmult_1_l. f_equal; ring.
  - replace (seq 1 (S m)) with (seq 1 m ++ [S m]) by (rewrite seq_S; f_equal).
    rewrite fold_left_app, IHm by lia. cbn [fold_left]. unfold big_step. cbn [g_rm g_rp g_rmd g_rpd g_d g_sg].
    pose proof (pos_INR m) as Pm.
    assert (Nm : Cplus (RtoC (INR m)) (RtoC 1) <> RtoC 0) by (rewrite <- RC_plus; apply RtoC_neq; lra).
    assert (N2 : RtoC 2 <> RtoC 0) by (apply RtoC_neq; lra).
    set (d' := Cdiv _ (Cmult (RtoC 2) z)).
    assert (Ed : d' = Cmult (RtoC (cf n (S m))) (cpow (Cinv z) (S m))).
    { unfold d'. cbn [cf cpow]. unfold lam. rewrite plus_INR, !S_INR. 
      replace (INR n + 1 - (INR m + 1)) with (INR n - INR m) by ring.
      rewrite RC_div by lra. repeat first [rewrite RC_mult | rewrite RC_minus | rewrite RC_plus]. field. repeat split; assumption. }
    rewrite Ed. unfold Ps at 5 6 7 8. cbn [csum]. fold (Ps (af n (-1)) m). fold (Ps (af n 1) m).
    change (Cplus (csum (fun j => Cmult (RtoC (af n (-1) j)) (cpow (Cinv z) j)) m) (Cmult (RtoC (af n (-1) m)) (cpow (Cinv z) m))) with (Ps (af n (-1)) m).
    change (Cplus (csum (fun j => Cmult (RtoC (af n 1 j)) (cpow (Cinv z) j)) m) (Cmult (RtoC (af n 1 m)) (cpow (Cinv z) m))) with (Ps (af n 1) m).
    change (Cplus (csum (fun j => Cmult (RtoC (INR (S j) * af n (-1) j)) (cpow (Cinv z) j)) m) (Cmult (RtoC (INR (S m) * af n (-1) m)) (cpow (Cinv z) m)))
      with (Ps (fun j => INR (S j) * af n (-1) j) m).
    change (Cplus (csum (fun j => Cmult (RtoC (INR (S j) * af n 1 j)) (cpow (Cinv z) j)) m) (Cmult (RtoC (INR (S m) * af n 1 m)) (cpow (Cinv z) m)))
      with (Ps (fun j => INR (S j) * af n 1 j) m).
    assert (Es : Copp (RtoC ((-1) ^ m)) = RtoC ((-1) ^ S m)) by (rewrite <- RC_opp; f_equal; cbn [pow]; ring).
    rewrite Es. assert (A1 : af n 1 (S m) = cf n (S m)) by (unfold af; rewrite pow1; ring).
    rewrite A1. unfold af. replace (S m + 1)%nat with (S (S m)) by lia. set (c1 := cf n (S m)).
    set (c2 := INR (S (S m))).
    f_equal; rewrite ?RC_mult; ring.
Qed.
End sums.

(** The functions computed by the code, with the exponentials split off *)
Lemma big_values n k x : 0 < fst k -> 0 < x ->
  let s := big n (Cmult k (RtoC x)) in
  b_p s = Cmult (cexp (Copp (Cmult k (RtoC x)))) (Pk n k x) /\
  Cmult k (b_pd s) = Cmult (cexp (Copp (Cmult k (RtoC x)))) (dPk n k x) /\
  b_q s = Cmult (cexp (Cmult k (RtoC x))) (Kk n k x) /\
  Cmult k (b_qd s) = Cmult (cexp (Cmult k (RtoC x))) (dKk n k x).
Proof.
  intros Hk Hx. cbv zeta. assert (Nk := k_ne k Hk). assert (NX : RtoC x <> RtoC 0) by (apply RtoC_neq; lra).
  set (z := Cmult k (RtoC x)). assert (Nz : z <> RtoC 0) by (apply Cmult_neq_0; assumption).
  unfold big, big_sums. cbv zeta. rewrite (sums_state n z Nz n (Nat.le_refl n)). cbn [g_rm g_rp g_rmd g_rpd g_sg b_p b_q b_pd b_qd].
  assert (EZ : Zk k x = Cinv z).
  { unfold Zk, z. rewrite RC_inv by lra. field. split; assumption. }
  assert (E0 : forall tau, S0 n tau k x = Cmult (Cinv z) (Ps z (af n tau) n)).
  { intros tau. unfold S0, Ps. rewrite <- csum_scal. apply csum_ext. intros. rewrite EZ. cbn [cpow]. ring. }
  assert (E1 : forall tau, S1 n tau k x = Cmult (Cmult (Cinv z) (Cinv z)) (Ps z (fun j => INR (S j) * af n tau j) n)).
  { intros tau. unfold S1, Ps. rewrite <- csum_scal. apply csum_ext. intros. rewrite EZ. cbn [cpow]. ring. }
  set (rm := Ps z (af n (-1)) n) in *. set (rp := Ps z (af n 1) n) in *.
  set (rmd := Ps z (fun j => INR (S j) * af n (-1) j) n) in *. set (rpd := Ps z (fun j => INR (S j) * af n 1 j) n) in *.
  assert (Ep : Ek 1 k x = cexp (Copp z)).
  { unfold Ek, z. f_equal. rewrite RC_opp. ring. }
  assert (Em : Ek (-1) k x = cexp z).
  { unfold Ek, z. f_equal. rewrite RC_opp, RC_m1. ring. }
  assert (EE := cexp_opp z).
  assert (E2 : cexp (Cmult (RtoC (-2)) z) = Cmult (cexp (Copp z)) (cexp (Copp z))).
  { rewrite <- cexp_plus. f_equal. rewrite RC_m2, two_c. ring. }
  unfold Pk, dPk, Kk, dKk, Fm, dFm, Fp, dFp, F, dF, half, sg. rewrite !E0, !E1, Ep, Em, E2.
  set (ep := cexp z) in *. set (em := cexp (Copp z)) in *.
  fold rm. fold rp. fold rmd. fold rpd.
  assert (N2 : RtoC 2 <> RtoC 0) by (apply RtoC_neq; lra).
  replace (RtoC (- (-1) ^ n / 2)) with (Copp (Cdiv (RtoC ((-1) ^ n)) (RtoC 2))) by (rewrite <- RC_div by lra; rewrite <- RC_opp; f_equal; field).
  rewrite RC_inv, RC_div, RC_mult by lra. cbn [cpow].
  assert (Ne : em <> RtoC 0) by apply cexp_neq.
  assert (Ee : ep = Cinv em).
  { transitivity (Cmult (Cmult ep em) (Cinv em)); [field; exact Ne|]. rewrite EE. ring. }
  rewrite Ee. rewrite RC_m1. repeat split.
  - field. repeat split; assumption.
  - field. repeat split; assumption.
  - field. repeat split; assumption.
  - field. repeat split; assumption.
Qed.

Lemma big_good w mu0 n s k r r1 : 0 < fst k -> Cmult k k = (0, w * mu0 * s) -> 0 < r -> 0 < r1 ->
  good w mu0 n s k r r1
    (ratios_of (big n (Cmult k (RtoC r))) (big n (Cmult k (RtoC r1)))
               (cexp (Copp (Cminus (Cmult k (RtoC r)) (Cmult k (RtoC r1)))))).
Proof.
  intros Hk Hk2 Hr Hr1.
  exists (Pk n k), (dPk n k), (ddPk n k), (Kk n k), (dKk n k), (ddKk n k).
  split; [intros; apply Pk_solves; assumption|]. split; [intros; apply Kk_solves; assumption|].
  split; [intros x Hx; apply (PK_wron n k Hk w mu0 s Hk2 x Hx)|].
  assert (NP := Pk_ne n k Hk w mu0 s Hk2 r Hr). assert (NK := Kk_ne n k Hk w mu0 s Hk2 r1 Hr1).
  split; [exact NP|]. split; [exact NK|].
  destruct (big_values n k r Hk Hr) as (A1 & A2 & A3 & A4). destruct (big_values n k r1 Hk Hr1) as (B1 & B2 & B3 & B4).
  assert (Nk := k_ne k Hk). unfold ratios_of. cbn [v1 v2 v3 v4 v5 v6].
  set (z0 := Cmult k (RtoC r)) in *. set (z1 := Cmult k (RtoC r1)) in *.
  set (s0 := big n z0) in *. set (s1 := big n z1) in *.
  replace (Copp (Cminus z0 z1)) with (Cplus (Copp z0) z1) by ring. rewrite cexp_plus.
  assert (I0 : cexp z0 = Cinv (cexp (Copp z0))).
  { transitivity (Cmult (Cmult (cexp z0) (cexp (Copp z0))) (Cinv (cexp (Copp z0)))); [field; apply cexp_neq|]. rewrite cexp_opp. ring. }
  assert (I1 : cexp z1 = Cinv (cexp (Copp z1))).
  { transitivity (Cmult (Cmult (cexp z1) (cexp (Copp z1))) (Cinv (cexp (Copp z1)))); [field; apply cexp_neq|]. rewrite cexp_opp. ring. }
  assert (J0 := cexp_neq (Copp z0)). assert (J1 := cexp_neq (Copp z1)).
  set (e0 := cexp (Copp z0)) in *. set (e1 := cexp (Copp z1)) in *. rewrite I0 in A3, A4. rewrite I1 in B3, B4 |- *.
  assert (A2' : b_pd s0 = Cdiv (Cmult e0 (dPk n k r)) k) by (rewrite <- A2; field; exact Nk).
  assert (A4' : b_qd s0 = Cdiv (Cmult (Cinv e0) (dKk n k r)) k) by (rewrite <- A4; field; exact Nk).
  assert (B2' : b_pd s1 = Cdiv (Cmult e1 (dPk n k r1)) k) by (rewrite <- B2; field; exact Nk).
  assert (B4' : b_qd s1 = Cdiv (Cmult (Cinv e1) (dKk n k r1)) k) by (rewrite <- B4; field; exact Nk).
  rewrite A1, A2', A3, A4', B1, B2', B3, B4'.
  repeat split; field; repeat split; assumption.
Qed.

(** The wave number *)
Lemma k_square period s : 0 < period -> Cmult (k_of period s) (k_of period s) = (0, 2 * PI / period * mu * s).
Proof. intros H. unfold k_of. rewrite Csqrt_sqr. f_equal. unfold mu. field. lra. Qed.
Lemma k_pos period s : 0 < period -> 0 < s -> 0 < fst (k_of period s).
Proof.
  intros H Hs. unfold k_of, Csqrt. cbn [fst snd]. apply sqrt_lt_R0. 
  assert (0 < 8 * / 10 ^ 7 * PI ^ 2 * s / period).
  { apply Rdiv_lt_0_compat; [|exact H]. apply Rmult_lt_0_compat; [|exact Hs]. apply Rmult_lt_0_compat; [|apply pow_lt, PI_RGT_0].
    apply Rmult_lt_0_compat; [lra|]. apply Rinv_0_lt_compat, pow_lt. lra. }
  set (q := 8 * / 10 ^ 7 * PI ^ 2 * s / period) in *. 
  pose proof (Cmod_im_le (0, q)) as M. cbn [snd] in M. rewrite Rabs_pos_eq in M by lra. lra.
Qed.
Lemma k_mod period s : 0 < period -> 0 < s -> Cmod (k_of period s) = sqrt (2 * PI / period * mu * s).
Proof.
  intros H Hs. assert (0 <= 2 * PI / period * mu * s).
  { pose proof (omega_pos period H). pose proof mu_pos. apply Rmult_le_pos; [apply Rmult_le_pos|]; lra. }
  rewrite <- (sqrt_Rsqr (Cmod (k_of period s))) by apply Cmod_ge_0. f_equal. unfold Rsqr. rewrite <- Cmod_mult, k_square by exact H.
  unfold Cmod. cbn [fst snd]. replace (0 ^ 2 + (2 * PI / period * mu * s) ^ 2) with (Rsqr (2 * PI / period * mu * s)) by (unfold Rsqr; ring).
  apply sqrt_Rsqr. assumption.
Qed.

Notation thick period := (deep (2 * PI / period) mu) (only parsing).

Lemma big_layer fuel n e period s r r1 : 0 < period -> 0 < s -> 0 < r1 -> r1 < r ->
  3 <= sqrt (2 * PI / period * mu * s) * (1000 * r) ->
  exists v, layer_ratios fuel n e (k_of period s) r r1 = Some v /\ good (2 * PI / period) mu n s (k_of period s) (1000 * r) (1000 * r1) v.
Proof.
  intros Hp Hs H1 Hr Ht. unfold layer_ratios, is_small.
  assert (Small : ~ Cmod (Cmult (k_of period s) (RtoC (r * 1000))) < zlimit).
  { rewrite Cmod_mult, Cmod_R, Rabs_pos_eq, k_mod by (try assumption; lra). unfold zlimit. replace (r * 1000) with (1000 * r) by ring. lra. }
  destruct (Rlt_dec _ _) as [C|_]; [contradiction|]. eexists. split; [reflexivity|].
  replace (r * 1000) with (1000 * r) by ring. replace (r1 * 1000) with (1000 * r1) by ring.
  apply big_good; [apply k_pos; assumption | apply k_square; exact Hp | lra | lra].
Qed.

Lemma thick_ratio fuel n e period L : 0 < period -> conducting L -> thick period L ->
  exists b, b_layers fuel n e period L = Some b /\ ratio_of (2 * PI / period) mu n (metres L) b.
Proof.
  intros Hp. induction L as [|[s r] L IH]; [contradiction|]. destruct L as [|[s1 r1] L]; [contradiction|].
  intros (Hs & H1 & Hr & Hc) (Ht & Hb).
  destruct (big_layer fuel n e period s r r1 Hp Hs H1 Hr Ht) as (v & Ev & Hg).
  cbn [b_layers]. rewrite Ev. destruct L as [|y L].
  - exists (b_first (k_of period s) v). split; [reflexivity|].
    apply (core_step (2 * PI / period) mu n s (k_of period s) (1000 * r) (1000 * r1) v Hg); lra.
  - destruct (IH Hc Hb) as (b & Eb & Rb).
    match goal with |- context [match ?m with Some _ => _ | None => _ end] => change m with (b_layers fuel n e period ((s1, r1) :: y :: L)) end.
    rewrite Eb. exists (b_next (k_of period s) v b). split; [reflexivity|].
    apply (layer_step_const (2 * PI / period) mu n s (k_of period s) (1000 * r) (1000 * r1) v Hg); [lra | lra | discriminate | exact Rb].
Qed.

Lemma thick_response fuel n e period L : 0 < period -> (1 <= n)%nat -> conducting L -> thick period L ->
  exists c rho Q, response_const fuel n e period L = Some (c, rho, Q) /\
  let a := 1000 * snd (nth 0 L (0, 0)) in
  (forall e, exists v dv, field_const (2 * PI / period) mu n (metres L) v dv /\ matches a n e (Cmult Q e) v dv) /\
  (forall e i v dv, field_const (2 * PI / period) mu n (metres L) v dv -> matches a n e i v dv -> i = Cmult Q e).
Proof.
  intros Hp Hn Hc Ht. destruct (thick_ratio fuel n e period L Hp Hc Ht) as (b & Eb & Rb).
  assert (0 < snd (nth 0 L (0, 0))) as Hr.
  { destruct L as [|[s r] [|[s1 r1] L]]; [contradiction | contradiction |]. cbn in Hc |- *. lra. }
  unfold response_const. rewrite Eb. do 3 eexists. split; [reflexivity|]. cbv zeta. apply response_of_ratio; assumption.
Qed.
