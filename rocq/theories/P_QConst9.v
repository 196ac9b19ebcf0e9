(** The response for shells of any thickness, as the tolerance of the power
    series goes to zero *)
From Coq Require Import Reals List Bool Lia Lra Psatz.
From Coquelicot Require Import Coquelicot.
From Verif Require Import M_Prelude M_Rotate M_QConst Spec_Induction Spec_InductionC P_Response P_Response2 P_Induction P_QConst1 P_QConst2 P_QConst3 P_QConst4 P_QConst5 P_QConst6 P_QConst7 P_QConst8.
Import ListNotations.
Open Scope R_scope.

(** ** The exact functions behind the series *)
Section exact.
Variables (n : nat) (k : C) (kap w mu0 s : R).
Hypothesis Hn : (1 <= n)%nat.
Hypothesis Hkap : 0 < kap.
Hypothesis Hk : Cmult k k = (0, kap).
Hypothesis Hw : w * mu0 * s = kap.
Lemma nz_k : k <> RtoC 0.
Proof. intros E. rewrite E in Hk. apply (f_equal snd) in Hk. unfold Cmult, RtoC in Hk. cbn [fst snd] in Hk. lra. Qed.
Definition Ac : C := Cdiv (cpow k n) (RtoC (fac1 n)).
Definition Bc : C := Cmult (Cinv (cpow k (n + 1))) (RtoC (fac2 n)).
Definition Cc : C := RtoC (sgn (n + 1) * PI / 2).
Definition Px (x : R) : C := Cmult Ac (up n kap x).
Definition dPx (x : R) : C := Cmult Ac (dup n kap x).
Definition ddPx (x : R) : C := Cmult Ac (ddup n kap x).
Definition Kx (x : R) : C := Cplus (Cmult (Cmult Cc Ac) (up n kap x)) (Cmult (Copp (Cmult Cc Bc)) (uq n kap x)).
Definition dKx (x : R) : C := Cplus (Cmult (Cmult Cc Ac) (dup n kap x)) (Cmult (Copp (Cmult Cc Bc)) (duq n kap x)).
Definition ddKx (x : R) : C := Cplus (Cmult (Cmult Cc Ac) (ddup n kap x)) (Cmult (Copp (Cmult Cc Bc)) (dduq n kap x)).

Lemma fac1_ne : fac1 n <> 0.
Proof. unfold fac1. apply INR_fact_neq_0. Qed.
Lemma sgn_ne m : sgn m <> 0.
Proof. unfold sgn. apply pow_nonzero. lra. Qed.
Lemma fac2_ne : fac2 n <> 0.
Proof.
  unfold fac2. apply Rmult_integral_contrapositive_currified; [apply Rmult_integral_contrapositive_currified; [apply sgn_ne | apply fac1_ne]|].
  apply Rinv_neq_0_compat. apply not_0_INR. lia.
Qed.
Lemma Ac_ne : Ac <> RtoC 0.
Proof. unfold Ac, Cdiv. apply Cmult_neq_0; [apply cpow_neq, nz_k | apply Cinv_ne, RtoC_neq, fac1_ne]. Qed.
Lemma Bc_ne : Bc <> RtoC 0.
Proof. unfold Bc. apply Cmult_neq_0; [apply Cinv_ne, cpow_neq, nz_k | apply RtoC_neq, fac2_ne]. Qed.
Lemma Cc_ne : Cc <> RtoC 0.
Proof. unfold Cc. apply RtoC_neq. pose proof PI_RGT_0. pose proof (sgn_ne (n + 1)). unfold Rdiv. apply Rmult_integral_contrapositive_currified; [apply Rmult_integral_contrapositive_currified; lra | lra]. Qed.

Lemma Px_solves x : 0 < x -> solves w mu0 n s Px dPx ddPx x.
Proof.
  intros Hx. destruct (up_solves n kap w mu0 s Hkap Hw x Hx) as (D1 & D2 & E). split; [apply Cder_scal; exact D1|]. split; [apply Cder_scal; exact D2|].
  unfold Px, dPx, ddPx. transitivity (Cmult Ac (Cplus (Cmult (RtoC (x ^ 2)) (ddup n kap x)) (Cmult (RtoC (2 * x)) (dup n kap x)))); [ring|]. rewrite E. ring.
Qed.
Lemma Kx_solves x : 0 < x -> solves w mu0 n s Kx dKx ddKx x.
Proof. intros Hx. apply (solves_comb w mu0 n s (up n kap) (dup n kap) (ddup n kap) (uq n kap) (duq n kap) (dduq n kap)); [apply up_solves | apply uq_solves]; assumption. Qed.
Lemma PKx_wron x : 0 < x -> wron Px dPx Kx dKx x <> RtoC 0.
Proof.
  intros Hx. replace (wron Px dPx Kx dKx x) with (Cmult (Cmult (Copp (Cmult Cc Bc)) Ac) (wron (up n kap) (dup n kap) (uq n kap) (duq n kap) x)) by (unfold wron, Px, dPx, Kx, dKx; ring).
  apply Cmult_neq_0; [|apply (wron_pq_ne n kap w mu0 s Hkap Hw x Hx)].
  apply Cmult_neq_0; [|apply Ac_ne]. intros E. apply (Cmult_neq_0 Cc Bc Cc_ne Bc_ne). transitivity (Copp (Copp (Cmult Cc Bc))); [ring | rewrite E; ring].
Qed.
Lemma Px_ne x : 0 < x -> Px x <> RtoC 0.
Proof. intros Hx. apply Cmult_neq_0; [apply Ac_ne | apply (up_ne n kap w mu0 s Hkap Hw x Hx)]. Qed.

(** ** The code computes them in the limit *)
Section limit.
Variable x : R.
Hypothesis Hx : 0 < x.
Let z := Cmult k (RtoC x).
Let zz := Cdiv (cpow z 2) (RtoC 2).
Lemma zz_eq : zz = (0, kap / 2 * x ^ 2).
Proof.
  unfold zz, z. cbn [cpow]. transitivity (Cmult (Cmult k k) (Cdiv (Cmult (RtoC x) (RtoC x)) (RtoC 2))); [field; apply RtoC_neq; lra|].
  rewrite Hk. rewrite <- RC_mult, <- RC_div by lra. unfold Cmult, RtoC. cbn [fst snd]. f_equal; field.
Qed.
Lemma zz_ne : zz <> RtoC 0.
Proof.
  rewrite zz_eq. intros E. apply (f_equal snd) in E. cbn [snd RtoC] in E.
  assert (0 < kap / 2 * x ^ 2) by (apply Rmult_lt_0_compat; [lra | apply pow_lt; exact Hx]). lra.
Qed.
Lemma run_p : Clim (fun e f => b_p (get (run n zz e f))) (ff kap (alp n) (x ^ 2)).
Proof. apply (run_lim n zz b_p _ zz_ne). unfold sums; cbn [b_p]. rewrite zz_eq. apply sum_tends; [exact Hkap | apply alp_ok]. Qed.
Lemma run_q : Clim (fun e f => b_q (get (run n zz e f))) (ff kap (alq n) (x ^ 2)).
Proof. apply (run_lim n zz b_q _ zz_ne). unfold sums; cbn [b_q]. rewrite zz_eq. apply sum_tends; [exact Hkap | apply alq_ok]. Qed.
Definition lin (al : R) : C := Cplus (Cmult (RtoC al) (ff kap al (x ^ 2))) (Cmult (RtoC (2 * x ^ 2)) (df kap al (x ^ 2))).
Lemma run_pd : Clim (fun e f => b_pd (get (run n zz e f))) (lin (alp n)).
Proof. apply (run_lim n zz b_pd _ zz_ne). unfold sums; cbn [b_pd]. rewrite zz_eq. apply dsum_tends; [exact Hkap | apply alp_ok]. Qed.
Lemma run_qd : Clim (fun e f => b_qd (get (run n zz e f))) (lin (alq n)).
Proof. apply (run_lim n zz b_qd _ zz_ne). unfold sums; cbn [b_qd]. rewrite zz_eq. apply dsum_tends; [exact Hkap | apply alq_ok]. Qed.

Definition final (t : bessel) : bessel :=
  let p := Cdiv (Cmult (b_p t) (cpow z n)) (RtoC (fac1 n)) in
  let q := Cmult (Cmult (b_q t) (Cinv (cpow z (n + 1)))) (RtoC (fac2 n)) in
  let q := Cmult (RtoC (sgn (n + 1) * PI / 2)) (Cminus p q) in
  let pd := Cdiv (Cmult (b_pd t) (cpow z (n - 1))) (RtoC (fac1 n)) in
  let qd := Cmult (Cmult (b_qd t) (Cinv (cpow z (n + 2)))) (RtoC (fac2 n)) in
  let qd := Cmult (RtoC (sgn (n + 1) * PI / 2)) (Cminus pd qd) in
  mkbessel p q pd qd.
Lemma small_run e f : small f n e z = match run n zz e f with None => None | Some t => Some (final t) end.
Proof. reflexivity. Qed.

Lemma xq_pow : xa (alq n) x = / x ^ (n + 1).
Proof.
  unfold xa, alq. replace (- (INR n + 1) * ln x) with (- (INR (n + 1) * ln x)) by (rewrite plus_INR; cbn [INR]; ring).
  rewrite exp_Ropp. f_equal. change (Rpower x (INR (n + 1)) = x ^ (n + 1)). apply Rpower_pow. exact Hx.
Qed.
Lemma nx : RtoC x <> RtoC 0.
Proof. apply RtoC_neq. lra. Qed.

(** the exact values in the shape of [final] *)
Definition exact : bessel := final (mkbessel (ff kap (alp n) (x ^ 2)) (ff kap (alq n) (x ^ 2)) (lin (alp n)) (lin (alq n))).
Lemma exact_p : b_p exact = Px x.
Proof.
  unfold exact, final. cbv zeta. cbn [b_p]. unfold Px, Ac, up, us, z. rewrite cpow_mul, cpow_R, xa_pow by exact Hx.
  field. apply RtoC_neq, fac1_ne.
Qed.
Lemma exact_qraw : Cmult (Cmult (ff kap (alq n) (x ^ 2)) (Cinv (cpow z (n + 1)))) (RtoC (fac2 n)) = Cmult Bc (uq n kap x).
Proof.
  unfold Bc, uq, us, z. rewrite xq_pow, cpow_mul, cpow_R, RC_inv by (apply pow_nonzero; lra).
  field. split; [apply RtoC_neq, pow_nonzero; lra | apply cpow_neq, nz_k].
Qed.
Lemma exact_q : b_q exact = Kx x.
Proof.
  assert (E := exact_p). unfold exact, final in *. cbv zeta in *. cbn [b_p b_q] in *. rewrite E, exact_qraw.
  unfold Kx, Px. fold Cc. ring.
Qed.
Lemma exact_pd : Cmult k (b_pd exact) = dPx x.
Proof.
  unfold exact, final. cbv zeta. cbn [b_pd]. unfold dPx, Ac, dup, dus, vs, z, lin. rewrite xa_pow by exact Hx.
  assert (E : cpow (Cmult k (RtoC x)) (n - 1) = Cdiv (cpow (Cmult k (RtoC x)) n) (Cmult k (RtoC x))).
  { replace n with (S (n - 1)) at 2 by lia. cbn [cpow]. field. split; [apply nx | apply nz_k]. }
  rewrite E. rewrite cpow_mul, cpow_R, RC_inv by lra. set (l := Cplus _ _). field. repeat split; first [apply nx | apply nz_k | apply RtoC_neq, fac1_ne].
Qed.
Lemma exact_qd : Cmult k (b_qd exact) = dKx x.
Proof.
  assert (E := exact_pd). unfold exact, final in *. cbv zeta in *. cbn [b_pd b_qd] in *.
  match type of E with Cmult k ?p = _ => set (pd := p) in * end.
  transitivity (Cmult Cc (Cminus (Cmult k pd) (Cmult k (Cmult (Cmult (lin (alq n)) (Cinv (cpow z (n + 2)))) (RtoC (fac2 n)))))); [unfold Cc; ring|].
  rewrite E. assert (E2 : Cmult k (Cmult (Cmult (lin (alq n)) (Cinv (cpow z (n + 2)))) (RtoC (fac2 n))) = Cmult Bc (duq n kap x)).
  { unfold Bc, duq, dus, vs, z. fold (lin (alq n)). rewrite xq_pow. rewrite !cpow_mul, !cpow_R. rewrite !RC_inv by (try apply pow_nonzero; lra).
    replace (n + 2)%nat with (S (n + 1)) by lia. cbn [cpow]. change (x ^ S (n + 1)) with (x * x ^ (n + 1)). rewrite RC_mult.
    field. repeat split; first [apply nx | apply nz_k | apply cpow_neq, nz_k | apply RtoC_neq, pow_nonzero; lra]. }
  rewrite E2. unfold dKx, dPx. ring.
Qed.

Lemma zn_ne m : cpow z m <> RtoC 0.
Proof. apply cpow_neq. unfold z. apply Cmult_neq_0; [apply nz_k | apply nx]. Qed.
Definition getb (o : option bessel) : bessel := get o.
Lemma small_some : flt (fun e f => small f n e z = Some (getb (small f n e z))).
Proof.
  generalize (run_some n zz). apply flt_imp. intros e f E. rewrite small_run. rewrite E. reflexivity.
Qed.
Lemma small_get (c : bessel -> C) l : Clim (fun e f => c (final (get (run n zz e f)))) l -> Clim (fun e f => c (getb (small f n e z))) l.
Proof.
  apply Clim_ext. generalize (run_some n zz). apply flt_imp. intros e f E. rewrite small_run, E. reflexivity.
Qed.
Lemma lim_p : Clim (fun e f => b_p (getb (small f n e z))) (b_p exact).
Proof.
  apply small_get. unfold exact, final. cbv zeta. cbn [b_p].
  apply Clim_div; [apply RtoC_neq, fac1_ne | apply Clim_mult; [apply run_p | apply Clim_const] | apply Clim_const].
Qed.
Lemma lim_pd : Clim (fun e f => b_pd (getb (small f n e z))) (b_pd exact).
Proof.
  apply small_get. unfold exact, final. cbv zeta. cbn [b_pd].
  apply Clim_div; [apply RtoC_neq, fac1_ne | apply Clim_mult; [apply run_pd | apply Clim_const] | apply Clim_const].
Qed.
Lemma lim_q : Clim (fun e f => b_q (getb (small f n e z))) (b_q exact).
Proof.
  apply small_get. unfold exact, final. cbv zeta. cbn [b_q].
  apply Clim_mult; [apply Clim_const|]. apply Clim_minus.
  - apply Clim_div; [apply RtoC_neq, fac1_ne | apply Clim_mult; [apply run_p | apply Clim_const] | apply Clim_const].
  - apply Clim_mult; [apply Clim_mult; [apply run_q | apply Clim_const] | apply Clim_const].
Qed.
Lemma lim_qd : Clim (fun e f => b_qd (getb (small f n e z))) (b_qd exact).
Proof.
  apply small_get. unfold exact, final. cbv zeta. cbn [b_qd].
  apply Clim_mult; [apply Clim_const|]. apply Clim_minus.
  - apply Clim_div; [apply RtoC_neq, fac1_ne | apply Clim_mult; [apply run_pd | apply Clim_const] | apply Clim_const].
  - apply Clim_mult; [apply Clim_mult; [apply run_qd | apply Clim_const] | apply Clim_const].
Qed.
End limit.
End exact.

(** ** One layer *)
Definition Vlim (G : R -> nat -> ratios) (v : ratios) : Prop :=
  Clim (fun e f => v1 (G e f)) (v1 v) /\ Clim (fun e f => v2 (G e f)) (v2 v) /\ Clim (fun e f => v3 (G e f)) (v3 v) /\
  Clim (fun e f => v4 (G e f)) (v4 v) /\ Clim (fun e f => v5 (G e f)) (v5 v) /\ Clim (fun e f => v6 (G e f)) (v6 v).
Lemma Vlim_ext (G H : R -> nat -> ratios) v : flt (fun e f => G e f = H e f) -> Vlim G v -> Vlim H v.
Proof.
  intros E (A1 & A2 & A3 & A4 & A5 & A6).
  split; [|split; [|split; [|split; [|split]]]].
  - apply (Clim_ext (fun e f => v1 (G e f))); [generalize E; apply flt_imp; intros e f F; rewrite F; reflexivity | exact A1].
  - apply (Clim_ext (fun e f => v2 (G e f))); [generalize E; apply flt_imp; intros e f F; rewrite F; reflexivity | exact A2].
  - apply (Clim_ext (fun e f => v3 (G e f))); [generalize E; apply flt_imp; intros e f F; rewrite F; reflexivity | exact A3].
  - apply (Clim_ext (fun e f => v4 (G e f))); [generalize E; apply flt_imp; intros e f F; rewrite F; reflexivity | exact A4].
  - apply (Clim_ext (fun e f => v5 (G e f))); [generalize E; apply flt_imp; intros e f F; rewrite F; reflexivity | exact A5].
  - apply (Clim_ext (fun e f => v6 (G e f))); [generalize E; apply flt_imp; intros e f F; rewrite F; reflexivity | exact A6].
Qed.
Lemma Vlim_ratios (F0 F1 : R -> nat -> bessel) (E0 E1 : bessel) : b_p E0 <> RtoC 0 -> b_q E1 <> RtoC 0 ->
  Clim (fun e f => b_p (F0 e f)) (b_p E0) -> Clim (fun e f => b_q (F0 e f)) (b_q E0) -> Clim (fun e f => b_pd (F0 e f)) (b_pd E0) -> Clim (fun e f => b_qd (F0 e f)) (b_qd E0) ->
  Clim (fun e f => b_p (F1 e f)) (b_p E1) -> Clim (fun e f => b_q (F1 e f)) (b_q E1) -> Clim (fun e f => b_pd (F1 e f)) (b_pd E1) -> Clim (fun e f => b_qd (F1 e f)) (b_qd E1) ->
  Vlim (fun e f => ratios_of (F0 e f) (F1 e f) (RtoC 1)) (ratios_of E0 E1 (RtoC 1)).
Proof.
  intros. unfold Vlim, ratios_of. cbn [v1 v2 v3 v4 v5 v6].
  assert (K : Clim (fun e f => RtoC 1) (RtoC 1)) by apply Clim_const.
  split; [|split; [|split; [|split; [|split]]]].
  - apply (Clim_mult (fun e f => Cdiv (b_p (F1 e f)) (b_p (F0 e f))) (fun _ _ => RtoC 1)); [apply (Clim_div (fun e f => b_p (F1 e f)) (fun e f => b_p (F0 e f))); assumption | exact K].
  - apply (Clim_div (fun e f => b_pd (F0 e f)) (fun e f => b_p (F0 e f))); assumption.
  - apply (Clim_mult (fun e f => Cdiv (b_pd (F1 e f)) (b_p (F0 e f))) (fun _ _ => RtoC 1)); [apply (Clim_div (fun e f => b_pd (F1 e f)) (fun e f => b_p (F0 e f))); assumption | exact K].
  - apply (Clim_mult (fun e f => Cdiv (b_q (F0 e f)) (b_q (F1 e f))) (fun _ _ => RtoC 1)); [apply (Clim_div (fun e f => b_q (F0 e f)) (fun e f => b_q (F1 e f))); assumption | exact K].
  - apply (Clim_mult (fun e f => Cdiv (b_qd (F0 e f)) (b_q (F1 e f))) (fun _ _ => RtoC 1)); [apply (Clim_div (fun e f => b_qd (F0 e f)) (fun e f => b_q (F1 e f))); assumption | exact K].
  - apply (Clim_div (fun e f => b_qd (F1 e f)) (fun e f => b_q (F1 e f))); assumption.
Qed.
Definition zero_v : ratios := mkv (RtoC 0) (RtoC 0) (RtoC 0) (RtoC 0) (RtoC 0) (RtoC 0).
Definition getv (o : option ratios) : ratios := match o with Some v => v | None => zero_v end.

(** The divisor q[1] of a thin layer does not vanish *)
Definition second_ok (n : nat) (period s r r1 : R) : Prop :=
  is_small (k_of period s) r = true -> Kx n (k_of period s) (2 * PI / period * mu * s) (r1 * 1000) <> RtoC 0.

Lemma layer_limit n period s r r1 : (1 <= n)%nat -> 0 < period -> 0 < s -> 0 < r1 -> r1 < r -> second_ok n period s r r1 ->
  exists v, good (2 * PI / period) mu n s (k_of period s) (1000 * r) (1000 * r1) v /\
    flt (fun e f => layer_ratios f n e (k_of period s) r r1 = Some (getv (layer_ratios f n e (k_of period s) r r1))) /\
    Vlim (fun e f => getv (layer_ratios f n e (k_of period s) r r1)) v.
Proof.
  intros Hn Hp Hs H1 Hr H2. set (k := k_of period s). assert (Kp := k_pos period s Hp Hs). fold k in Kp.
  assert (Hk2 := k_square period s Hp). fold k in Hk2. set (kap := 2 * PI / period * mu * s) in *.
  assert (Hkap : 0 < kap).
  { unfold kap. pose proof (omega_pos period Hp). pose proof mu_pos. apply Rmult_lt_0_compat; [apply Rmult_lt_0_compat|]; assumption. }
  unfold second_ok in H2. fold k in H2. fold kap in H2. unfold layer_ratios. destruct (is_small k r) eqn:Es.
  - specialize (H2 eq_refl). set (x0 := r * 1000) in *. set (x1 := r1 * 1000) in *.
    assert (Hx0 : 0 < x0) by (unfold x0; lra). assert (Hx1 : 0 < x1) by (unfold x1; lra).
    replace (1000 * r) with x0 by (unfold x0; ring). replace (1000 * r1) with x1 by (unfold x1; ring).
    set (E0 := exact n k kap x0). set (E1 := exact n k kap x1).
    assert (Nk := nz_k k kap Hkap Hk2).
    assert (P0 := exact_p n k kap x0 Hx0). assert (P1 := exact_p n k kap x1 Hx1).
    assert (Q0 := exact_q n k kap Hkap Hk2 x0 Hx0). assert (Q1 := exact_q n k kap Hkap Hk2 x1 Hx1).
    assert (D0 := exact_pd n k kap Hn Hkap Hk2 x0 Hx0). assert (D1 := exact_pd n k kap Hn Hkap Hk2 x1 Hx1).
    assert (C0 := exact_qd n k kap Hn Hkap Hk2 x0 Hx0). assert (C1 := exact_qd n k kap Hn Hkap Hk2 x1 Hx1).
    fold E0 in P0, Q0, D0, C0. fold E1 in P1, Q1, D1, C1.
    assert (NP : b_p E0 <> RtoC 0) by (rewrite P0; apply (Px_ne n k kap (2 * PI / period) mu s Hkap Hk2 eq_refl x0 Hx0)).
    assert (NQ : b_q E1 <> RtoC 0) by (rewrite Q1; exact H2).
    exists (ratios_of E0 E1 (RtoC 1)). split; [|split].
    + exists (Px n k kap), (dPx n k kap), (ddPx n k kap), (Kx n k kap), (dKx n k kap), (ddKx n k kap).
      split; [intros; apply Px_solves; auto|]. split; [intros; apply Kx_solves; auto|].
      split; [intros x Hx; apply (PKx_wron n k kap (2 * PI / period) mu s Hn Hkap Hk2 eq_refl x Hx)|].
      rewrite P0 in NP. rewrite Q1 in NQ. split; [exact NP|]. split; [exact NQ|].
      unfold ratios_of. cbn [v1 v2 v3 v4 v5 v6]. rewrite <- C0, <- C1, <- D0, <- D1, P0, P1, Q0, Q1.
      repeat split; field; assumption.
    + generalize (flt_and _ _ (small_some n k x0) (small_some n k x1)). apply flt_imp. intros e f [A B].
      rewrite A, B. reflexivity.
    + assert (Ev : flt (fun e f => ratios_of (getb (small f n e (Cmult k (RtoC x0)))) (getb (small f n e (Cmult k (RtoC x1)))) (RtoC 1) =
         getv (match small f n e (Cmult k (RtoC x0)) with Some s0 => match small f n e (Cmult k (RtoC x1)) with Some s1 => Some (ratios_of s0 s1 (RtoC 1)) | None => None end | None => None end))).
      { generalize (flt_and _ _ (small_some n k x0) (small_some n k x1)). apply flt_imp. intros e f [A B]. rewrite A, B. reflexivity. }
      assert (L0p := lim_p n k kap Hkap Hk2 x0 Hx0). assert (L0q := lim_q n k kap Hkap Hk2 x0 Hx0).
      assert (L0d := lim_pd n k kap Hkap Hk2 x0 Hx0). assert (L0c := lim_qd n k kap Hkap Hk2 x0 Hx0).
      assert (L1p := lim_p n k kap Hkap Hk2 x1 Hx1). assert (L1q := lim_q n k kap Hkap Hk2 x1 Hx1).
      assert (L1d := lim_pd n k kap Hkap Hk2 x1 Hx1). assert (L1c := lim_qd n k kap Hkap Hk2 x1 Hx1).
      fold E0 in L0p, L0q, L0d, L0c. fold E1 in L1p, L1q, L1d, L1c.
      apply (Vlim_ext _ _ _ Ev). apply (Vlim_ratios (fun e f => getb (small f n e (Cmult k (RtoC x0)))) (fun e f => getb (small f n e (Cmult k (RtoC x1))))); assumption.
  - assert (Hb : 3 <= sqrt (2 * PI / period * mu * s) * (1000 * r)).
    { unfold is_small in Es. destruct (Rlt_dec _ _) as [L|L] in Es; [discriminate|].
      rewrite Cmod_mult, Cmod_R, Rabs_pos_eq in L by lra. unfold k in L. rewrite k_mod in L by assumption. unfold zlimit in L.
      replace (1000 * r) with (r * 1000) by ring. lra. }
    destruct (big_layer 0 n 0 period s r r1 Hp Hs H1 Hr Hb) as (v & Ev & G). fold k in Ev, G. unfold layer_ratios in Ev. rewrite Es in Ev.
    exists v. split; [exact G|]. rewrite Ev. cbn [getv]. split; [apply flt_always; reflexivity|]. repeat split; apply Clim_const.
Qed.

(** ** All layers *)
Definition olim (F : R -> nat -> option C) (l : C) : Prop :=
  forall d, 0 < d -> flt (fun e f => exists b, F e f = Some b /\ Cmod (Cminus b l) < d).
Definition getc (o : option C) : C := match o with Some c => c | None => RtoC 0 end.
Lemma olim_get F l : olim F l -> flt (fun e f => F e f = Some (getc (F e f))) /\ Clim (fun e f => getc (F e f)) l.
Proof.
  intros H. split.
  - generalize (H 1 Rlt_0_1). apply flt_imp. intros e f (b & E & _). rewrite E. reflexivity.
  - intros d Hd. generalize (H d Hd). apply flt_imp. intros e f (b & E & L). rewrite E. exact L.
Qed.
Lemma olim_of F G l : flt (fun e f => F e f = Some (G e f)) -> Clim G l -> olim F l.
Proof. intros A B d Hd. generalize (flt_and _ _ A (B d Hd)). apply flt_imp. intros e f [E L]. exists (G e f). auto. Qed.

Fixpoint seconds_ok (n : nat) (period : R) (L : list (R * R)) : Prop :=
  match L with
  | (s, r) :: (((_, r1) :: _) as below) => second_ok n period s r r1 /\ seconds_ok n period below
  | _ => True
  end.

Lemma layers_limit n period L : (1 <= n)%nat -> 0 < period -> conducting L -> seconds_ok n period L ->
  exists b, ratio_of (2 * PI / period) mu n (metres L) b /\ olim (fun e f => b_layers f n e period L) b.
Proof.
  intros Hn Hp. induction L as [|[s r] L IH]; [contradiction|]. destruct L as [|[s1 r1] L]; [contradiction|].
  intros (Hs & H1 & Hr & Hc) (Ht & Hb).
  destruct (layer_limit n period s r r1 Hn Hp Hs H1 Hr Ht) as (v & Hg & Hsome & (V1 & V2 & V3 & V4 & V5 & V6)).
  set (k := k_of period s) in *. set (G := fun e f => getv (layer_ratios f n e k r r1)).
  destruct L as [|y L].
  - exists (b_first k v). destruct (core_step (2 * PI / period) mu n s k (1000 * r) (1000 * r1) v Hg ltac:(lra) ltac:(lra) s1) as (Nd & Rt).
    split; [exact Rt|]. apply (olim_of _ (fun e f => b_first k (G e f))).
    + generalize Hsome. apply flt_imp. intros e f E. cbn [b_layers]. fold k. rewrite E. reflexivity.
    + unfold b_first, G. apply Clim_div; [exact Nd | |].
      * apply Clim_mult; [apply Clim_const|]. apply Clim_minus; [assumption | apply Clim_mult; assumption].
      * apply Clim_minus; [apply Clim_const | apply Clim_mult; assumption].
  - destruct (IH Hc Hb) as (b & Rb & Lb). apply olim_get in Lb. destruct Lb as [Sb Lb].
    exists (b_next k v b).
    destruct (layer_step_const (2 * PI / period) mu n s k (1000 * r) (1000 * r1) v Hg ltac:(lra) ltac:(lra) s1 (metres (y :: L)) b ltac:(discriminate) Rb) as (Nd & Rt).
    split; [exact Rt|]. apply (olim_of _ (fun e f => b_next k (G e f) (getc (b_layers f n e period ((s1, r1) :: y :: L))))).
    + generalize (flt_and _ _ Hsome Sb). apply flt_imp. intros e f [E E2].
      change (b_layers f n e period ((s, r) :: (s1, r1) :: y :: L)) with
        (match layer_ratios f n e k r r1 with None => None | Some v => match b_layers f n e period ((s1, r1) :: y :: L) with None => None | Some b => Some (b_next k v b) end end).
      rewrite E, E2. reflexivity.
    + unfold b_next, G. apply Clim_div; [exact Nd | |].
      * apply Clim_mult; [apply Clim_const|]. apply Clim_plus.
        -- apply Clim_mult; [|assumption]. apply Clim_minus; [assumption | apply Clim_mult; assumption].
        -- apply Clim_mult; [apply Clim_const|]. apply Clim_minus; apply Clim_mult; assumption.
      * apply Clim_plus.
        -- apply Clim_mult; [|assumption]. apply Clim_minus; [apply Clim_const | apply Clim_mult; assumption].
        -- apply Clim_mult; [apply Clim_const|]. apply Clim_minus; [apply Clim_mult; assumption | assumption].
Qed.

(** ** The response *)
Lemma Q_lim n r0 (F : R -> nat -> option C) b : (1 <= n)%nat -> 0 < r0 -> 0 <= fst b -> olim F b ->
  Clim (fun e f => Q_of_C n (1000 * r0) (C_const r0 (getc (F e f)))) (Q_of_C n (1000 * r0) (C_const r0 b)).
Proof.
  intros Hn Hr Hb H. apply olim_get in H. destruct H as [_ H].
  assert (ND := D_ne r0 b Hr Hb). assert (NDn := Dn_ne n r0 b Hr Hb). assert (Nr : RtoC (1000 * r0 / 1000) <> RtoC 0) by (apply RtoC_neq; lra).
  assert (LC : Clim (fun e f => C_const r0 (getc (F e f))) (C_const r0 b)).
  { unfold C_const. apply Clim_div; [exact ND | apply Clim_const |]. apply Clim_plus; [apply Clim_const|]. apply Clim_mult; [apply Clim_const | exact H]. }
  unfold Q_of_C. apply Clim_div.
  - intros X. apply NDn. unfold C_const in X. 
    assert (Nr' : RtoC r0 <> RtoC 0) by (apply RtoC_neq; lra).
    replace (1000 * r0 / 1000) with r0 in X by field.
    transitivity (Cmult (Cplus (RtoC 1) (Cmult (RtoC (1000 * r0)) b)) (Cplus (RtoC 1) (Cdiv (Cmult (RtoC (INR n)) (Cdiv (RtoC r0) (Cplus (RtoC 1) (Cmult (RtoC (1000 * r0)) b)))) (RtoC r0)))); [field; split; assumption|].
    rewrite X. ring.
  - apply Clim_mult; [apply Clim_const|]. apply Clim_minus; [apply Clim_const|]. apply Clim_div; [exact Nr | apply Clim_mult; [apply Clim_const | exact LC] | apply Clim_const].
  - apply Clim_plus; [apply Clim_const|]. apply Clim_div; [exact Nr | apply Clim_mult; [apply Clim_const | exact LC] | apply Clim_const].
Qed.

Lemma conducting_top L : conducting L -> 0 < snd (nth 0 L (0, 0)).
Proof. destruct L as [|[s r] [|[s1 r1] L]]; [contradiction | contradiction |]. cbn. lra. Qed.

Lemma response_limit n period L : (1 <= n)%nat -> 0 < period -> conducting L -> seconds_ok n period L ->
  exists Q, 
  (let a := 1000 * snd (nth 0 L (0, 0)) in
   (forall e, exists v dv, field_const (2 * PI / period) mu n (metres L) v dv /\ matches a n e (Cmult Q e) v dv) /\
   (forall e i v dv, field_const (2 * PI / period) mu n (metres L) v dv -> matches a n e i v dv -> i = Cmult Q e)) /\
  forall d, 0 < d -> exists e0, 0 < e0 /\ forall e, 0 < e < e0 -> exists f0, forall f, (f0 <= f)%nat ->
    exists c rho q, response_const f n e period L = Some (c, rho, q) /\ Cmod (Cminus q Q) < d.
Proof.
  intros Hn Hp Hc Hs. destruct (layers_limit n period L Hn Hp Hc Hs) as (b & Rb & Lb). assert (Hr := conducting_top L Hc).
  set (r0 := snd (nth 0 L (0, 0))) in *. exists (Q_of_C n (1000 * r0) (C_const r0 b)). split.
  - cbv zeta. apply response_of_ratio; assumption.
  - intros d Hd. assert (Fb : 0 <= fst b) by apply Rb.
    assert (LQ := Q_lim n r0 _ b Hn Hr Fb Lb d Hd). assert (SB := proj1 (olim_get _ _ Lb)).
    generalize (flt_and _ _ SB LQ). apply flt_imp. intros e f [E1 E2]. unfold response_const. rewrite E1. 
    do 3 eexists. split; [reflexivity|]. fold r0. exact E2.
Qed.
