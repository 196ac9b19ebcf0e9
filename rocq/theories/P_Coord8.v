(** C58, other direction: geo_to_gg returns geodetic coordinates of the point. *)
From Coq Require Import Reals List Bool ZArith Lra Lia Psatz.
From Verif Require Import M_Prelude Spec_Coord M_Coord P_Coord P_Coord2 P_Coord6 P_Coord7.
Import ListNotations.
Open Scope R_scope.

Lemma code_r0_spec a b r z : 0 < b -> b <= a -> 0 < r ->
  a ^ 2 * r ^ 2 + b ^ 2 * z ^ 2 > (a ^ 2 - b ^ 2) ^ 2 ->
  let e2 := (a ^ 2 - b ^ 2) / a ^ 2 in
  let x := code_r0 a e2 r z (b ^ 2) in
  0 < x /\ e2 * x < r /\ quartic a e2 r ((1 - e2) * z ^ 2) x = 0.
Proof.
  intros Hb Hab Hr HG e2 x.
  assert (Ha : 0 < a) by lra. assert (Ha2 : 0 < a ^ 2) by nra. assert (Hb2 : 0 < b ^ 2) by nra.
  assert (Ee : b ^ 2 = a ^ 2 * (1 - e2)) by (unfold e2; field; lra).
  assert (He1 : e2 < 1). { assert (e2 = 1 - b ^ 2 / a ^ 2) by (unfold e2; field; lra). 
    assert (0 < b ^ 2 / a ^ 2) by (apply Rdiv_lt_0_compat; assumption). lra. }
  assert (Hab2 : b ^ 2 <= a ^ 2) by nra.
  assert (He0 : 0 <= e2). { unfold e2. apply Rmult_le_pos; [lra|]. left. apply Rinv_0_lt_compat. assumption. }
  assert (HG' : r ^ 2 + (1 - e2) * z ^ 2 > e2 ^ 2 * a ^ 2).
  { apply Rlt_gt. apply (Rmult_lt_reg_l (a ^ 2)); [assumption|].
    replace (a ^ 2 * (e2 ^ 2 * a ^ 2)) with ((a ^ 2 - b ^ 2) ^ 2) by (unfold e2; field; lra).
    replace (a ^ 2 * (r ^ 2 + (1 - e2) * z ^ 2)) with (a ^ 2 * r ^ 2 + (a ^ 2 * (1 - e2)) * z ^ 2) by ring.
    rewrite <- Ee. lra. }
  destruct (Req_dec z 0) as [Hz|Hz].
  - assert (Ex : x = a).
    { unfold x, code_r0. rewrite Hz. cbv zeta.
      set (P := _ / (3 * _ * _)).
      assert (EP : P = 0) by (unfold P, Rdiv; ring). rewrite EP.
      replace (1 + 2 * (e2 * e2) * 0) with 1 by ring. rewrite sqrt_1.
      replace (- 0 * e2 * r / (1 + 1)) with 0 by field.
      replace 0.5 with (/ 2) by lra.
      replace (/ 2 * a ^ 2 * (1 + 1 / 1) - 0 * (1 - e2) * 0 ^ 2 / (1 * (1 + 1)) - / 2 * 0 * r ^ 2) with (a²)
        by (unfold Rsqr; field).
      rewrite sqrt_Rsqr by lra. ring. }
    rewrite Ex, Hz in *. split; [exact Ha|]. split.
    + assert (Hq : (e2 * a) * (e2 * a) < r * r) by nra.
      assert (0 <= e2 * a) by (apply Rmult_le_pos; lra). nra.
    + unfold quartic. ring.
  - destruct He0 as [He0|He0].
    + destruct (code_r0_root a e2 r z (b ^ 2) Ha (conj He0 He1) Ee Hr Hz HG') as [Hx Qx]. fold x in Hx, Qx.
      split; [exact Hx|]. split; [|exact Qx].
      set (Z := (1 - e2) * z ^ 2) in *.
      assert (HZ : 0 < Z).
      { unfold Z. apply Rmult_lt_0_compat; [lra|]. replace (z ^ 2) with (z²) by (unfold Rsqr; ring). apply Rlt_0_sqr. exact Hz. }
      destruct (Rlt_le_dec (e2 * x) r) as [L|L]; [exact L|exfalso].
      pose proof (quartic_outside a e2 r Z x He0 Hr HZ HG' L Hx). lra.
    + rewrite <- He0 in *.
      assert (Eb : b ^ 2 = a ^ 2) by lra.
      set (k2 := r ^ 2 + z ^ 2).
      assert (Hk : 0 < k2) by (unfold k2; nra).
      set (k := sqrt k2). assert (Hk0 : 0 < k) by (apply sqrt_lt_R0; exact Hk).
      assert (Kk : k * k = k2) by (apply sqrt_sqrt; lra).
      assert (Ex : x = a * r / k).
      { unfold x, code_r0. cbv zeta. rewrite Eb. try rewrite <- He0.
        replace (r ^ 2 + (1 - 0) * z ^ 2 - 0 * (a ^ 2 - a ^ 2)) with k2 by (unfold k2; ring).
        replace (0 * 0 * (54 * a ^ 2 * z ^ 2) * r ^ 2 / k2 ^ 3) with 0 by (unfold Rdiv; ring).
        replace (0 ^ 2 + 2 * 0) with 0 by ring. rewrite sqrt_0, !Rplus_0_r.
        replace (Rpower 1 (1 / 3)) with 1 by (unfold Rpower; rewrite ln_1, Rmult_0_r, exp_0; reflexivity).
        set (P := 54 * a ^ 2 * z ^ 2 / _).
        assert (EP : P = 2 * a ^ 2 * z ^ 2 / k2 ^ 2) by (unfold P; field; lra).
        replace (1 + 2 * (0 * 0) * P) with 1 by ring. rewrite sqrt_1.
        replace (- P * 0 * r / (1 + 1)) with 0 by field. rewrite Rplus_0_l.
        replace 0.5 with (/ 2) by lra.
        replace (/ 2 * a ^ 2 * (1 + 1 / 1) - P * (1 - 0) * z ^ 2 / (1 * (1 + 1)) - / 2 * P * r ^ 2)
          with (a ^ 2 - P * (r ^ 2 + z ^ 2) / 2) by field.
        fold k2. rewrite EP.
        replace (a ^ 2 - 2 * a ^ 2 * z ^ 2 / k2 ^ 2 * k2 / 2) with ((a * r / k)²).
        - apply sqrt_Rsqr. apply Rmult_le_pos; [nra | left; apply Rinv_0_lt_compat; exact Hk0].
        - unfold Rsqr. transitivity (a ^ 2 * r ^ 2 / (k * k)); [field; lra|]. rewrite Kk.
          replace (r ^ 2) with (k2 - z ^ 2) by (unfold k2; ring). field. lra. }
      split; [rewrite Ex; apply Rdiv_lt_0_compat; nra|]. split; [lra|].
      unfold quartic. rewrite Ex.
      transitivity (a ^ 2 * r ^ 2 / (k * k) * (r ^ 2 + z ^ 2 - k * k)); [field; lra|]. rewrite Kk. unfold k2. ring.
Qed.

Lemma geo_to_gg_geodetic a b radius theta : 0 < b -> b <= a -> 0 < radius -> 0 < theta < 180 ->
  let r := radius * sin (deg theta) in let z := radius * cos (deg theta) in
  a ^ 2 * r ^ 2 + b ^ 2 * z ^ 2 > (a ^ 2 - b ^ 2) ^ 2 ->
  let '(h, beta) := geo_to_gg a b radius theta in
  0 < beta < 180 /\ geodetic_point a b h (90 - beta) r z /\
  0 < b ^ 2 / sqrt (a ^ 2 * cos (deg (90 - beta)) ^ 2 + b ^ 2 * sin (deg (90 - beta)) ^ 2) + h.
Proof.
  intros Hb Hab Hrad Hth r z HG. rewrite geo_to_gg_unfold. cbv zeta. fold r z.
  assert (Ha : 0 < a) by lra. assert (Ha2 : 0 < a ^ 2) by nra. assert (Hb2 : 0 < b ^ 2) by nra.
  assert (Hab2 : b ^ 2 <= a ^ 2) by nra.
  assert (Hr : 0 < r).
  { unfold r. apply Rmult_lt_0_compat; [exact Hrad|]. pose proof (rad_theta_in theta Hth). apply sin_gt_0; tauto. }
  destruct (code_r0_spec a b r z Hb Hab Hr HG) as (Hx & Hd & Hq).
  set (e2 := (a ^ 2 - b ^ 2) / a ^ 2) in *. set (x := code_r0 a e2 r z (b ^ 2)) in *. clearbody x.
  assert (Ee : b ^ 2 = a ^ 2 * (1 - e2)) by (unfold e2; field; lra).
  set (d := r - e2 * x) in *. assert (Hdp : 0 < d) by (unfold d; lra).
  assert (HZ0 : 0 <= (1 - e2) * z ^ 2).
  { replace (1 - e2) with (b ^ 2 / a ^ 2) by (unfold e2; field; lra).
    apply Rmult_le_pos; [left; apply Rdiv_lt_0_compat; assumption | nra]. }
  set (U := sqrt (d ^ 2 + z ^ 2)). set (V := sqrt (d ^ 2 + (1 - e2) * z ^ 2)).
  assert (Hd2 : 0 < d ^ 2) by nra.
  assert (HU : 0 < U) by (apply sqrt_lt_R0; nra).
  assert (HV : 0 < V) by (apply sqrt_lt_R0; lra).
  assert (UU : U * U = d ^ 2 + z ^ 2) by (apply sqrt_sqrt; nra).
  assert (VV : V * V = d ^ 2 + (1 - e2) * z ^ 2) by (apply sqrt_sqrt; lra).
  assert (XV : x * V = a * d).
  { assert (E : (x * V) * (x * V) = (a * d) * (a * d)).
    { replace (x * V * (x * V)) with (x ^ 2 * (V * V)) by ring. rewrite VV.
      unfold quartic in Hq. fold d in Hq. lra. }
    assert (0 < x * V) by (apply Rmult_lt_0_compat; assumption).
    assert (0 < a * d) by (apply Rmult_lt_0_compat; assumption). nra. }
  assert (Ex : x = a * d / V) by (apply (Rmult_eq_reg_r V); [|lra]; rewrite XV; field; lra).
  set (K := 1 + (a ^ 2 - b ^ 2) / (a * V)).
  assert (HK : 0 < K).
  { unfold K. assert (0 <= (a ^ 2 - b ^ 2) / (a * V)).
    { apply Rmult_le_pos; [lra|]. left. apply Rinv_0_lt_compat. apply Rmult_lt_0_compat; assumption. } lra. }
  assert (Er : r = d * K).
  { assert (r = d + e2 * x) by (unfold d; ring). rewrite H, Ex. unfold K, e2. field. lra. }
  assert (Ez : z + (a ^ 2 - b ^ 2) / b ^ 2 * (b ^ 2 * z / (a * V)) = z * K) by (unfold K; field; repeat split; lra).
  rewrite Ez, Er. 
  pose proof (atan2_polar (z * K) (d * K)) as [C S]. cbv zeta in C, S.
  assert (EK : sqrt ((d * K) ^ 2 + (z * K) ^ 2) = U * K).
  { replace ((d * K) ^ 2 + (z * K) ^ 2) with ((U * K)²).
    - apply sqrt_Rsqr. apply Rmult_le_pos; lra.
    - unfold Rsqr. replace (U * K * (U * K)) with (U * U * (K * K)) by ring. rewrite UU. ring. }
  rewrite EK in C, S.
  assert (Hal : - (PI / 2) < np_arctan2 (z * K) (d * K) < PI / 2).
  { unfold np_arctan2. destruct (Rlt_dec 0 (d * K)) as [_|N]; [pose proof (atan_bound (z * K / (d * K))); lra|].
    exfalso; apply N. apply Rmult_lt_0_compat; assumption. }
  set (al := np_arctan2 (z * K) (d * K)) in *. clearbody al.
  assert (Cal : cos al = d / U).
  { apply (Rmult_eq_reg_l (U * K)); [rewrite C; field; lra|]. apply Rgt_not_eq. apply Rmult_lt_0_compat; assumption. }
  assert (Sal : sin al = z / U).
  { apply (Rmult_eq_reg_l (U * K)); [rewrite S; field; lra|]. apply Rgt_not_eq. apply Rmult_lt_0_compat; assumption. }
  assert (Edeg : deg (90 - (90 - np_degrees al)) = al).
  { replace (90 - (90 - np_degrees al)) with (np_degrees al) by ring. exact (radians_degrees al). }
  rewrite Edeg, Cal, Sal.
  split.
  - destruct Hal as [A B]. apply degrees_lt in A. apply degrees_lt in B.
    assert (np_degrees (PI / 2) = 90) by (unfold np_degrees; field; apply PI_neq0).
    assert (np_degrees (- (PI / 2)) = -90) by (unfold np_degrees; field; apply PI_neq0). lra.
  - split.
    + unfold geodetic_point. rewrite Edeg, Cal, Sal. exists (a * d / V), (b ^ 2 * z / (a * V)).
      split; [| split; [| split]].
      * unfold on_ellipse. apply (Rmult_eq_reg_r (V * V)); [|nra].
        transitivity (d ^ 2 + b ^ 2 / a ^ 2 * z ^ 2); [field; repeat split; lra|].
        rewrite VV. unfold e2. field. lra.
      * unfold outward_normal. split.
        -- apply (Rmult_eq_reg_r (U * U)); [|nra]. transitivity (d ^ 2 + z ^ 2); [field; lra | lra].
        -- exists (U / (a * V)). split; [apply Rdiv_lt_0_compat; [assumption | apply Rmult_lt_0_compat; assumption]|].
           split; field; repeat split; lra.
      * unfold K. field. repeat split; lra.
      * field. repeat split; lra.
    + assert (EW : sqrt (a ^ 2 * (d / U) ^ 2 + b ^ 2 * (z / U) ^ 2) = a * V / U).
      { replace (a ^ 2 * (d / U) ^ 2 + b ^ 2 * (z / U) ^ 2) with ((a * V / U)²).
        - apply sqrt_Rsqr. left. apply Rdiv_lt_0_compat; [apply Rmult_lt_0_compat; assumption | assumption].
        - unfold Rsqr. transitivity (a ^ 2 / U ^ 2 * (V * V)); [field; lra|]. rewrite VV. rewrite Ee. field. lra. }
      rewrite EW. replace (b ^ 2 / (a * V / U) + U * (1 - b ^ 2 / (a * V))) with U; [exact HU|]. field. repeat split; lra.
Qed.

(** gg_to_geo (geo_to_gg p) = p. *)
Lemma polar_unique R1 t1 R2 t2 : 0 < R1 -> 0 <= R2 -> 0 < t1 < 180 -> 0 < t2 < 180 ->
  R1 * sin (deg t1) = R2 * sin (deg t2) -> R1 * cos (deg t1) = R2 * cos (deg t2) -> R1 = R2 /\ t1 = t2.
Proof.
  intros H1 H2 Ht1 Ht2 Es Ec.
  assert (R1 * R1 = R2 * R2).
  { pose proof (sc1 (deg t1)). pose proof (sc1 (deg t2)).
    transitivity ((R1 * sin (deg t1)) ^ 2 + (R1 * cos (deg t1)) ^ 2).
    - transitivity (R1 * R1 * (sin (deg t1) * sin (deg t1) + cos (deg t1) * cos (deg t1))); [rewrite H; ring | ring].
    - rewrite Es, Ec. transitivity (R2 * R2 * (sin (deg t2) * sin (deg t2) + cos (deg t2) * cos (deg t2))); [ring | rewrite H0; ring]. }
  assert (R1 = R2) by nra. subst R2. split; [reflexivity|].
  apply cos_deg_inj; try lra. apply (Rmult_eq_reg_l R1); lra.
Qed.

Lemma gg_geo_inverse a b radius theta : 0 < b -> b <= a -> 0 < radius -> 0 < theta < 180 ->
  let r := radius * sin (deg theta) in let z := radius * cos (deg theta) in
  a ^ 2 * r ^ 2 + b ^ 2 * z ^ 2 > (a ^ 2 - b ^ 2) ^ 2 ->
  let '(h, beta) := geo_to_gg a b radius theta in gg_to_geo a b h beta = (radius, theta).
Proof.
  intros Hb Hab Hrad Hth r z HG.
  pose proof (geo_to_gg_geodetic a b radius theta Hb Hab Hrad Hth HG) as E.
  destruct (geo_to_gg a b radius theta) as [h beta]. destruct E as (Hbe & Hgp & Hk). fold r z in Hgp.
  assert (Ha : 0 < a) by lra.
  destruct (geodetic_closed a b h (90 - beta) r z Ha Hb Hgp) as [Er Ez].
  set (c := cos (deg (90 - beta))) in *. set (s := sin (deg (90 - beta))) in *.
  set (W := sqrt (a ^ 2 * c ^ 2 + b ^ 2 * s ^ 2)) in *.
  assert (CS : s * s + c * c = 1) by apply sc1.
  assert (HWp : 0 < W) by (apply sqrt_lt_R0; apply W_pos; assumption).
  assert (Hp : 0 < h * W + a ^ 2).
  { assert (0 < (b ^ 2 / W + h) * W) by (apply Rmult_lt_0_compat; assumption).
    replace ((b ^ 2 / W + h) * W) with (h * W + b ^ 2) in H by (field; lra). nra. }
  pose proof (gg_to_geo_polar a b h beta Ha Hb Hbe Hp) as E.
  destruct (gg_to_geo a b h beta) as [R2 t2]. fold c s in E. fold W in E. destruct E as (E1 & E2 & HR2 & Ht2).
  destruct (polar_unique radius theta R2 t2) as [-> ->]; auto.
  - rewrite E1. exact Er.
  - rewrite E2. exact Ez.
Qed.
