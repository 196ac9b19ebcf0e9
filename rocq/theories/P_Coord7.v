(** C58: Heikkinen's algorithm (geo_to_gg) inverts gg_to_geo. *)
From Coq Require Import Reals List Bool ZArith Lra Lia Psatz.
From Verif Require Import M_Prelude Spec_Coord M_Coord P_Coord P_Coord2 P_Coord6.
Import ListNotations.
Open Scope R_scope.

(** The cubic solved by [s + 1/s]. *)
Lemma cardano c : 0 <= c ->
  let s := Rpower (1 + c + sqrt (c ^ 2 + 2 * c)) (1 / 3) in
  let u := s + 1 / s in 0 < s /\ 0 < u /\ (u + 1) ^ 3 = 3 * (u + 1) ^ 2 + 2 * c.
Proof.
  intros Hc s u. set (D := sqrt (c ^ 2 + 2 * c)) in *.
  assert (HD : 0 <= D) by apply sqrt_pos.
  assert (DD : D * D = c ^ 2 + 2 * c) by (apply sqrt_sqrt; nra).
  set (A := 1 + c + D) in *. assert (HA : 0 < A) by (unfold A; lra).
  assert (Hs : 0 < s) by apply exp_pos.
  assert (S3 : s ^ 3 = A).
  { unfold s. rewrite <- (Rpower_pow 3) by exact Hs. rewrite Rpower_mult.
    replace (1 / 3 * INR 3) with 1 by (cbn; field). apply Rpower_1. exact HA. }
  assert (B : (1 + c - D) * A = 1) by (unfold A; replace ((1 + c - D) * (1 + c + D)) with ((1 + c) ^ 2 - D * D) by ring; rewrite DD; ring).
  assert (I3 : (1 / s) ^ 3 = 1 + c - D).
  { replace ((1 / s) ^ 3) with (/ (s ^ 3)) by (field; lra). rewrite S3.
    apply (Rmult_eq_reg_r A); [|lra]. rewrite B. field. lra. }
  assert (Hi : 0 < 1 / s) by (apply Rdiv_lt_0_compat; lra).
  split; [exact Hs|]. split; [unfold u; lra|].
  assert (U3 : u ^ 3 = 2 + 2 * c + 3 * u).
  { unfold u. replace ((s + 1 / s) ^ 3) with (s ^ 3 + (1 / s) ^ 3 + 3 * (s + 1 / s)) by (field; lra).
    rewrite S3, I3. unfold A. ring. }
  replace ((u + 1) ^ 3) with (u ^ 3 + 3 * u ^ 2 + 3 * u + 1) by ring. rewrite U3. ring.
Qed.

(** The quartic of the foot point, e2 = squared eccentricity, Z = (1-e2) z^2. *)
Definition quartic (a e2 r Z x : R) : R :=
  x ^ 2 * (r - e2 * x) ^ 2 + Z * x ^ 2 - a ^ 2 * (r - e2 * x) ^ 2.

(** Outside: no root at or beyond r/e2. *)
Lemma quartic_outside a e2 r Z x : 0 < e2 -> 0 < r -> 0 < Z -> r ^ 2 + Z > e2 ^ 2 * a ^ 2 ->
  r <= e2 * x -> 0 < x -> 0 < quartic a e2 r Z x.
Proof.
  intros He Hr HZ G Hx Hx0. unfold quartic. set (y := e2 * x - r).
  assert (Hy : 0 <= y) by (unfold y; lra).
  replace ((r - e2 * x) ^ 2) with (y ^ 2) by (unfold y; ring).
  assert (E : e2 ^ 2 * x ^ 2 = (y + r) ^ 2) by (unfold y; ring).
  assert (0 < e2 ^ 2) by nra.
  apply (Rmult_lt_reg_l (e2 ^ 2)); [assumption|]. rewrite Rmult_0_r.
  replace (e2 ^ 2 * (x ^ 2 * y ^ 2 + Z * x ^ 2 - a ^ 2 * y ^ 2))
    with ((e2 ^ 2 * x ^ 2) * (y ^ 2 + Z) - e2 ^ 2 * a ^ 2 * y ^ 2) by ring.
  rewrite E. destruct (Req_dec y 0) as [->|Hy'].
  - replace ((0 + r) ^ 2 * (0 ^ 2 + Z) - e2 ^ 2 * a ^ 2 * 0 ^ 2) with (r * r * Z) by ring.
    apply Rmult_lt_0_compat; [nra | assumption].
  - assert (Hy2 : 0 < y) by lra.
    assert (A : y ^ 2 * (r ^ 2 + Z) <= (y + r) ^ 2 * (y ^ 2 + Z)).
    { assert (r ^ 2 <= (y + r) ^ 2) by nra. assert (y ^ 2 <= (y + r) ^ 2) by nra.
      assert (0 <= y ^ 2) by nra.
      replace ((y + r) ^ 2 * (y ^ 2 + Z)) with (y ^ 2 * (y + r) ^ 2 + Z * (y + r) ^ 2) by ring.
      replace (y ^ 2 * (r ^ 2 + Z)) with (y ^ 2 * r ^ 2 + Z * y ^ 2) by ring.
      apply Rplus_le_compat; apply Rmult_le_compat_l; lra. }
    assert (B : e2 ^ 2 * a ^ 2 * y ^ 2 < y ^ 2 * (r ^ 2 + Z)).
    { rewrite Rmult_comm. apply Rmult_lt_compat_l; nra. }
    lra.
Qed.

(** Inside: at most one root. *)
Lemma quartic_unique a e2 r Z x y : 0 < a -> 0 < e2 -> 0 <= Z ->
  0 < x -> e2 * x < r -> 0 < y -> e2 * y < r ->
  quartic a e2 r Z x = 0 -> quartic a e2 r Z y = 0 -> x = y.
Proof.
  intros Ha He HZ Hx Hxr Hy Hyr Qx Qy.
  (* x^2 (d^2 + Z) = a^2 d^2 with d = r - e2 x decreasing in x *)
  assert (mono : forall u v, 0 < u -> u < v -> e2 * v < r -> quartic a e2 r Z u = 0 -> quartic a e2 r Z v = 0 -> False).
  { intros u v Hu Huv Hv Qu Qv. unfold quartic in *.
    set (du := r - e2 * u) in *. set (dv := r - e2 * v) in *.
    assert (Hdv : 0 < dv) by (unfold dv; lra). assert (Hd : dv < du) by (unfold du, dv; nra).
    assert (Eu : u ^ 2 * (du ^ 2 + Z) = a ^ 2 * du ^ 2) by lra.
    assert (Ev : v ^ 2 * (dv ^ 2 + Z) = a ^ 2 * dv ^ 2) by lra.
    clearbody du dv.
    assert (P1 : u ^ 2 * (du ^ 2 + Z) * dv ^ 2 = v ^ 2 * (dv ^ 2 + Z) * du ^ 2) by (rewrite Eu, Ev; ring).
    assert (u ^ 2 < v ^ 2) by nra. assert (dv ^ 2 < du ^ 2) by nra.
    assert (0 < dv ^ 2) by nra. assert (0 < u ^ 2) by nra.
    set (U := u ^ 2) in *. set (V := v ^ 2) in *. set (p := du ^ 2) in *. set (q := dv ^ 2) in *. clearbody U V p q.
    (* U p q + U Z q = V q p + V Z p, but U < V, q < p *)
    assert (U * (p * q) < V * (p * q)) by (apply Rmult_lt_compat_r; nra).
    assert (U * Z * q <= V * Z * p) by (apply Rmult_le_compat; nra). lra. }
  destruct (Rtotal_order x y) as [H|[H|H]]; [exfalso; eapply (mono x y); eauto | exact H | exfalso; eapply (mono y x); eauto].
Qed.

(** The factorisation behind the closed formula. *)
Lemma heikkinen_factor a e2 r Z P Q : 0 < e2 -> 0 < a -> 0 < Q -> Q ^ 2 = 1 + 2 * (e2 * e2) * P ->
  P * (r ^ 2 + Z - e2 ^ 2 * a ^ 2 + 2 * e2 ^ 2 * r ^ 2 * P) ^ 2 = 2 * a ^ 2 * Z ->
  let M := (r ^ 2 * Q ^ 2 + Z) / e2 ^ 2 in
  let Dp := ((Q - 1) * M - a ^ 2 * (Q + 1)) / (2 * Q) in
  let Dm := ((Q + 1) * M - a ^ 2 * (Q - 1)) / (2 * Q) in
  Dp * Dm = - (a ^ 2 * r ^ 2 / e2 ^ 2) /\
  (forall x, quartic a e2 r Z x =
     e2 ^ 2 * ((x ^ 2 + r * (Q - 1) / e2 * x + Dp) * (x ^ 2 - r * (Q + 1) / e2 * x + Dm))).
Proof.
  intros He Ha HQ HQ2 HP M Dp Dm.
  assert (P1 : P = (Q ^ 2 - 1) / (2 * (e2 * e2))) by (rewrite HQ2; field; lra).
  assert (MA : e2 ^ 2 * (M - a ^ 2) = r ^ 2 + Z - e2 ^ 2 * a ^ 2 + 2 * e2 ^ 2 * r ^ 2 * P).
  { unfold M. rewrite HQ2. field. lra. }
  rewrite <- MA in HP.
  assert (K : (Q ^ 2 - 1) * (M - a ^ 2) ^ 2 = 4 * a ^ 2 * Z / e2 ^ 2).
  { rewrite P1 in HP. apply (Rmult_eq_reg_r (e2 ^ 2 / 2)); [|assert (0 < e2 ^ 2) by nra; lra].
    transitivity ((Q ^ 2 - 1) / (2 * (e2 * e2)) * (e2 ^ 2 * (M - a ^ 2)) ^ 2); [field; lra|].
    rewrite HP. field. lra. }
  assert (C : Dp * Dm = - (a ^ 2 * r ^ 2 / e2 ^ 2)).
  { unfold Dp, Dm.
    transitivity (((Q ^ 2 - 1) * (M - a ^ 2) ^ 2 - 4 * a ^ 2 * M) / (4 * Q ^ 2)); [field; lra|].
    rewrite K. unfold M. field. split; lra. }
  split; [exact C|]. intros x.
  transitivity (e2 ^ 2 * (x ^ 4 - 2 * r / e2 * x ^ 3 + (Dp + Dm - r ^ 2 * (Q ^ 2 - 1) / e2 ^ 2) * x ^ 2
     + r / e2 * ((Q - 1) * Dm - (Q + 1) * Dp) * x + Dp * Dm)); [| field; lra].
  rewrite C.
  replace (Dp + Dm) with (M - a ^ 2) by (unfold Dp, Dm; field; lra).
  replace ((Q - 1) * Dm - (Q + 1) * Dp) with (2 * a ^ 2) by (unfold Dp, Dm; field; lra).
  unfold M, quartic. field. lra.
Qed.

(** The code's closed formula for r0. *)
Definition code_r0 (a e2 r z : R) (b2 : R) : R :=
  let a2 := a ^ 2 in
  let e4 := e2 * e2 in
  let r2 := r ^ 2 in
  let z2 := z ^ 2 in
  let F := 54 * b2 * z2 in
  let G := r2 + (1 - e2) * z2 - e2 * (a2 - b2) in
  let c := e4 * F * r2 / G ^ 3 in
  let s := Rpower (1 + c + sqrt (c ^ 2 + 2 * c)) (1 / 3) in
  let P := F / (3 * (s + 1 / s + 1) ^ 2 * G ^ 2) in
  let Q := sqrt (1 + 2 * e4 * P) in
  - P * e2 * r / (1 + Q) +
    sqrt (0.5 * a2 * (1 + 1 / Q) - P * (1 - e2) * z2 / (Q * (1 + Q)) - 0.5 * P * r2).

Lemma code_r0_root a e2 r z b2 : 0 < a -> 0 < e2 < 1 -> b2 = a ^ 2 * (1 - e2) -> 0 < r -> z <> 0 ->
  r ^ 2 + (1 - e2) * z ^ 2 > e2 ^ 2 * a ^ 2 ->
  let x := code_r0 a e2 r z b2 in
  0 < x /\ quartic a e2 r ((1 - e2) * z ^ 2) x = 0.
Proof.
  intros Ha He Hb Hr Hz HG. unfold code_r0. cbv zeta.
  set (Z := (1 - e2) * z ^ 2) in *.
  assert (Hz2 : 0 < z ^ 2) by (replace (z ^ 2) with (z²) by (unfold Rsqr; ring); apply Rlt_0_sqr; exact Hz).
  assert (HZ : 0 < Z) by (unfold Z; apply Rmult_lt_0_compat; lra).
  assert (Ha2 : 0 < a ^ 2) by nra. assert (Hr2 : 0 < r ^ 2) by nra.
  assert (He2 : 0 < e2 ^ 2) by nra.
  assert (Hb2 : 0 < b2) by (rewrite Hb; apply Rmult_lt_0_compat; lra).
  set (F := 54 * b2 * z ^ 2).
  assert (HF : 0 < F) by (unfold F; apply Rmult_lt_0_compat; [lra|assumption]).
  assert (EG : e2 * (a ^ 2 - b2) = e2 ^ 2 * a ^ 2) by (rewrite Hb; ring). rewrite EG.
  set (G := r ^ 2 + Z - e2 ^ 2 * a ^ 2). assert (HGp : 0 < G) by (unfold G; lra).
  set (c := e2 * e2 * F * r ^ 2 / G ^ 3).
  assert (Hc : 0 < c). { unfold c. apply Rdiv_lt_0_compat; [|apply pow_lt; assumption].
    apply Rmult_lt_0_compat; [|assumption]. apply Rmult_lt_0_compat; [nra | assumption]. }
  destruct (cardano c ltac:(lra)) as (Hs & Hu & Hcub).
  set (s := Rpower _ _) in *. set (u := s + 1 / s) in *.
  set (P := F / (3 * (u + 1) ^ 2 * G ^ 2)).
  assert (Hw : 0 < (u + 1) ^ 2) by nra. assert (HG2 : 0 < G ^ 2) by nra.
  assert (HP : 0 < P). { unfold P. apply Rdiv_lt_0_compat; [assumption|]. apply Rmult_lt_0_compat; lra. }
  set (Q := sqrt (1 + 2 * (e2 * e2) * P)).
  assert (HQa : 0 < 1 + 2 * (e2 * e2) * P) by nra.
  assert (HQ2 : Q ^ 2 = 1 + 2 * (e2 * e2) * P).
  { replace (Q ^ 2) with (Q * Q) by ring. apply sqrt_sqrt. lra. }
  assert (HQ0 : 0 < Q) by (apply sqrt_lt_R0; exact HQa).
  assert (HQ1 : 1 < Q) by nra.
  (* resolvent *)
  assert (Hres : P * (r ^ 2 + Z - e2 ^ 2 * a ^ 2 + 2 * e2 ^ 2 * r ^ 2 * P) ^ 2 = 2 * a ^ 2 * Z).
  { fold G.
    assert (E1 : 2 * e2 ^ 2 * r ^ 2 * P = G * (2 * c / (3 * (u + 1) ^ 2))).
    { unfold P, c. field. split; lra. }
    assert (E2 : 1 + 2 * c / (3 * (u + 1) ^ 2) = (u + 1) / 3).
    { apply (Rmult_eq_reg_r (3 * (u + 1) ^ 2)); [|lra].
      transitivity (3 * (u + 1) ^ 2 + 2 * c); [field; lra|]. rewrite <- Hcub. field. }
    rewrite E1. replace (G + G * (2 * c / (3 * (u + 1) ^ 2))) with (G * (1 + 2 * c / (3 * (u + 1) ^ 2))) by ring.
    rewrite E2. unfold P. transitivity (F / 27); [field; split; lra|].
    unfold F, Z. rewrite Hb. field. }
  destruct (heikkinen_factor a e2 r Z P Q (proj1 He) Ha HQ0 HQ2 Hres) as [C Fac]. cbv zeta in C, Fac.
  set (M := (r ^ 2 * Q ^ 2 + Z) / e2 ^ 2) in *.
  set (Dp := ((Q - 1) * M - a ^ 2 * (Q + 1)) / (2 * Q)) in *.
  set (Dm := ((Q + 1) * M - a ^ 2 * (Q - 1)) / (2 * Q)) in *.
  assert (HM : 0 < M). { unfold M. apply Rdiv_lt_0_compat; [|assumption]. assert (0 < Q ^ 2) by nra. nra. }
  assert (Hlt : Dp < Dm).
  { assert (Dm - Dp = (M + a ^ 2) / Q) by (unfold Dm, Dp; field; lra).
    assert (0 < (M + a ^ 2) / Q) by (apply Rdiv_lt_0_compat; lra). lra. }
  assert (Hneg : Dp * Dm < 0).
  { rewrite C. assert (0 < a ^ 2 * r ^ 2 / e2 ^ 2) by (apply Rdiv_lt_0_compat; nra). lra. }
  assert (HDp : Dp < 0) by nra.
  (* the formula is the larger root of the first factor *)
  set (k := r * (Q - 1) / (2 * e2)).
  assert (Hk : 0 < k). { unfold k. apply Rdiv_lt_0_compat; [apply Rmult_lt_0_compat; lra | lra]. }
  assert (EP : P = (Q - 1) * (Q + 1) / (2 * (e2 * e2))) by (replace ((Q - 1) * (Q + 1)) with (Q ^ 2 - 1) by ring; rewrite HQ2; field; lra).
  assert (Ek : - P * e2 * r / (1 + Q) = - k). { rewrite EP. unfold k. field. split; lra. }
  assert (Ein : 0.5 * a ^ 2 * (1 + 1 / Q) - P * (1 - e2) * z ^ 2 / (Q * (1 + Q)) - 0.5 * P * r ^ 2 = k ^ 2 - Dp).
  { replace (P * (1 - e2) * z ^ 2) with (P * Z) by (unfold Z; ring). replace 0.5 with (/ 2) by lra.
    rewrite EP. unfold k, Dp, M. field. repeat split; lra. }
  rewrite Ek, Ein.
  assert (Hpos : k ^ 2 < k ^ 2 - Dp) by lra.
  set (rt := sqrt (k ^ 2 - Dp)).
  assert (Ert : rt * rt = k ^ 2 - Dp) by (apply sqrt_sqrt; nra).
  assert (Hrt0 : 0 <= rt) by apply sqrt_pos.
  assert (Hrt : k < rt) by nra.
  split; [lra|]. rewrite Fac.
  replace ((- k + rt) ^ 2 + r * (Q - 1) / e2 * (- k + rt) + Dp) with 0; [ring|].
  replace (r * (Q - 1) / e2) with (2 * k) by (unfold k; field; lra).
  replace ((- k + rt) ^ 2 + 2 * k * (- k + rt) + Dp) with (rt * rt - k ^ 2 + Dp) by ring. rewrite Ert. ring.
Qed.

(** The foot point of a geodetic point is found. *)
Lemma code_r0_correct a b h c s : 0 < b -> b <= a -> c * c + s * s = 1 -> 0 < c ->
  let W := sqrt (a ^ 2 * c ^ 2 + b ^ 2 * s ^ 2) in
  let r := (a ^ 2 / W + h) * c in let z := (b ^ 2 / W + h) * s in
  0 < b ^ 2 / W + h -> a ^ 2 * r ^ 2 + b ^ 2 * z ^ 2 > (a ^ 2 - b ^ 2) ^ 2 ->
  code_r0 a ((a ^ 2 - b ^ 2) / a ^ 2) r z (b ^ 2) = a ^ 2 / W * c.
Proof.
  intros Hb Hab CS Hc W r z Hk HG.
  assert (Ha : 0 < a) by lra. assert (Ha2 : 0 < a ^ 2) by nra. assert (Hb2 : 0 < b ^ 2) by nra.
  assert (CS' : s * s + c * c = 1) by lra.
  pose proof (W_pos a b c s Ha Hb CS') as PW.
  assert (HWp : 0 < W) by (apply sqrt_lt_R0; exact PW).
  assert (WW : W * W = a ^ 2 * c ^ 2 + b ^ 2 * s ^ 2) by (apply sqrt_sqrt; lra).
  clearbody W.
  set (e2 := (a ^ 2 - b ^ 2) / a ^ 2) in *.
  assert (Ee : b ^ 2 = a ^ 2 * (1 - e2)) by (unfold e2; field; lra).
  assert (He1 : e2 < 1). { assert (e2 = 1 - b ^ 2 / a ^ 2) by (unfold e2; field; lra). 
    assert (0 < b ^ 2 / a ^ 2) by (apply Rdiv_lt_0_compat; assumption). lra. }
  assert (Hab2 : b ^ 2 <= a ^ 2) by nra.
  assert (He0 : 0 <= e2). { unfold e2. apply Rmult_le_pos; [lra|]. left. apply Rinv_0_lt_compat. assumption. }
  assert (HN : 0 < a ^ 2 / W) by (apply Rdiv_lt_0_compat; assumption).
  assert (HNb : b ^ 2 / W <= a ^ 2 / W) by (apply Rmult_le_compat_r; [left; apply Rinv_0_lt_compat; assumption | assumption]).
  assert (Hr : 0 < r) by (unfold r; apply Rmult_lt_0_compat; lra).
  set (x := a ^ 2 / W * c).
  assert (Hx : 0 < x) by (unfold x; apply Rmult_lt_0_compat; assumption).
  assert (Hd : r - e2 * x = (b ^ 2 / W + h) * c).
  { unfold r, x, e2. field. split; lra. }
  assert (HG' : r ^ 2 + (1 - e2) * z ^ 2 > e2 ^ 2 * a ^ 2).
  { apply Rlt_gt. apply (Rmult_lt_reg_l (a ^ 2)); [assumption|].
    replace (a ^ 2 * (e2 ^ 2 * a ^ 2)) with ((a ^ 2 - b ^ 2) ^ 2) by (unfold e2; field; lra).
    replace (a ^ 2 * (r ^ 2 + (1 - e2) * z ^ 2)) with (a ^ 2 * r ^ 2 + (a ^ 2 * (1 - e2)) * z ^ 2) by ring.
    rewrite <- Ee. lra. }
  destruct (Req_dec z 0) as [Hz|Hz].
  - (* on the equator *)
    assert (s = 0). { unfold z in Hz. apply Rmult_integral in Hz. destruct Hz; lra. }
    assert (Hc1 : c = 1) by (subst s; nra).
    assert (HWa : W = a). { subst s c. assert (W * W = a * a) by (rewrite WW; ring). nra. }
    unfold code_r0. rewrite Hz. cbv zeta.
    set (P := _ / (3 * _ * _)).
    assert (EP : P = 0) by (unfold P, Rdiv; ring). rewrite EP.
    replace (1 + 2 * (e2 * e2) * 0) with 1 by ring. rewrite sqrt_1.
    replace (- 0 * e2 * r / (1 + 1)) with 0 by field.
    replace 0.5 with (/ 2) by lra.
    replace (/ 2 * a ^ 2 * (1 + 1 / 1) - 0 * (1 - e2) * 0 ^ 2 / (1 * (1 + 1)) - / 2 * 0 * r ^ 2) with (a²)
      by (unfold Rsqr; field).
    rewrite sqrt_Rsqr by lra. unfold x. rewrite HWa, Hc1. field. lra.
  - destruct He0 as [He0|He0].
    + set (Z := (1 - e2) * z ^ 2) in *.
      assert (HZ : 0 < Z).
      { unfold Z. apply Rmult_lt_0_compat; [lra|]. replace (z ^ 2) with (z²) by (unfold Rsqr; ring). apply Rlt_0_sqr. exact Hz. }
      destruct (code_r0_root a e2 r z (b ^ 2) Ha (conj He0 He1) Ee Hr Hz HG') as [Hy Qy].
      set (y := code_r0 a e2 r z (b ^ 2)) in *. fold Z in Qy.
      assert (Qx : quartic a e2 r Z x = 0).
      { unfold quartic. rewrite Hd.
        replace Z with (b ^ 2 / a ^ 2 * ((b ^ 2 / W + h) * s) ^ 2) by (unfold Z, z, e2; field; lra).
        unfold x.
        transitivity ((b ^ 2 / W + h) ^ 2 * c ^ 2 * (a ^ 2 / (W * W)) * (a ^ 2 * c ^ 2 + b ^ 2 * s ^ 2 - W * W)); [field; lra|].
        rewrite WW. ring. }
      apply (quartic_unique a e2 r Z); auto; try lra.
      * destruct (Rlt_le_dec (e2 * y) r) as [L|L]; [exact L|exfalso].
        pose proof (quartic_outside a e2 r Z y He0 Hr HZ HG' L Hy). lra.
      * assert (0 < (b ^ 2 / W + h) * c) by (apply Rmult_lt_0_compat; lra). lra.
    + (* sphere *)
      assert (Eab : a ^ 2 = b ^ 2) by (rewrite Ee, <- He0; ring).
      assert (Eab' : a = b) by nra. clear Ee. subst b.
      assert (HWa : W = a). { assert (W * W = a * a) by (rewrite WW; replace (a ^ 2 * c ^ 2 + a ^ 2 * s ^ 2) with (a * a * (c * c + s * s)) by ring; rewrite CS; ring). nra. }
      subst W. set (k := a ^ 2 / a + h) in *.
      assert (Er2 : r ^ 2 + z ^ 2 = k ^ 2). { unfold r, z. fold k. replace ((k * c) ^ 2 + (k * s) ^ 2) with (k ^ 2 * (c * c + s * s)) by ring. rewrite CS; ring. }
      unfold code_r0. cbv zeta. rewrite <- He0.
      replace (r ^ 2 + (1 - 0) * z ^ 2 - 0 * (a ^ 2 - a ^ 2)) with (k ^ 2) by (rewrite <- Er2; ring).
      replace (0 * 0 * (54 * a ^ 2 * z ^ 2) * r ^ 2 / (k ^ 2) ^ 3) with 0 by (unfold Rdiv; ring).
      replace (0 ^ 2 + 2 * 0) with 0 by ring. rewrite sqrt_0, !Rplus_0_r.
      replace (Rpower 1 (1 / 3)) with 1 by (unfold Rpower; rewrite ln_1, Rmult_0_r, exp_0; reflexivity).
      set (P := 54 * a ^ 2 * z ^ 2 / _).
      assert (EP : P = 2 * a ^ 2 * s ^ 2 / k ^ 2). { unfold P, z. fold k. field. lra. }
      replace (1 + 2 * (0 * 0) * P) with 1 by ring. rewrite sqrt_1.
      replace (- P * 0 * r / (1 + 1)) with 0 by field. rewrite Rplus_0_l.
      replace 0.5 with (/ 2) by lra.
      replace (/ 2 * a ^ 2 * (1 + 1 / 1) - P * (1 - 0) * z ^ 2 / (1 * (1 + 1)) - / 2 * P * r ^ 2)
        with (a ^ 2 - P * (r ^ 2 + z ^ 2) / 2) by field.
      rewrite Er2, EP.
      replace (a ^ 2 - 2 * a ^ 2 * s ^ 2 / k ^ 2 * k ^ 2 / 2) with ((a * c)²).
      * rewrite sqrt_Rsqr by nra. unfold x. field. lra.
      * unfold Rsqr. replace (a * c * (a * c)) with (a * a * (c * c)) by ring.
        replace (c * c) with (1 - s * s) by lra. field. lra.
Qed.

Lemma geo_to_gg_unfold a b radius theta : 
  geo_to_gg a b radius theta =
  let e2 := (a ^ 2 - b ^ 2) / a ^ 2 in
  let r := radius * sin (deg theta) in let z := radius * cos (deg theta) in
  let r0 := code_r0 a e2 r z (b ^ 2) in
  let U := sqrt ((r - e2 * r0) ^ 2 + z ^ 2) in
  let V := sqrt ((r - e2 * r0) ^ 2 + (1 - e2) * z ^ 2) in
  let z0 := b ^ 2 * z / (a * V) in
  (U * (1 - b ^ 2 / (a * V)), 90 - np_degrees (np_arctan2 (z + (a ^ 2 - b ^ 2) / b ^ 2 * z0) r)).
Proof. reflexivity. Qed.

Lemma geo_to_gg_closed a b h beta radius theta : 0 < b -> b <= a -> 0 < beta < 180 ->
  let c := cos (deg (90 - beta)) in let s := sin (deg (90 - beta)) in
  let W := sqrt (a ^ 2 * c ^ 2 + b ^ 2 * s ^ 2) in
  let r := (a ^ 2 / W + h) * c in let z := (b ^ 2 / W + h) * s in
  radius * sin (deg theta) = r -> radius * cos (deg theta) = z ->
  0 < b ^ 2 / W + h -> a ^ 2 * r ^ 2 + b ^ 2 * z ^ 2 > (a ^ 2 - b ^ 2) ^ 2 ->
  geo_to_gg a b radius theta = (h, beta).
Proof.
  intros Hb Hab Hbe c s W r z Er Ez Hk HG. rewrite geo_to_gg_unfold. cbv zeta. rewrite Er, Ez.
  assert (Ha : 0 < a) by lra. assert (Ha2 : 0 < a ^ 2) by nra. assert (Hb2 : 0 < b ^ 2) by nra.
  assert (Hal : - (PI / 2) < deg (90 - beta) < PI / 2).
  { unfold deg. pose proof PI_RGT_0. replace (- (PI / 2)) with (-90 * (PI / 180)) by field.
    replace (PI / 2) with (90 * (PI / 180)) by field. split; apply Rmult_lt_compat_r; lra. }
  assert (Hc : 0 < c) by (apply cos_gt_0; lra).
  assert (CS : s * s + c * c = 1) by apply sc1.
  pose proof (W_pos a b c s Ha Hb CS) as PW.
  assert (HWp : 0 < W) by (apply sqrt_lt_R0; exact PW).
  assert (WW : W * W = a ^ 2 * c ^ 2 + b ^ 2 * s ^ 2) by (apply sqrt_sqrt; lra).
  assert (Hr0 : code_r0 a ((a ^ 2 - b ^ 2) / a ^ 2) r z (b ^ 2) = a ^ 2 / W * c).
  { apply (code_r0_correct a b h c s); auto. lra. }
  rewrite Hr0.
  replace (r - (a ^ 2 - b ^ 2) / a ^ 2 * (a ^ 2 / W * c)) with ((b ^ 2 / W + h) * c)
    by (unfold r; field; split; lra).
  assert (HNb : b ^ 2 / W <= a ^ 2 / W).
  { apply Rmult_le_compat_r; [left; apply Rinv_0_lt_compat; assumption | nra]. }
  set (k := b ^ 2 / W + h) in *.
  assert (EU : sqrt ((k * c) ^ 2 + z ^ 2) = k).
  { replace ((k * c) ^ 2 + z ^ 2) with (k²).
    - apply sqrt_Rsqr. lra.
    - unfold z, Rsqr. replace ((k * c) ^ 2 + (k * s) ^ 2) with (k * k * (s * s + c * c)) by ring. rewrite CS. ring. }
  assert (EV : sqrt ((k * c) ^ 2 + (1 - (a ^ 2 - b ^ 2) / a ^ 2) * z ^ 2) = k * W / a).
  { replace ((k * c) ^ 2 + (1 - (a ^ 2 - b ^ 2) / a ^ 2) * z ^ 2) with ((k * W / a)²).
    - apply sqrt_Rsqr. apply Rmult_le_pos; [nra | left; apply Rinv_0_lt_compat; assumption].
    - unfold z, Rsqr. transitivity (k ^ 2 / a ^ 2 * (W * W)); [field; lra|]. rewrite WW. field. lra. }
  rewrite EU, EV. f_equal.
  - transitivity (k - b ^ 2 / W); [field; repeat split; lra|]. unfold k. ring.
  - assert (Ezz : z + (a ^ 2 - b ^ 2) / b ^ 2 * (b ^ 2 * z / (a * (k * W / a))) = (a ^ 2 / W + h) * s).
    { transitivity (k * s + (a ^ 2 - b ^ 2) / W * s); [unfold z; field; repeat split; lra|].
      unfold k. field. lra. }
    rewrite Ezz. unfold r.
    rewrite (atan2_eq _ _ (a ^ 2 / W + h) (deg (90 - beta))); [ | | | reflexivity | reflexivity].
    + rewrite <- radians_deg, degrees_radians. ring.
    + unfold k in Hk. lra.
    + pose proof PI_RGT_0. lra.
Qed.

(** C58. *)
Lemma geo_gg_inverse a b h beta : 0 < b -> b <= a -> 0 < beta < 180 ->
  let c := cos (deg (90 - beta)) in let s := sin (deg (90 - beta)) in
  let W := sqrt (a ^ 2 * c ^ 2 + b ^ 2 * s ^ 2) in
  let r := (a ^ 2 / W + h) * c in let z := (b ^ 2 / W + h) * s in
  0 < b ^ 2 / W + h -> a ^ 2 * r ^ 2 + b ^ 2 * z ^ 2 > (a ^ 2 - b ^ 2) ^ 2 ->
  let '(radius, theta) := gg_to_geo a b h beta in geo_to_gg a b radius theta = (h, beta).
Proof.
  intros Hb Hab Hbe c s W r z Hk HG.
  assert (Ha : 0 < a) by lra.
  assert (CS : s * s + c * c = 1) by apply sc1.
  assert (HWp : 0 < W) by (apply sqrt_lt_R0; apply W_pos; assumption).
  assert (Hp : 0 < h * W + a ^ 2).
  { assert (0 < (b ^ 2 / W + h) * W) by (apply Rmult_lt_0_compat; assumption).
    replace ((b ^ 2 / W + h) * W) with (h * W + b ^ 2) in H by (field; lra). nra. }
  pose proof (gg_to_geo_polar a b h beta Ha Hb Hbe Hp) as E.
  destruct (gg_to_geo a b h beta) as [radius theta]. destruct E as (E1 & E2 & _ & _).
  exact (geo_to_gg_closed a b h beta radius theta Hb Hab Hbe E1 E2 Hk HG).
Qed.

(** Heights above the ellipsoid, moderate flattening. *)
Lemma above_ok a b h c s : 0 < b -> b <= a -> a ^ 2 < 2 * b ^ 2 -> 0 <= h -> s * s + c * c = 1 ->
  let W := sqrt (a ^ 2 * c ^ 2 + b ^ 2 * s ^ 2) in
  let r := (a ^ 2 / W + h) * c in let z := (b ^ 2 / W + h) * s in
  0 < b ^ 2 / W + h /\ a ^ 2 * r ^ 2 + b ^ 2 * z ^ 2 > (a ^ 2 - b ^ 2) ^ 2.
Proof.
  intros Hb Hab Hf Hh CS W r z.
  assert (Ha : 0 < a) by lra. assert (Ha2 : 0 < a ^ 2) by nra. assert (Hb2 : 0 < b ^ 2) by nra.
  pose proof (W_pos a b c s Ha Hb CS) as PW.
  assert (HWp : 0 < W) by (apply sqrt_lt_R0; exact PW).
  assert (WW : W * W = a ^ 2 * c ^ 2 + b ^ 2 * s ^ 2) by (apply sqrt_sqrt; lra).
  assert (HB : 0 < b ^ 2 / W) by (apply Rdiv_lt_0_compat; assumption).
  split; [lra|].
  assert (HW2 : W * W <= a ^ 2).
  { rewrite WW. replace (a ^ 2 * c ^ 2 + b ^ 2 * s ^ 2) with (a ^ 2 * (s * s + c * c) - (a ^ 2 - b ^ 2) * (s * s)) by ring.
    rewrite CS. assert (0 <= (a ^ 2 - b ^ 2) * (s * s)) by (apply Rmult_le_pos; nra). lra. }
  assert (Hrr : (a ^ 2 / W) ^ 2 * c ^ 2 <= r ^ 2).
  { unfold r. replace (((a ^ 2 / W + h) * c) ^ 2) with ((a ^ 2 / W + h) ^ 2 * c ^ 2) by ring.
    apply Rmult_le_compat_r; [nra|]. assert (0 < a ^ 2 / W) by (apply Rdiv_lt_0_compat; assumption). nra. }
  assert (Hzz : (b ^ 2 / W) ^ 2 * s ^ 2 <= z ^ 2).
  { unfold z. replace (((b ^ 2 / W + h) * s) ^ 2) with ((b ^ 2 / W + h) ^ 2 * s ^ 2) by ring.
    apply Rmult_le_compat_r; [nra|]. nra. }
  assert (L : a ^ 2 * ((a ^ 2 / W) ^ 2 * c ^ 2) + b ^ 2 * ((b ^ 2 / W) ^ 2 * s ^ 2) >= b ^ 4).
  { replace (a ^ 2 * ((a ^ 2 / W) ^ 2 * c ^ 2) + b ^ 2 * ((b ^ 2 / W) ^ 2 * s ^ 2))
      with ((a ^ 6 * c ^ 2 + b ^ 6 * s ^ 2) / (W * W)) by (field; lra).
    apply Rle_ge. apply (Rmult_le_reg_r (W * W)); [nra|].
    replace ((a ^ 6 * c ^ 2 + b ^ 6 * s ^ 2) / (W * W) * (W * W)) with (a ^ 6 * c ^ 2 + b ^ 6 * s ^ 2) by (field; lra).
    rewrite WW.
    replace (b ^ 4 * (a ^ 2 * c ^ 2 + b ^ 2 * s ^ 2)) with (b ^ 4 * a ^ 2 * c ^ 2 + b ^ 6 * s ^ 2) by ring.
    apply Rplus_le_compat_r. apply Rmult_le_compat_r; [nra|].
    replace (a ^ 6) with (a ^ 4 * a ^ 2) by ring. apply Rmult_le_compat_r; [lra|].
    replace (b ^ 4) with (b ^ 2 * b ^ 2) by ring. replace (a ^ 4) with (a ^ 2 * a ^ 2) by ring.
    assert (b ^ 2 <= a ^ 2) by nra. apply Rmult_le_compat; lra. }
  assert (B4 : (a ^ 2 - b ^ 2) ^ 2 < b ^ 4).
  { replace (b ^ 4) with (b ^ 2 * b ^ 2) by ring. assert (0 <= a ^ 2 - b ^ 2) by nra. nra. }
  assert (a ^ 2 * ((a ^ 2 / W) ^ 2 * c ^ 2) <= a ^ 2 * r ^ 2) by (apply Rmult_le_compat_l; lra).
  assert (b ^ 2 * ((b ^ 2 / W) ^ 2 * s ^ 2) <= b ^ 2 * z ^ 2) by (apply Rmult_le_compat_l; lra).
  lra.
Qed.
