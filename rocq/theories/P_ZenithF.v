(** Proofs about the zenith angle in double precision *)
From Coq Require Import ZArith Reals List Lia Lra Psatz.
From Flocq Require Import Core.
From Verif Require Import Spec_Coord M_Coord P_Coord P_Coord2 Spec_Float Spec_Rounding P_Float P_Rounding Spec_CoordF M_CoordF P_CoordF M_ZenithF P_QCall.
Open Scope R_scope.

Lemma tri x y z : Rabs (x - z) <= Rabs (x - y) + Rabs (y - z).
Proof. replace (x - z) with (x - y + (y - z)) by ring. apply Rabs_triang. Qed.
Lemma tiny_le B : 1 <= B -> powerRZ 2 (-1000) <= B.
Proof.
  intros H. apply Rle_trans with 1; [|exact H]. change 1 with (powerRZ 2 0). rewrite !powerRZ_bpow. apply bpow_le. lia.
Qed.

Lemma acc_nonneg e g fg : accurate_within e g fg -> 0 <= e.
Proof. intros H. eapply Rle_trans; [apply Rabs_pos|]. apply (H 0 (double_int 0 ltac:(lia))). Qed.

Lemma lib_err e E (g fg : R -> R) x x0 d : accurate_within e g fg -> (forall a b, Rabs (g a - g b) <= Rabs (a - b)) ->
  double x -> Rabs (x - x0) <= d -> e + d <= E -> Rabs (fg x - g x0) <= E.
Proof.
  intros A L D H HE. eapply Rle_trans; [apply (tri _ (g x))|]. pose proof (A x D). pose proof (L x x0). lra.
Qed.

Lemma cos_zeta_err e fcos fsin ts ps t p : accurate_within e cos fcos -> accurate_within e sin fsin -> e <= 1e-4 ->
  Rabs ts <= 360 -> Rabs ps <= 360 -> Rabs t <= 360 -> Rabs p <= 360 ->
  Rabs (cos_zeta_f fcos fsin ts ps t p - vdot (direction ts ps) (direction t p)) <= 5.1 * e + 5e-14.
Proof.
  intros Hc Hs He Hts Hps Ht Hp. pose proof (acc_nonneg _ _ _ Hc) as e0.
  pose proof (radians_f_err ts Hts) as E1. pose proof (radians_f_err ps Hps) as E2.
  pose proof (radians_f_err t Ht) as E3. pose proof (radians_f_err p Hp) as E4.
  unfold cos_zeta_f.
  assert (D1 : double (radians_f ts)) by apply rn_double. assert (D3 : double (radians_f t)) by apply rn_double.
  set (a := radians_f ts) in *. set (az := radians_f ps) in *. set (b := radians_f t) in *. set (ph := radians_f p) in *.
  pose proof u_pos as U. set (E := e + 8e-15).
  assert (EB : 8e-15 <= E <= 1.1e-4) by (unfold E; lra).
  assert (Bp : forall x, Rabs x <= 360 -> Rabs (deg x) <= 8).
  { intros x Hx. unfold deg. pose proof PI_size. rewrite Rabs_mult, (Rabs_pos_eq (PI / 180)) by lra. pose proof (Rabs_pos x). nra. }
  assert (E5 : Rabs (rn (az - ph) - (deg ps - deg p)) <= 8e-15).
  { pose proof (Bp ps Hps) as B1. pose proof (Bp p Hp) as B2. apply Rabs_le_inv in B1, B2, E2, E4.
    assert (F : Rabs (az - ph) <= 17) by (apply Rabs_le; lra).
    pose proof (rn_abs (az - ph) 17 (tiny_le 17 ltac:(lra)) F) as D. apply Rabs_le_inv in D. rewrite u_val in D.
    apply Rabs_le. lra. }
  assert (Ca : Rabs (fcos a - cos (deg ts)) <= E) by (apply (lib_err e E cos fcos a (deg ts) 3e-15 Hc cos_lip D1 E1); unfold E; lra).
  assert (Sa : Rabs (fsin a - sin (deg ts)) <= E) by (apply (lib_err e E sin fsin a (deg ts) 3e-15 Hs sin_lip D1 E1); unfold E; lra).
  assert (Cb : Rabs (fcos b - cos (deg t)) <= E) by (apply (lib_err e E cos fcos b (deg t) 3e-15 Hc cos_lip D3 E3); unfold E; lra).
  assert (Sb : Rabs (fsin b - sin (deg t)) <= E) by (apply (lib_err e E sin fsin b (deg t) 3e-15 Hs sin_lip D3 E3); unfold E; lra).
  assert (Cd : Rabs (fcos (rn (az - ph)) - cos (deg ps - deg p)) <= E).
  { apply (lib_err e E cos fcos _ _ 8e-15 Hc cos_lip (rn_double _) E5). unfold E; lra. }
  set (B := 1 + E).
  assert (HB : powerRZ 2 (-1000) <= B) by (apply tiny_le; unfold B; lra).
  assert (Nb : Rabs (fcos b) <= B).
  { replace (fcos b) with (fcos b - cos (deg t) + cos (deg t)) by ring. eapply Rle_trans; [apply Rabs_triang|].
    pose proof (cos_1 (deg t)). unfold B. lra. }
  assert (Mb : Rabs (fsin b) <= B).
  { replace (fsin b) with (fsin b - sin (deg t) + sin (deg t)) by ring. eapply Rle_trans; [apply Rabs_triang|].
    pose proof (sin_1 (deg t)). unfold B. lra. }
  pose proof (proj1 (product_err (fcos b) (fcos a) (cos (deg ts)) B E HB Nb (cos_1 _) Ca ltac:(lra))) as P1.
  pose proof (two_products (fsin b) (fsin a) (sin (deg ts)) (fcos (rn (az - ph))) (cos (deg ps - deg p)) B E HB Mb (sin_1 _) (cos_1 _) Sa Cd ltac:(lra)) as P2.
  clear HB.
  set (x := rn (fcos b * fcos a)) in *. set (y := rn (rn (fsin b * fsin a) * fcos (rn (az - ph)))) in *.
  assert (X : Rabs (x - cos (deg t) * cos (deg ts)) <= B * (E + 2 * u) + E).
  { eapply Rle_trans; [apply (tri _ (fcos b * cos (deg ts)))|]. apply Rplus_le_compat; [exact P1|].
    rewrite <- Rmult_minus_distr_r, Rabs_mult. pose proof (cos_1 (deg ts)). pose proof (Rabs_pos (cos (deg ts))).
    pose proof (Rabs_pos (fcos b - cos (deg t))). nra. }
  assert (Y : Rabs (y - sin (deg t) * sin (deg ts) * cos (deg ps - deg p)) <= B * (2.01 * E + 1e-15) + E).
  { eapply Rle_trans; [apply (tri _ (fsin b * sin (deg ts) * cos (deg ps - deg p)))|]. apply Rplus_le_compat; [exact P2|].
    rewrite <- !Rmult_minus_distr_r, !Rabs_mult. pose proof (sin_1 (deg ts)). pose proof (cos_1 (deg ps - deg p)).
    pose proof (Rabs_pos (sin (deg ts))). pose proof (Rabs_pos (cos (deg ps - deg p))).
    pose proof (Rabs_pos (fsin b - sin (deg t))).
    assert (Rabs (fsin b - sin (deg t)) * Rabs (sin (deg ts)) <= E) by nra.
    assert (0 <= Rabs (fsin b - sin (deg t)) * Rabs (sin (deg ts))) by (apply Rmult_le_pos; assumption). nra. }
  assert (V : vdot (direction ts ps) (direction t p) = cos (deg t) * cos (deg ts) + sin (deg t) * sin (deg ts) * cos (deg ps - deg p)).
  { unfold vdot, direction. cbn [vx vy vz]. rewrite cos_minus. ring. }
  assert (XX : Rabs (x - cos (deg t) * cos (deg ts)) <= 2.001 * E + 3e-16) by (unfold B in X; rewrite u_val in X; nra).
  assert (YY : Rabs (y - sin (deg t) * sin (deg ts) * cos (deg ps - deg p)) <= 3.012 * E + 2e-15) by (unfold B in Y; nra).
  set (x0 := cos (deg t) * cos (deg ts)) in *. set (y0 := sin (deg t) * sin (deg ts) * cos (deg ps - deg p)) in *.
  assert (Sz : Rabs (x + y) <= 3).
  { assert (Rabs (x0 + y0) <= 1).
    { rewrite <- V. apply Rabs_le. 
      pose proof (unit_dot_bound (direction ts ps) (direction t p)) as W. apply W; unfold unit_vec, vdot, direction; cbn [vx vy vz].
      - pose proof (sc1 (deg ts)) as S1. pose proof (sc1 (deg ps)) as S2.
        transitivity (sin (deg ts) * sin (deg ts) * (sin (deg ps) * sin (deg ps) + cos (deg ps) * cos (deg ps)) + cos (deg ts) * cos (deg ts)); [ring|]. rewrite S2, Rmult_1_r. exact S1.
      - pose proof (sc1 (deg t)) as S1. pose proof (sc1 (deg p)) as S2.
        transitivity (sin (deg t) * sin (deg t) * (sin (deg p) * sin (deg p) + cos (deg p) * cos (deg p)) + cos (deg t) * cos (deg t)); [ring|]. rewrite S2, Rmult_1_r. exact S1. }
    apply Rabs_le_inv in H, XX, YY. apply Rabs_le. lra. }
  pose proof (rn_abs (x + y) 3 (tiny_le 3 ltac:(lra)) Sz) as D. rewrite u_val in D.
  rewrite V. apply Rabs_le_inv in D, XX, YY. apply Rabs_le. unfold E in *. lra.
Qed.

(** ** from the cosine to the angle *)
Lemma sin_half x : 0 <= x <= PI / 2 -> x / 2 <= sin x.
Proof.
  intros H. pose proof PI_size. destruct (Rle_dec x (PI / 3)) as [L|L].
  - destruct (Req_dec x 0) as [->|N]; [rewrite sin_0; lra|].
    destruct (MVT_cor2 sin cos 0 x ltac:(lra) (fun c _ => derivable_pt_lim_sin c)) as (c & E & I).
    rewrite sin_0 in E. assert (1 / 2 <= cos c) by (rewrite <- cos_PI3; apply cos_decr_1; lra). nra.
  - destruct (Req_dec x (PI / 2)) as [->|N]; [rewrite sin_PI2; lra|].
    (* concavity: sin x - x/2 decreases from PI/3 to PI/2 *)
    destruct (MVT_cor2 sin cos x (PI / 2) ltac:(lra) (fun c _ => derivable_pt_lim_sin c)) as (c & E & I).
    rewrite sin_PI2 in E. assert (cos c <= 1 / 2) by (rewrite <- cos_PI3; apply cos_decr_1; lra).
    assert (0 <= cos c) by (apply cos_ge_0; lra). assert (cos c * (PI / 2 - x) <= 1 / 2 * (PI / 2 - x)) by (apply Rmult_le_compat_r; lra). lra.
Qed.

(** angles in [0, PI] whose cosines differ by at most d *)
Lemma angle_holder a b d : 0 <= a <= PI -> 0 <= b <= PI -> Rabs (cos a - cos b) <= d -> (a - b) * (a - b) <= 8 * d.
Proof.
  assert (W : forall a b, 0 <= a -> a <= b -> b <= PI -> Rabs (cos a - cos b) <= d -> (a - b) * (a - b) <= 8 * d).
  { clear. intros a b Ha Hab Hb H.
    set (m := (a + b) / 2). set (h := (b - a) / 2).
    assert (E : cos a - cos b = 2 * (sin m * sin h)).
    { replace a with (m - h) by (unfold m, h; field). replace b with (m + h) by (unfold m, h; field).
      rewrite cos_minus, cos_plus. ring. }
    assert (Hh : 0 <= h <= PI / 2) by (unfold h; lra).
    pose proof (sin_half h Hh) as S.
    assert (M : sin h <= sin m).
    { destruct (Rle_dec m (PI / 2)).
      - apply sin_incr_1; unfold m, h in *; lra.
      - rewrite <- (sin_PI_x m). apply sin_incr_1; unfold m, h in *; lra. }
    assert (0 <= h / 2) by lra. assert (h / 2 * (h / 2) <= sin m * sin h) by (apply Rmult_le_compat; lra).
    pose proof (Rle_abs (cos a - cos b)). rewrite E in H, H2.
    replace ((a - b) * (a - b)) with (4 * (h * h)) by (unfold h; field). lra. }
  intros Ha Hb H. destruct (Rle_dec a b).
  - apply W; lra.
  - replace ((a - b) * (a - b)) with ((b - a) * (b - a)) by ring. apply W; try lra. rewrite Rabs_minus_sym. exact H.
Qed.

(** away from 0 and PI the angles differ by a multiple of d *)
Lemma angle_lip a b d : PI / 180 <= a <= PI - PI / 180 -> 0 <= b <= PI -> d <= 1e-9 -> Rabs (cos a - cos b) <= d ->
  Rabs (a - b) <= 150 * d.
Proof.
  intros Ha Hb Hd H. pose proof PI_size as P. assert (P3 : 3 < PI) by (pose proof PI_ineq 1; pose proof PI2_3_2; lra).
  pose proof (angle_holder a b d ltac:(lra) Hb H) as K.
  assert (A0 : Rabs (a - b) <= 0.001).
  { assert (B0 : 0 <= Rabs (a - b)) by apply Rabs_pos.
    assert (Q : (a - b) * (a - b) = Rabs (a - b) * Rabs (a - b)) by (rewrite <- Rabs_mult; symmetry; apply Rabs_pos_eq; apply (Rle_0_sqr (a - b))).
    rewrite Q in K. destruct (Rle_dec (Rabs (a - b)) 0.001) as [|G]; [assumption|exfalso]. assert (0.001 * 0.001 <= Rabs (a - b) * Rabs (a - b)) by (apply Rmult_le_compat; lra). lra. }
  apply Rabs_le_inv in A0.
  assert (S : forall c, 0.014 <= c <= PI - 0.014 -> 0.007 <= sin c).
  { intros c Hc. destruct (Rle_dec c (PI / 2)).
    - pose proof (sin_half c ltac:(lra)). lra.
    - rewrite <- (sin_PI_x c). pose proof (sin_half (PI - c) ltac:(lra)). lra. }
  destruct (Req_dec a b) as [->|N]; [rewrite Rminus_diag_eq, Rabs_R0 in * by reflexivity; pose proof (Rabs_pos (cos b - cos b)); lra|].
  assert (W : exists c, cos a - cos b = - sin c * (a - b) /\ 0.014 <= c <= PI - 0.014).
  { destruct (Rlt_dec a b) as [L|L].
    - destruct (MVT_cor2 cos (fun x => - sin x) a b L (fun c _ => derivable_pt_lim_cos c)) as (c & E & I).
      exists c. split; lra.
    - destruct (MVT_cor2 cos (fun x => - sin x) b a ltac:(lra) (fun c _ => derivable_pt_lim_cos c)) as (c & E & I).
      exists c. split; lra. }
  destruct W as (c & E & I). specialize (S c I). rewrite E, Rabs_mult, Rabs_Ropp, (Rabs_pos_eq (sin c)) in H by lra.
  pose proof (Rabs_pos (a - b)). nra.
Qed.

Lemma PI_3 : 3 < PI.
Proof. pose proof PI2_3_2. lra. Qed.

Lemma degrees_f_abs x : Rabs x <= 4 -> Rabs (degrees_f x - x * (180 / PI)) <= 1e-13.
Proof.
  intros Hx. unfold degrees_f. pose proof (near_err 2 _ _ ltac:(cbn; lra) near_to_deg) as E.
  set (c := rn (180 / rn PI)) in *. pose proof PI_size as P. pose proof PI_3 as P3. cbn [INR] in E.
  assert (K : 45 <= 180 / PI <= 60).
  { split; apply Rmult_le_reg_r with PI; try lra; unfold Rdiv; rewrite Rmult_assoc, Rinv_l by lra; lra. }
  rewrite (Rabs_pos_eq (180 / PI)) in E by lra.
  set (k := 180 / PI) in *.
  assert (A : Rabs (x * c - x * k) <= 5.8e-14).
  { replace (x * c - x * k) with (x * (c - k)) by ring. rewrite Rabs_mult.
    apply Rle_trans with (4 * (1.2e-16 * (1 + 1) * 60)); [|lra].
    apply Rmult_le_compat; try apply Rabs_pos; [exact Hx|]. eapply Rle_trans; [exact E|]. apply Rmult_le_compat_l; lra. }
  assert (B : Rabs (x * k) <= 240).
  { rewrite Rabs_mult, (Rabs_pos_eq k) by lra. pose proof (Rabs_pos x). nra. }
  assert (C : Rabs (x * c) <= 241).
  { replace (x * c) with (x * c - x * k + x * k) by ring. eapply Rle_trans; [apply Rabs_triang|]. lra. }
  pose proof (rn_abs (x * c) 241 (tiny_le 241 ltac:(lra)) C) as D. rewrite u_val in D.
  eapply Rle_trans; [apply (tri _ (x * c))|]. lra.
Qed.

(** from radians to the returned degrees *)
Lemma to_degrees e facos c z d : accurate_acos e facos -> e <= 1e-3 -> double c -> Rabs c <= 1 ->
  Rabs (acos c - deg z) <= d -> Rabs (degrees_f (facos c) - z) <= 60 * d + 60 * e + 1e-13.
Proof.
  intros Ha He Dc Hc H. pose proof (Ha c Dc Hc) as A. pose proof (acos_bound c) as B. pose proof PI_3 as P3.
  assert (P4 : PI <= 3.2) by (pose proof PI_close; lra).
  assert (F : Rabs (facos c) <= 4) by (apply Rabs_le_inv in A; apply Rabs_le; lra).
  pose proof (degrees_f_abs _ F) as D.
  assert (K : 0 < 180 / PI <= 60).
  { split; [apply Rmult_lt_0_compat; [lra|apply Rinv_0_lt_compat; lra]|]. apply Rmult_le_reg_r with PI; try lra; unfold Rdiv; rewrite Rmult_assoc, Rinv_l by lra; lra. }
  assert (Z : z = deg z * (180 / PI)) by (unfold deg; field; lra). set (k := 180 / PI) in *.
  eapply Rle_trans; [apply (tri _ (facos c * k))|]. rewrite Z at 1. rewrite <- Rmult_minus_distr_r, Rabs_mult, (Rabs_pos_eq k) by lra.
  assert (Q : Rabs (facos c - deg z) <= e + d) by (eapply Rle_trans; [apply (tri _ (acos c))|]; lra).
  pose proof (Rabs_pos (facos c - deg z)).
  assert (Rabs (facos c - deg z) * k <= (e + d) * 60) by (apply Rmult_le_compat; lra). lra.
Qed.

Section Result.
Variables (e : R) (fcos fsin facos : R -> R) (ts ps t p z : R).
Hypothesis Hc : accurate_within e cos fcos.
Hypothesis Hs : accurate_within e sin fsin.
Hypothesis Ha : accurate_acos e facos.
Hypothesis He : e <= 1e-11.
Hypothesis Hts : Rabs ts <= 360.
Hypothesis Hps : Rabs ps <= 360.
Hypothesis Ht : Rabs t <= 360.
Hypothesis Hp : Rabs p <= 360.
Hypothesis Hz : angle_between ts ps t p z.

Let d := 5.1 * e + 5e-14.
Lemma rad_z : 0 <= deg z <= PI.
Proof. destruct Hz as [B _]. unfold deg. pose proof PI_RGT_0. nra. Qed.

Lemma cos_close : Rabs (cos_zeta_f fcos fsin ts ps t p - cos (deg z)) <= d.
Proof. destruct Hz as [_ ->]. apply cos_zeta_err; try assumption. lra. Qed.

Lemma d_small : 0 <= d <= 1e-10.
Proof. pose proof (acc_nonneg _ _ _ Hc). unfold d. lra. Qed.

Lemma always_close zf : zenith_point_f fcos fsin facos ts ps t p = Some zf ->
  Rabs (zf - z) <= 60 * sqrt (8 * d) + 60 * e + 1e-13.
Proof.
  unfold zenith_point_f. cbv zeta. pose proof cos_close as C. set (c := cos_zeta_f fcos fsin ts ps t p) in *.
  destruct (Rle_dec (Rabs c) 1) as [L|]; [|discriminate]. intros H. injection H as <-.
  apply (to_degrees e); [assumption|lra|apply rn_double|assumption|].
  pose proof (acos_bound c) as B. apply Rabs_le_inv in L. 
  assert (C' : Rabs (cos (acos c) - cos (deg z)) <= d) by (rewrite cos_acos by exact L; exact C).
  pose proof (angle_holder _ _ _ B rad_z C') as K.
  rewrite <- (sqrt_Rsqr_abs (acos c - deg z)). apply sqrt_le_1_alt. exact K.
Qed.

Lemma defined_and_close : 1 <= z <= 179 ->
  exists zf, zenith_point_f fcos fsin facos ts ps t p = Some zf /\ Rabs (zf - z) <= 9000 * d + 60 * e + 1e-13.
Proof.
  intros Z. unfold zenith_point_f. cbv zeta. pose proof cos_close as C. pose proof d_small as D.
  assert (DB : double (cos_zeta_f fcos fsin ts ps t p)) by apply rn_double.
  set (c := cos_zeta_f fcos fsin ts ps t p) in *. pose proof PI_3 as P3. pose proof PI_size as P4.
  assert (Rz : PI / 180 <= deg z <= PI - PI / 180) by (unfold deg; nra).
  assert (Cb : Rabs (cos (deg z)) <= 1 - 1e-6).
  { (* the cosine is away from 1 and -1 *)
    pose proof (sc1 (deg z)) as S.
    assert (Sn : 0.008 <= sin (deg z)).
    { destruct (Rle_dec (deg z) (PI / 2)).
      - pose proof (sin_half (deg z) ltac:(lra)). lra.
      - rewrite <- (sin_PI_x (deg z)). pose proof (sin_half (PI - deg z) ltac:(lra)). lra. }
    assert (S2 : 0.008 * 0.008 <= sin (deg z) * sin (deg z)) by (apply Rmult_le_compat; lra).
    assert (Q : Rabs (cos (deg z)) * Rabs (cos (deg z)) = cos (deg z) * cos (deg z)) by (rewrite <- Rabs_mult; apply Rabs_pos_eq; apply (Rle_0_sqr (cos (deg z)))).
    pose proof (Rabs_pos (cos (deg z))).
    destruct (Rle_dec (Rabs (cos (deg z))) (1 - 1e-6)) as [|G]; [assumption|exfalso].
    assert ((1 - 1e-6) * (1 - 1e-6) <= Rabs (cos (deg z)) * Rabs (cos (deg z))) by (apply Rmult_le_compat; lra). lra. }
  assert (L : Rabs c <= 1).
  { replace c with (c - cos (deg z) + cos (deg z)) by ring. eapply Rle_trans; [apply Rabs_triang|]. lra. }
  destruct (Rle_dec (Rabs c) 1) as [_|]; [|contradiction]. eexists. split; [reflexivity|].
  replace (9000 * d) with (60 * (150 * d)) by ring.
  apply (to_degrees e); [assumption|lra|exact DB|assumption|].
  pose proof (acos_bound c) as B. apply Rabs_le_inv in L.
  assert (C' : Rabs (cos (deg z) - cos (acos c)) <= d) by (rewrite cos_acos by exact L; rewrite Rabs_minus_sym; exact C).
  rewrite Rabs_minus_sym. apply angle_lip; [exact Rz|exact B|lra|exact C'].
Qed.
End Result.
