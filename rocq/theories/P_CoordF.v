(** Proofs about the conversions in double precision *)
From Coq Require Import ZArith Reals List Lia Lra Psatz.
From Flocq Require Import Core.
From Verif Require Import Spec_Coord M_Coord P_Coord P_Coord2 Spec_Float Spec_Rounding P_Float P_Rounding Spec_CoordF M_CoordF.
Open Scope R_scope.

(** ** small facts *)
Lemma normal_range x e : (-1022 <= e)%Z -> powerRZ 2 e <= Rabs x -> normal x.
Proof. intros H A. right. eapply Rle_trans; [|exact A]. rewrite !powerRZ_bpow. apply bpow_le. exact H. Qed.

Lemma range_sqr x : in_range x -> normal (x * x).
Proof.
  intros [->|[A _]]; [left; ring|]. apply (normal_range _ (-600)); [lia|].
  rewrite Rabs_mult. replace (-600)%Z with (-300 + -300)%Z by lia. rewrite powerRZ_add by lra.
  assert (0 <= powerRZ 2 (-300)) by (left; apply powerRZ_lt; lra).
  apply Rmult_le_compat; assumption.
Qed.

Lemma Th_sqrt k q : roundings k q -> roundings k (sqrt q).
Proof.
  intros T. pose proof (Th_pos _ _ T) as P. destruct T as [A B].
  pose proof (pw_pos k) as W. pose proof (pw_le_1 k) as W1. set (w := (1 - u) ^ k) in *.
  assert (I : 1 <= / w) by (rewrite <- Rinv_1; apply Rinv_le_contravar; lra).
  unfold roundings. fold w. split.
  - rewrite <- (sqrt_Rsqr w) by lra. apply sqrt_le_1_alt. unfold Rsqr. nra.
  - rewrite <- (sqrt_Rsqr (/ w)) by lra. apply sqrt_le_1_alt. unfold Rsqr. nra.
Qed.
Lemma Th_sqrt2 k q : roundings (k + k) q -> roundings k (sqrt q).
Proof.
  intros T. pose proof (Th_pos _ _ T) as P. destruct T as [A B].
  pose proof (pw_pos k) as W. unfold roundings. rewrite pow_add in A, B. set (w := (1 - u) ^ k) in *.
  assert (I : 0 < / w) by (apply Rinv_0_lt_compat; lra).
  rewrite Rinv_mult in B. split.
  - rewrite <- (sqrt_Rsqr w) by lra. apply sqrt_le_1_alt. exact A.
  - rewrite <- (sqrt_Rsqr (/ w)) by lra. apply sqrt_le_1_alt. exact B.
Qed.
Lemma near_sqrt2 k x y : 0 <= x -> near (k + k) x y -> near k (sqrt x) (sqrt y).
Proof.
  intros Hx (q & T & ->). exists (sqrt q). split; [apply Th_sqrt2, T|].
  apply sqrt_mult; [exact Hx|]. left. apply (Th_pos _ _ T).
Qed.

(** the square root of a number that is 0 or not too small is normal *)
Lemma normal_sqrt x : 0 <= x -> normal x -> normal (sqrt x).
Proof.
  intros Hx [->|H]; [left; apply sqrt_0|]. right. rewrite Rabs_pos_eq in * by (try apply sqrt_pos; exact Hx).
  eapply Rle_trans; [|apply sqrt_le_1_alt, H].
  replace (-1022)%Z with (-511 + -511)%Z by lia. rewrite powerRZ_add by lra.
  assert (P : 0 < powerRZ 2 (-511)) by (apply powerRZ_lt; lra).
  rewrite sqrt_square by lra. rewrite <- (Rmult_1_l (powerRZ 2 (-511))) at 3.
  apply Rmult_le_compat_r; [lra|].
  replace 1 with (powerRZ 2 0) by reflexivity. rewrite !powerRZ_bpow. apply bpow_le. lia.
Qed.

(** ** the angle of a point *)
Lemma angle_atan2 y x a : angle_of y x a -> a = np_arctan2 y x.
Proof.
  intros (R & C & S & Z). set (r := sqrt (x * x + y * y)) in *.
  assert (R0 : 0 <= r) by apply sqrt_pos. destruct (Req_dec r 0) as [E|N].
  - rewrite E in C, S. assert (x = 0) by lra. assert (y = 0) by lra. rewrite Z by assumption.
    subst x y. unfold np_arctan2. repeat (destruct (Rlt_dec _ _); [lra|]). reflexivity.
  - symmetry. apply (atan2_eq y x r a); [lra|exact R|symmetry; exact S|symmetry; exact C].
Qed.
Lemma atan2_angle y x : angle_of y x (np_arctan2 y x).
Proof.
  split; [apply atan2_range|]. pose proof (atan2_polar y x) as [C S]. cbv zeta in *.
  replace (x ^ 2 + y ^ 2) with (x * x + y * y) in * by ring. split; [exact C|]. split; [exact S|].
  intros -> ->. unfold np_arctan2. repeat (destruct (Rlt_dec _ _); [lra|]). reflexivity.
Qed.

(** ** how the angle of (s, z) changes with s *)
Lemma sin_le_abs a : Rabs (sin a) <= Rabs a.
Proof.
  destruct (Rle_dec 0 a) as [H|H].
  - pose proof (MVT_cor2 sin cos 0 a) as M. destruct (Req_dec a 0) as [->|N]; [rewrite sin_0; lra|].
    destruct (M ltac:(lra) (fun c _ => derivable_pt_lim_sin c)) as (c & E & _).
    rewrite sin_0 in E. replace (sin a) with (cos c * a) by lra.
    rewrite Rabs_mult. pose proof (COS_bound c). assert (Rabs (cos c) <= 1) by (apply Rabs_le; lra).
    pose proof (Rabs_pos a). nra.
  - pose proof (MVT_cor2 sin cos a 0) as M.
    destruct (M ltac:(lra) (fun c _ => derivable_pt_lim_sin c)) as (c & E & _).
    rewrite sin_0 in E. replace (sin a) with (cos c * a) by lra.
    rewrite Rabs_mult. pose proof (COS_bound c). assert (Rabs (cos c) <= 1) by (apply Rabs_le; lra).
    pose proof (Rabs_pos a). nra.
Qed.

Lemma atan_mvt a b : a < b -> exists c, atan b - atan a = / (1 + c * c) * (b - a) /\ a < c < b.
Proof.
  intros H. destruct (MVT_cor2 atan (fun x => / (1 + x ^ 2)) a b H (fun c _ => derivable_pt_lim_atan c)) as (c & E & I).
  exists c. split; [|exact I]. rewrite E. do 3 f_equal. ring.
Qed.

Lemma atan_scale a q : 0 <= a -> 1 <= q -> atan a <= atan (q * a) <= q * atan a.
Proof.
  intros Ha Hq. destruct (Req_dec a 0) as [->|N]; [rewrite Rmult_0_r, atan_0; lra|].
  destruct (Req_dec q 1) as [->|N']; [rewrite !Rmult_1_l; lra|].
  destruct (atan_mvt 0 a ltac:(lra)) as (d & Ed & Id). rewrite atan_0 in Ed.
  destruct (atan_mvt a (q * a) ltac:(nra)) as (c & Ec & Ic).
  assert (Hd : / (1 + a * a) <= / (1 + d * d)) by (apply Rinv_le_contravar; nra).
  assert (Hc : / (1 + c * c) <= / (1 + a * a)) by (apply Rinv_le_contravar; nra).
  assert (Hc0 : 0 < / (1 + c * c)) by (apply Rinv_0_lt_compat; nra).
  set (i := / (1 + a * a)) in *. set (ic := / (1 + c * c)) in *. set (id := / (1 + d * d)) in *.
  assert (E : q * a - a = (q - 1) * a) by ring. rewrite E in Ec.
  assert (0 <= (q - 1) * a) by nra.
  assert (ic * ((q - 1) * a) <= i * ((q - 1) * a)) by (apply Rmult_le_compat_r; assumption).
  assert (i * a <= id * a) by (apply Rmult_le_compat_r; assumption).
  assert ((q - 1) * (i * a) <= (q - 1) * (id * a)) by (apply Rmult_le_compat_l; lra).
  split; [nra|]. nra.
Qed.

Lemma atan_nonneg a : 0 <= a -> 0 <= atan a < PI / 2.
Proof.
  intros H. pose proof (atan_bound a). split; [|lra]. destruct (Req_dec a 0) as [->|N]; [rewrite atan_0; lra|].
  left. rewrite <- atan_0. apply atan_increasing. lra.
Qed.

(** a factor q >= 1 on s *)
Lemma atan2_scale s z q : 0 <= s -> 1 <= q ->
  Rabs (np_arctan2 (s * q) z - np_arctan2 s z) <= (q - 1) * np_arctan2 s z /\
  Rabs (np_arctan2 (s * q) z - np_arctan2 s z) <= (q - 1) * np_arctan2 (s * q) z.
Proof.
  intros Hs Hq. assert (Hsq : 0 <= s * q) by nra.
  pose proof (atan2_nonneg s z Hs) as N1. pose proof (atan2_nonneg (s * q) z Hsq) as N2.
  split.
  - unfold np_arctan2 in *. destruct (Rlt_dec 0 z) as [Hz|Hz].
    + replace (s * q / z) with (q * (s / z)) in * by (field; lra).
      assert (0 <= s / z) by (apply Rmult_le_pos; [lra|left; apply Rinv_0_lt_compat; lra]).
      destruct (atan_scale (s / z) q) as [A B]; [assumption..|]. rewrite Rabs_pos_eq by lra. lra.
    + destruct (Rlt_dec z 0) as [Hz'|Hz'].
      * destruct (Rle_dec 0 s) as [_|]; [|lra]. destruct (Rle_dec 0 (s * q)) as [_|]; [|lra].
        set (b := s / - z).
        assert (Hb : 0 <= b) by (apply Rmult_le_pos; [lra|left; apply Rinv_0_lt_compat; lra]).
        replace (s / z) with (- b) in * by (unfold b; field; lra).
        replace (s * q / z) with (- (q * b)) in * by (unfold b; field; lra).
        rewrite !atan_opp in *. destruct (atan_scale b q Hb Hq) as [A B]. destruct (atan_nonneg b Hb).
        pose proof PI_RGT_0.
        rewrite Rabs_left1 by lra. nra.
      * assert (z = 0) by lra. subst z. destruct (Rlt_dec 0 s).
        -- destruct (Rlt_dec 0 (s * q)); [|nra]. rewrite Rminus_diag_eq, Rabs_R0 by reflexivity. pose proof PI_RGT_0. nra.
        -- assert (s = 0) by lra. subst s. rewrite Rmult_0_l. destruct (Rlt_dec 0 0); [lra|].
           rewrite Rminus_diag_eq, Rabs_R0 by reflexivity. lra.
  - unfold np_arctan2 in *. destruct (Rlt_dec 0 z) as [Hz|Hz].
    + replace (s * q / z) with (q * (s / z)) in * by (field; lra).
      assert (0 <= s / z) by (apply Rmult_le_pos; [lra|left; apply Rinv_0_lt_compat; lra]).
      destruct (atan_scale (s / z) q) as [A B]; [assumption..|]. rewrite Rabs_pos_eq by lra. nra.
    + destruct (Rlt_dec z 0) as [Hz'|Hz'].
      * destruct (Rle_dec 0 s) as [_|]; [|lra]. destruct (Rle_dec 0 (s * q)) as [_|]; [|lra].
        set (b := s / - z).
        assert (Hb : 0 <= b) by (apply Rmult_le_pos; [lra|left; apply Rinv_0_lt_compat; lra]).
        replace (s / z) with (- b) in * by (unfold b; field; lra).
        replace (s * q / z) with (- (q * b)) in * by (unfold b; field; lra).
        rewrite !atan_opp in *. destruct (atan_scale b q Hb Hq) as [A B]. destruct (atan_nonneg b Hb).
        assert (Hqb : 0 <= q * b) by nra. destruct (atan_nonneg (q * b) Hqb).
        pose proof PI_RGT_0.
        rewrite Rabs_left1 by lra. nra.
      * assert (z = 0) by lra. subst z. destruct (Rlt_dec 0 s).
        -- destruct (Rlt_dec 0 (s * q)); [|nra]. rewrite Rminus_diag_eq, Rabs_R0 by reflexivity. pose proof PI_RGT_0. nra.
        -- assert (s = 0) by lra. subst s. rewrite Rmult_0_l. destruct (Rlt_dec 0 0); [lra|].
           rewrite Rminus_diag_eq, Rabs_R0 by reflexivity. lra.
Qed.

Lemma ratio_roundings q r : 1 <= q -> q <= / (1 - u) ^ 2 -> 2 - q <= r <= q -> roundings 3 r.
Proof.
  intros Hq H [A B]. pose proof (pw_pos 2) as W2. pose proof (pw_pos 3) as W3. unfold roundings. split.
  - apply Rle_trans with (2 - q); [|exact A]. apply Rle_trans with (2 - / (1 - u) ^ 2); [|lra].
    apply Rmult_le_reg_r with ((1 - u) ^ 2); [exact W2|]. rewrite Rmult_minus_distr_r, Rinv_l by lra.
    rewrite u_val. cbn [pow]. lra.
  - apply Rle_trans with q; [exact B|]. eapply Rle_trans; [exact H|]. apply Rinv_le_contravar; [exact W3|].
    cbn [pow] in *. pose proof u_pos. nra.
Qed.

Lemma atan2_near s z s' : 0 <= s -> near 2 s s' -> near 3 (np_arctan2 s z) (np_arctan2 s' z).
Proof.
  intros Hs (q & T & ->). pose proof (Th_pos _ _ T) as Pq.
  pose proof (atan2_nonneg s z Hs) as N1.
  set (a := np_arctan2 s z) in *.
  destruct (Req_dec a 0) as [E0|NZ].
  - (* both angles are 0 *)
    exists 1. split; [apply Th_0|]. rewrite E0, Rmult_0_l.
    destruct (Rle_dec 1 q) as [Hq|Hq].
    + destruct (atan2_scale s z q Hs Hq) as [A _]. fold a in A. rewrite E0, Rmult_0_r in A.
      pose proof (Rabs_pos (np_arctan2 (s * q) z - 0)). pose proof (Rabs_pos_eq _ (Rle_refl 0)).
      assert (Rabs (np_arctan2 (s * q) z - 0) = 0) as Z by lra.
      destruct (Req_dec (np_arctan2 (s * q) z - 0) 0) as [|N]; [lra|]. apply Rabs_no_R0 in N. lra.
    + assert (Hi : 1 <= / q) by (rewrite <- Rinv_1; apply Rinv_le_contravar; lra).
      assert (Hsq : 0 <= s * q) by nra.
      destruct (atan2_scale (s * q) z (/ q) Hsq Hi) as [_ A].
      replace (s * q * / q) with s in A by (field; lra). fold a in A. rewrite E0, Rmult_0_r in A.
      pose proof (Rabs_pos (0 - np_arctan2 (s * q) z)).
      destruct (Req_dec (0 - np_arctan2 (s * q) z) 0) as [|N]; [lra|]. apply Rabs_no_R0 in N. lra.
  - exists (np_arctan2 (s * q) z / a). split; [|field; exact NZ].
    assert (Pa : 0 < a) by lra. assert (U2 : q <= / (1 - u) ^ 2) by apply T.
    destruct (Rle_dec 1 q) as [Hq|Hq].
    + destruct (atan2_scale s z q Hs Hq) as [A _]. fold a in A. apply Rabs_le_inv in A.
      apply (ratio_roundings q); [exact Hq|exact U2|].
      split; apply Rmult_le_reg_r with a; try exact Pa; unfold Rdiv; rewrite Rmult_assoc, Rinv_l by lra; nra.
    + assert (Hi : 1 <= / q) by (rewrite <- Rinv_1; apply Rinv_le_contravar; lra).
      assert (Hsq : 0 <= s * q) by nra.
      destruct (atan2_scale (s * q) z (/ q) Hsq Hi) as [_ A].
      replace (s * q * / q) with s in A by (field; lra). fold a in A. apply Rabs_le_inv in A.
      apply (ratio_roundings (/ q)); [exact Hi|apply Rinv_le_contravar; [apply pw_pos|apply T]|].
      split; apply Rmult_le_reg_r with a; try exact Pa; unfold Rdiv; rewrite Rmult_assoc, Rinv_l by lra; nra.
Qed.

(** ** sizes *)
Lemma near_half k x y : INR k <= 1000000 -> near k x y -> Rabs x / 2 <= Rabs y <= 2 * Rabs x.
Proof.
  intros H N. pose proof (near_err k x y H N) as E. pose proof (pos_INR k).
  assert (Rabs (y - x) <= Rabs x / 2).
  { eapply Rle_trans; [exact E|]. pose proof (Rabs_pos x). nra. }
  assert (Rabs y <= Rabs (y - x) + Rabs x) by (replace y with (y - x + x) at 1 by ring; apply Rabs_triang).
  assert (Rabs x <= Rabs (y - x) + Rabs y).
  { replace x with (- (y - x) + y) at 1 by ring. eapply Rle_trans; [apply Rabs_triang|]. rewrite Rabs_Ropp. lra. }
  lra.
Qed.

Lemma large_mono e e' x : (e' <= e)%Z -> large e x -> large e' x.
Proof.
  intros H [A|A]; [left; exact A|right]. eapply Rle_trans; [|exact A]. rewrite !powerRZ_bpow. apply bpow_le. exact H.
Qed.
Lemma large_near k e x y : INR k <= 1000000 -> near k x y -> large e x -> large (e - 1) y.
Proof.
  intros H N [->|A]; [left; apply (near_zero k), N|right]. destruct (near_half k x y H N) as [B _].
  replace (e - 1)%Z with (e + -1)%Z by lia. rewrite powerRZ_add by lra. change (powerRZ 2 (-1)) with (/ (2 * 1)). lra.
Qed.
Lemma large_normal e x : (-1022 <= e)%Z -> large e x -> normal x.
Proof. intros H L. destruct (large_mono e (-1022) x H L) as [A|A]; [left|right]; exact A. Qed.

Lemma angle_large y x a : large (-301) y -> Rabs y <= powerRZ 2 301 -> Rabs x <= powerRZ 2 301 -> angle_of y x a ->
  large (-603) a.
Proof.
  intros Ly By Bx (Ra & C & S & Z). set (r := sqrt (x * x + y * y)) in *.
  assert (R0 : 0 <= r) by apply sqrt_pos. destruct Ly as [->|Ly].
  - destruct (Req_dec x 0) as [->|N]; [left; apply Z; reflexivity|].
    assert (Hr : r = Rabs x) by (unfold r; rewrite Rmult_0_l, Rplus_0_r; apply sqrt_Rsqr_abs).
    assert (P : 0 < r) by (rewrite Hr; apply Rabs_pos_lt, N).
    assert (Hs : sin a = 0) by nra. destruct (Rlt_dec 0 x) as [Px|Px].
    + left. rewrite Hr, Rabs_pos_eq in C by lra. assert (cos a = 1) by nra. apply angle_unique; [exact Ra|pose proof PI_RGT_0; lra| |].
      * rewrite cos_0; assumption. * rewrite sin_0; assumption.
    + right. rewrite Hr, Rabs_left1 in C by lra. assert (cos a = -1) by nra.
      assert (a = PI). { apply angle_unique; [exact Ra|pose proof PI_RGT_0; lra| |]. rewrite cos_PI; assumption. rewrite sin_PI; assumption. }
      subst a. pose proof PI2_1. rewrite Rabs_pos_eq by lra. apply Rle_trans with (powerRZ 2 0); [rewrite !powerRZ_bpow; apply bpow_le; lia|]. cbn. lra.
  - right. eapply Rle_trans; [|apply sin_le_abs].
    assert (P : 0 < powerRZ 2 (-301)) by (apply powerRZ_lt; lra).
    assert (Br : r <= powerRZ 2 302).
    { apply Rle_trans with (Rabs x + Rabs y).
      - unfold r. rewrite <- (sqrt_Rsqr (Rabs x + Rabs y)) by (pose proof (Rabs_pos x); pose proof (Rabs_pos y); lra).
        apply sqrt_le_1_alt. unfold Rsqr. pose proof (Rabs_pos x). pose proof (Rabs_pos y).
        assert (x * x = Rabs x * Rabs x) by (rewrite <- Rabs_mult; symmetry; apply Rabs_pos_eq; nra).
        assert (y * y = Rabs y * Rabs y) by (rewrite <- Rabs_mult; symmetry; apply Rabs_pos_eq; nra). nra.
      - replace 302%Z with (1 + 301)%Z by lia. rewrite powerRZ_add by lra. change (powerRZ 2 1) with (2 * 1). lra. }
    assert (P2 : 0 < powerRZ 2 302) by (apply powerRZ_lt; lra).
    assert (E : Rabs y = r * Rabs (sin a)) by (rewrite <- S at 1; rewrite Rabs_mult, (Rabs_pos_eq r) by exact R0; reflexivity).
    apply Rmult_le_reg_l with (powerRZ 2 302); [exact P2|]. rewrite <- powerRZ_add by lra.
    change (302 + -603)%Z with (-301)%Z. rewrite E in Ly. pose proof (Rabs_pos (sin a)). nra.
Qed.

(** ** degrees and radians *)
Lemma PI_size : 2 < PI <= 4.
Proof. pose proof PI2_1. pose proof PI_4. lra. Qed.
Lemma near_PI : near 1 PI (rn PI).
Proof.
  apply near_rn. right. pose proof PI_size. rewrite Rabs_pos_eq by lra.
  apply Rle_trans with (powerRZ 2 0); [rewrite !powerRZ_bpow; apply bpow_le; lia|]. cbn. lra.
Qed.
Lemma rn_PI_size : 1 <= rn PI <= 8.
Proof.
  destruct (near_half 1 _ _ ltac:(cbn; lra) near_PI) as [A B]. pose proof PI_size.
  assert (0 <= rn PI) by (apply rn_ge; [apply (double_int 0); lia|lra]).
  rewrite !Rabs_pos_eq in * by lra. lra.
Qed.
Lemma near_to_deg : near 2 (180 / PI) (rn (180 / rn PI)).
Proof.
  apply (near_trans 1 1 _ (180 / rn PI)).
  - replace 1%nat with (0 + 1)%nat by lia. apply near_div; [apply near_refl|apply near_PI].
  - apply near_rn. right. pose proof rn_PI_size.
    assert (1 <= 180 / rn PI) by (apply Rmult_le_reg_r with (rn PI); [lra|]; unfold Rdiv; rewrite Rmult_assoc, Rinv_l by lra; lra).
    rewrite Rabs_pos_eq by lra.
    apply Rle_trans with (powerRZ 2 0); [rewrite !powerRZ_bpow; apply bpow_le; lia|]. cbn. lra.
Qed.
Lemma near_to_rad : near 2 (PI / 180) (rn (rn PI / 180)).
Proof.
  apply (near_trans 1 1 _ (rn PI / 180)).
  - replace 1%nat with (1 + 0)%nat by lia. apply near_div; [apply near_PI|apply near_refl].
  - apply near_rn. right. pose proof rn_PI_size. rewrite Rabs_pos_eq by lra.
    apply Rle_trans with (powerRZ 2 (-8)); [rewrite !powerRZ_bpow; apply bpow_le; lia|].
    replace (powerRZ 2 (-8)) with (/ 256) by (rewrite powerRZ_bpow; reflexivity). lra.
Qed.

Lemma degrees_f_near x : large (-700) x -> near 3 (np_degrees x) (degrees_f x).
Proof.
  intros L. unfold np_degrees, degrees_f. apply (near_trans 2 1 _ (x * rn (180 / rn PI))).
  - apply (near_mul 0 2); [apply near_refl|apply near_to_deg].
  - apply near_rn. destruct L as [->|L]; [left; ring|].
    apply (normal_range _ (-700)); [lia|]. rewrite Rabs_mult.
    destruct (near_half 2 _ _ ltac:(cbn; lra) near_to_deg) as [A _]. pose proof PI_size.
    assert (45 <= 180 / PI) by (apply Rmult_le_reg_r with PI; [lra|]; unfold Rdiv; rewrite Rmult_assoc, Rinv_l by lra; lra).
    rewrite (Rabs_pos_eq (180 / PI)) in A by lra. pose proof (Rabs_pos x). nra.
Qed.

(** ** cartesian_to_spherical *)
Lemma sum_squares x y : in_range x -> in_range y -> near 2 (x * x + y * y) (rn (rn (x * x) + rn (y * y))).
Proof.
  intros Hx Hy. apply (near_trans 1 1 _ (rn (x * x) + rn (y * y))).
  - apply near_add; [nra|nra|apply near_rn, range_sqr, Hx|apply near_rn, range_sqr, Hy].
  - apply near_plus; apply rn_double.
Qed.
Lemma sum_squares3 x y z : in_range x -> in_range y -> in_range z ->
  near 3 (x * x + y * y + z * z) (rn (rn (rn (x * x) + rn (y * y)) + rn (z * z))).
Proof.
  intros Hx Hy Hz. apply (near_trans 2 1 _ (rn (rn (x * x) + rn (y * y)) + rn (z * z))).
  - apply near_add; [nra|nra|apply sum_squares; assumption|apply (near_mono 1); [lia|]; apply near_rn, range_sqr, Hz].
  - apply near_plus; apply rn_double.
Qed.

Lemma range_sqr_large x : in_range x -> large (-600) (x * x).
Proof.
  intros [->|[A _]]; [left; ring|right].
  rewrite Rabs_mult. replace (-600)%Z with (-300 + -300)%Z by lia. rewrite powerRZ_add by lra.
  assert (0 <= powerRZ 2 (-300)) by (left; apply powerRZ_lt; lra).
  apply Rmult_le_compat; assumption.
Qed.
Lemma large_add e a b : 0 <= a -> 0 <= b -> large e a -> large e b -> large e (a + b).
Proof.
  intros Ha Hb [->|A] B; [rewrite Rplus_0_l; exact B|]. right. rewrite Rabs_pos_eq in * by lra. lra.
Qed.
Lemma large_sqrt e x : 0 <= x -> large (e + e) x -> large e (sqrt x).
Proof.
  intros Hx [->|H]; [left; apply sqrt_0|right]. rewrite Rabs_pos_eq in * by (try apply sqrt_pos; exact Hx).
  eapply Rle_trans; [|apply sqrt_le_1_alt, H]. rewrite powerRZ_add by lra.
  assert (P : 0 < powerRZ 2 e) by (apply powerRZ_lt; lra). rewrite sqrt_square by lra. lra.
Qed.

Lemma near_hyp x y : in_range x -> in_range y ->
  near 2 (sqrt (x * x + y * y)) (rn (sqrt (rn (rn (x * x) + rn (y * y))))).
Proof.
  intros Hx Hy. pose proof (sum_squares x y Hx Hy) as N.
  assert (P : 0 <= x * x + y * y) by nra.
  apply (near_trans 1 1 _ (sqrt (rn (rn (x * x) + rn (y * y))))).
  - apply near_sqrt2; [exact P|exact N].
  - apply near_rn. apply (large_normal (-301)); [lia|]. apply large_sqrt; [eapply near_nonneg; [exact P|exact N]|].
    apply (large_mono (-600 - 1)); [lia|]. apply (large_near 2 _ (x * x + y * y)); [cbn; lra|exact N|].
    apply large_add; [nra|nra|apply range_sqr_large, Hx|apply range_sqr_large, Hy].
Qed.
Lemma near_len x y z : in_range x -> in_range y -> in_range z ->
  near 3 (sqrt (x * x + y * y + z * z)) (rn (sqrt (rn (rn (rn (x * x) + rn (y * y)) + rn (z * z))))).
Proof.
  intros Hx Hy Hz. pose proof (sum_squares3 x y z Hx Hy Hz) as N.
  assert (P : 0 <= x * x + y * y + z * z) by nra.
  apply (near_trans 2 1 _ (sqrt (rn (rn (rn (x * x) + rn (y * y)) + rn (z * z))))).
  - apply near_sqrt2; [exact P|]. apply (near_mono 3); [lia|exact N].
  - apply near_rn. apply (large_normal (-301)); [lia|]. apply large_sqrt; [eapply near_nonneg; [exact P|exact N]|].
    apply (large_mono (-600 - 1)); [lia|]. apply (large_near 3 _ (x * x + y * y + z * z)); [cbn; lra|exact N|].
    apply large_add; [nra|nra| |apply range_sqr_large, Hz].
    apply large_add; [nra|nra|apply range_sqr_large, Hx|apply range_sqr_large, Hy].
Qed.

Lemma range_large x : in_range x -> large (-301) x /\ Rabs x <= powerRZ 2 301.
Proof.
  intros [->|[A B]].
  - split; [left; reflexivity|]. rewrite Rabs_R0. left. apply powerRZ_lt. lra.
  - split; [right|]; (eapply Rle_trans; [|eassumption]) || (eapply Rle_trans; [eassumption|]); rewrite !powerRZ_bpow; apply bpow_le; lia.
Qed.

Lemma cart_to_sph_near p fatan2 v : accurate_atan2 p fatan2 -> INR p <= 1000 -> cart_in_range v ->
  let '(r, t, f) := cartesian_to_spherical v in
  let '(r', t', f') := cartesian_to_spherical_f fatan2 v in
  near 3 r r' /\ near (p + 6) t t' /\ near (p + 3) f f'.
Proof.
  intros Acc Hp ((Dx & Rx) & (Dy & Ry) & (Dz & Rz)). unfold cartesian_to_spherical, cartesian_to_spherical_f.
  set (x := vx v) in *. set (y := vy v) in *. set (z := vz v) in *.
  replace (x ^ 2 + y ^ 2 + z ^ 2) with (x * x + y * y + z * z) by ring.
  replace (x ^ 2 + y ^ 2) with (x * x + y * y) by ring.
  destruct (range_large x Rx) as [Lx Bx]. destruct (range_large y Ry) as [Ly By]. destruct (range_large z Rz) as [Lz Bz].
  split; [apply near_len; assumption|]. split.
  - pose proof (near_hyp x y Rx Ry) as N. set (s0 := sqrt (x * x + y * y)) in *.
    set (s := rn (sqrt (rn (rn (x * x) + rn (y * y))))) in *.
    assert (S0 : 0 <= s0) by apply sqrt_pos.
    pose proof (atan2_near s0 z s S0 N) as A. pose proof (atan2_angle s0 z) as A0.
    assert (L0 : large (-603) (np_arctan2 s0 z)).
    { apply (angle_large s0 z); [| |exact Bz|exact A0].
      - apply (large_mono (-300)); [lia|]. apply large_sqrt; [nra|].
        apply large_add; [nra|nra|apply range_sqr_large, Rx|apply range_sqr_large, Ry].
      - assert (B : s0 <= sqrt (powerRZ 2 601)).
        { apply sqrt_le_1_alt.
          assert (Q : forall w, in_range w -> w * w <= powerRZ 2 600).
          { intros w [->|[_ W]]; [rewrite Rmult_0_l; left; apply powerRZ_lt; lra|].
            replace (w * w) with (Rabs w * Rabs w) by (rewrite <- Rabs_mult; apply Rabs_pos_eq; nra).
            replace 600%Z with (300 + 300)%Z by lia. rewrite powerRZ_add by lra. apply Rmult_le_compat; try apply Rabs_pos; exact W. }
          pose proof (Q x Rx). pose proof (Q y Ry). replace 601%Z with (1 + 600)%Z by lia. rewrite powerRZ_add by lra.
          change (powerRZ 2 1) with (2 * 1). lra. }
        rewrite Rabs_pos_eq by exact S0. eapply Rle_trans; [exact B|].
        rewrite <- (sqrt_square (powerRZ 2 301)) by (left; apply powerRZ_lt; lra). apply sqrt_le_1_alt.
        rewrite <- powerRZ_add by lra. rewrite !powerRZ_bpow. apply bpow_le. lia. }
    pose proof (large_near 3 _ _ _ ltac:(cbn; lra) A L0) as L1.
    pose proof (Acc s z _ (rn_double _) Dz (atan2_angle s z) (large_normal (-604) _ ltac:(lia) L1)) as A2.
    pose proof (large_near p _ _ _ ltac:(lra) A2 L1) as L2.
    pose proof (degrees_f_near _ (large_mono (-603 - 1 - 1) (-700) _ ltac:(lia) L2)) as A3.
    replace (p + 6)%nat with (3 + p + 3)%nat by lia. eapply near_trans; [|exact A3].
    unfold np_degrees. replace (3 + p)%nat with (3 + p + 0)%nat by lia. apply near_mul; [|apply near_refl].
    eapply near_trans; eassumption.
  - pose proof (atan2_angle y x) as A0. pose proof (angle_large y x _ Ly By Bx A0) as L1.
    pose proof (Acc y x _ Dy Dx A0 (large_normal (-603) _ ltac:(lia) L1)) as A2.
    pose proof (large_near p _ _ _ ltac:(lra) A2 L1) as L2.
    pose proof (degrees_f_near _ (large_mono (-603 - 1) (-700) _ ltac:(lia) L2)) as A3.
    eapply near_trans; [|exact A3]. unfold np_degrees. replace p with (p + 0)%nat at 1 by lia.
    apply near_mul; [exact A2|apply near_refl].
Qed.

Lemma spherical_unique v r t f : spherical_of v r t f -> cartesian_to_spherical v = (r, t, f).
Proof.
  intros (E & R0 & Ht & Hf & Z). subst v. cbn [vx vy vz vscale direction] in *.
  unfold cartesian_to_spherical. cbn [vx vy vz vscale direction].
  assert (Pi : 0 < PI) by apply PI_RGT_0.
  assert (Hdt : 0 <= deg t <= PI) by (unfold deg; nra).
  assert (Hdf : - PI < deg f <= PI) by (unfold deg; nra).
  assert (Hs : 0 <= sin (deg t)) by (apply sin_ge_0; lra).
  assert (Dt : np_degrees (deg t) = t) by (unfold np_degrees, deg; field; lra).
  assert (Df : np_degrees (deg f) = f) by (unfold np_degrees, deg; field; lra).
  set (a := deg t) in *. set (b := deg f) in *.
  replace ((r * (sin a * cos b)) ^ 2 + (r * (sin a * sin b)) ^ 2 + (r * cos a) ^ 2) with (r ^ 2).
  2: { pose proof (sc1 a) as A. pose proof (sc1 b) as B.
       transitivity (r ^ 2 * (sin a * sin a * (sin b * sin b + cos b * cos b) + cos a * cos a)); [|ring].
       rewrite B, Rmult_1_r, A. ring. }
  replace ((r * (sin a * cos b)) ^ 2 + (r * (sin a * sin b)) ^ 2) with ((r * sin a) ^ 2).
  2: { pose proof (sc1 b) as B.
       transitivity ((r * sin a) ^ 2 * (sin b * sin b + cos b * cos b)); [rewrite B|]; ring. }
  rewrite !sqrt_pow2 by nra.
  destruct (Req_dec r 0) as [->|N].
  - destruct (Z ltac:(ring) ltac:(ring)) as [Ef Et]. specialize (Et ltac:(ring)).
    rewrite !Rmult_0_l. unfold np_arctan2. repeat (destruct (Rlt_dec _ _); [lra|]).
    unfold np_degrees. rewrite Rmult_0_l, Et, Ef. reflexivity.
  - rewrite (atan2_eq (r * sin a) (r * cos a) r a) by (try reflexivity; lra). rewrite Dt. f_equal.
    destruct (Req_dec (sin a) 0) as [E0|NZ].
    + rewrite E0, !Rmult_0_l, Rmult_0_r. destruct (Z ltac:(rewrite E0; ring) ltac:(rewrite E0; ring)) as [Ef _].
      unfold np_arctan2. repeat (destruct (Rlt_dec _ _); [lra|]). unfold np_degrees. rewrite Rmult_0_l. symmetry. exact Ef.
    + rewrite (atan2_eq _ _ (r * sin a) b) by (try ring; try exact Hdf; nra). exact Df.
Qed.

Lemma spherical_exists v : let '(r, t, f) := cartesian_to_spherical v in spherical_of v r t f.
Proof.
  pose proof (sph_cart v) as E. pose proof (theta_range v) as T. pose proof (phi_range v) as F.
  pose proof (cart_radius v) as Er.
  assert (Z : vx v = 0 -> vy v = 0 -> snd (cartesian_to_spherical v) = 0 /\ (vz v = 0 -> snd (fst (cartesian_to_spherical v)) = 0)).
  { intros X Y. unfold cartesian_to_spherical. cbn [fst snd]. rewrite X, Y. split.
    - unfold np_arctan2. repeat (destruct (Rlt_dec _ _); [lra|]). unfold np_degrees. ring.
    - intros ->. replace (0 ^ 2 + 0 ^ 2) with 0 by ring. rewrite sqrt_0.
      unfold np_arctan2. repeat (destruct (Rlt_dec _ _); [lra|]). unfold np_degrees. ring. }
  destruct (cartesian_to_spherical v) as [[r t] f]. cbn [fst snd] in *.
  split; [rewrite <- E; unfold vscale, direction, spherical_to_cartesian, np_radians, deg; cbn [vx vy vz]; f_equal; ring|]. split; [rewrite Er; apply sqrt_pos|].
  split; [exact T|]. split; [exact F|]. exact Z.
Qed.

(** ** spherical_to_cartesian *)
Lemma rn_abs x B : powerRZ 2 (-1000) <= B -> Rabs x <= B -> Rabs (rn x - x) <= u * B.
Proof.
  intros HB Hx. pose proof u_pos as U. rewrite powerRZ_bpow in HB.
  destruct (Rle_dec (bpow radix2 (-1022)) (Rabs x)) as [H|H].
  - destruct (rn_rel x H) as (d & Hd & ->). replace (x * (1 + d) - x) with (d * x) by ring.
    rewrite Rabs_mult. rewrite <- u_bpow in Hd. apply Rmult_le_compat; try apply Rabs_pos; assumption.
  - assert (L : Rabs x <= bpow radix2 (-1020)).
    { apply Rle_trans with (bpow radix2 (-1022)); [lra|]. apply bpow_le. lia. }
    eapply Rle_trans; [apply (rn_err x (-1020)); [lia|exact L]|].
    apply Rle_trans with (u * bpow radix2 (-1000)); [|apply Rmult_le_compat_l; lra].
    rewrite u_bpow, <- bpow_plus. apply bpow_le. lia.
Qed.

Lemma radians_f_err x : Rabs x <= 360 -> Rabs (radians_f x - deg x) <= 3e-15.
Proof.
  intros Hx. unfold radians_f, deg. pose proof (near_err 2 _ _ ltac:(cbn; lra) near_to_rad) as E.
  set (c := rn (rn PI / 180)) in *. pose proof PI_size as P. cbn [INR] in E.
  rewrite (Rabs_pos_eq (PI / 180)) in E by lra.
  assert (A : Rabs (x * c - x * (PI / 180)) <= 360 * (1.2e-16 * (1 + 1) * (PI / 180))).
  { replace (x * c - x * (PI / 180)) with (x * (c - PI / 180)) by ring. rewrite Rabs_mult.
    apply Rmult_le_compat; try apply Rabs_pos; assumption. }
  assert (A' : Rabs (x * c - x * (PI / 180)) <= 2e-15) by lra.
  assert (B : Rabs (x * (PI / 180)) <= 8).
  { rewrite Rabs_mult, (Rabs_pos_eq (PI / 180)) by lra. pose proof (Rabs_pos x). nra. }
  assert (Cc : Rabs (x * c) <= 9).
  { replace (x * c) with (x * c - x * (PI / 180) + x * (PI / 180)) by ring. eapply Rle_trans; [apply Rabs_triang|]. lra. }
  pose proof (rn_abs (x * c) 9) as D.
  assert (H9 : powerRZ 2 (-1000) <= 9).
  { apply Rle_trans with (powerRZ 2 0); [rewrite !powerRZ_bpow; apply bpow_le; lia|]. cbn. lra. }
  specialize (D H9 Cc). rewrite u_val in D.
  replace (rn (x * c) - x * (PI / 180)) with (rn (x * c) - x * c + (x * c - x * (PI / 180))) by ring.
  eapply Rle_trans; [apply Rabs_triang|]. lra.
Qed.

Lemma sin_lip a b : Rabs (sin a - sin b) <= Rabs (a - b).
Proof.
  assert (W : forall a b, a < b -> Rabs (sin b - sin a) <= Rabs (b - a)).
  { clear. intros a b H. destruct (MVT_cor2 sin cos a b H (fun c _ => derivable_pt_lim_sin c)) as (c & -> & _).
    rewrite Rabs_mult. pose proof (COS_bound c). assert (Rabs (cos c) <= 1) by (apply Rabs_le; lra).
    pose proof (Rabs_pos (b - a)). nra. }
  destruct (Rtotal_order a b) as [H|[->|H]].
  - rewrite (Rabs_minus_sym (sin a)), (Rabs_minus_sym a). apply W, H.
  - rewrite !Rminus_diag_eq by reflexivity. lra.
  - apply W. lra.
Qed.
Lemma cos_lip a b : Rabs (cos a - cos b) <= Rabs (a - b).
Proof.
  rewrite !cos_sin. eapply Rle_trans; [apply sin_lip|]. right. f_equal. ring.
Qed.

(** one product *)
Lemma product_err r c c0 B E : powerRZ 2 (-1000) <= B -> Rabs r <= B -> Rabs c0 <= 1 -> Rabs (c - c0) <= E -> E <= 1 ->
  Rabs (rn (r * c) - r * c0) <= B * (E + 2 * u) /\ Rabs (rn (r * c)) <= B * (1 + E) * (1 + u).
Proof.
  intros HB Hr Hc He E1. assert (B0 : 0 < B) by (eapply Rlt_le_trans; [|exact HB]; apply powerRZ_lt; apply Rlt_0_2).
  pose proof u_pos as U. pose proof (Rabs_pos (c - c0)).
  assert (Ac : Rabs c <= 1 + E).
  { replace c with (c - c0 + c0) by ring. eapply Rle_trans; [apply Rabs_triang|]. lra. }
  assert (M : Rabs (r * c) <= B * (1 + E)).
  { rewrite Rabs_mult. apply Rmult_le_compat; try apply Rabs_pos; lra. }
  pose proof (rn_abs (r * c) (B * (1 + E)) ltac:(nra) M) as D.
  assert (F : Rabs (r * c - r * c0) <= B * E).
  { replace (r * c - r * c0) with (r * (c - c0)) by ring. rewrite Rabs_mult. apply Rmult_le_compat; try apply Rabs_pos; lra. }
  split.
  - replace (rn (r * c) - r * c0) with (rn (r * c) - r * c + (r * c - r * c0)) by ring.
    eapply Rle_trans; [apply Rabs_triang|]. clear HB. assert (UB : 0 <= u * B) by nra. assert (u * (B * (1 + E)) <= B * (2 * u)) by (replace (u * (B * (1 + E))) with (u * B * (1 + E)) by ring; replace (B * (2 * u)) with (u * B * 2) by ring; apply Rmult_le_compat_l; lra). lra.
  - replace (rn (r * c)) with (rn (r * c) - r * c + r * c) by ring.
    eapply Rle_trans; [apply Rabs_triang|]. clear HB. lra.
Qed.

Lemma two_products r c c0 s s0 B E : powerRZ 2 (-1000) <= B -> Rabs r <= B -> Rabs c0 <= 1 -> Rabs s0 <= 1 ->
  Rabs (c - c0) <= E -> Rabs (s - s0) <= E -> E <= 1e-3 ->
  Rabs (rn (rn (r * c) * s) - r * c0 * s0) <= B * (2.01 * E + 1e-15).
Proof.
  intros HB Hr Hc Hs He He' E1. assert (B0 : 0 < B) by (eapply Rlt_le_trans; [|exact HB]; apply powerRZ_lt; apply Rlt_0_2).
  pose proof u_pos as U. pose proof (Rabs_pos (c - c0)).
  destruct (product_err r c c0 B E HB Hr Hc He ltac:(lra)) as [P Q].
  set (y := rn (r * c)) in *.
  assert (EP : 0 <= E) by lra.
  assert (BL : powerRZ 2 (-1000) <= B * (1 + E) * (1 + u)).
  { eapply Rle_trans; [exact HB|]. clear HB. rewrite Rmult_assoc. rewrite <- (Rmult_1_r B) at 1. apply Rmult_le_compat_l; [lra|]. nra. }
  destruct (product_err y s s0 (B * (1 + E) * (1 + u)) E BL Q Hs He' ltac:(lra)) as [P' _].
  replace (rn (y * s) - r * c0 * s0) with (rn (y * s) - y * s0 + (y - r * c0) * s0) by ring.
  eapply Rle_trans; [apply Rabs_triang|]. rewrite Rabs_mult. clear HB BL.
  assert (T : Rabs (y - r * c0) * Rabs s0 <= B * (E + 2 * u)).
  { pose proof (Rabs_pos (y - r * c0)). pose proof (Rabs_pos s0). nra. }
  eapply Rle_trans; [apply Rplus_le_compat; [exact P'|exact T]|].
  replace (B * (1 + E) * (1 + u) * (E + 2 * u) + B * (E + 2 * u)) with (B * (((1 + E) * (1 + u) + 1) * (E + 2 * u))) by ring.
  apply Rmult_le_compat_l; [lra|].
  assert ((1 + E) * (1 + u) <= 1.0011) by (rewrite u_val; nra).
  apply Rle_trans with (2.0011 * (E + 2 * u)); [apply Rmult_le_compat_r; lra|]. rewrite u_val. lra.
Qed.

Lemma sin_1 a : Rabs (sin a) <= 1.
Proof. apply Rabs_le. pose proof (SIN_bound a). lra. Qed.
Lemma cos_1 a : Rabs (cos a) <= 1.
Proof. apply Rabs_le. pose proof (COS_bound a). lra. Qed.

Lemma sph_to_cart_err e fcos fsin r t f : accurate_within e cos fcos -> accurate_within e sin fsin -> e <= 1e-4 ->
  large (-1000) r -> Rabs t <= 360 -> Rabs f <= 360 ->
  within (Rabs r * (2.1 * e + 8e-15)) (spherical_to_cartesian_f fcos fsin r t f) (vscale r (direction t f)).
Proof.
  intros Hc Hs He Lr Ht Hf. unfold within, spherical_to_cartesian_f. cbn [vx vy vz vscale direction].
  assert (e0 : 0 <= e).
  { pose proof (Hc 0 (double_int 0 ltac:(lia))). pose proof (Rabs_pos (fcos 0 - cos 0)). lra. }
  destruct Lr as [->|Lr].
  { rewrite ?Rmult_0_l, ?rn_0, ?Rmult_0_l, ?rn_0, ?Rmult_0_l, Rminus_diag_eq, Rabs_R0 by reflexivity. rewrite ?Rmult_0_l. lra. }
  pose proof (radians_f_err t Ht) as Et. pose proof (radians_f_err f Hf) as Ef.
  set (a := radians_f t) in *. set (b := radians_f f) in *.
  assert (K : forall g fg, (forall x, accurate_within e g fg -> double x -> Rabs (fg x - g x) <= e) -> True) by auto. clear K.
  assert (Tri : forall x y z, Rabs (x - z) <= Rabs (x - y) + Rabs (y - z)).
  { intros x y z. replace (x - z) with (x - y + (y - z)) by ring. apply Rabs_triang. }
  assert (Ca : Rabs (fcos a - cos (deg t)) <= e + 3e-15).
  { eapply Rle_trans; [apply (Tri _ (cos a))|]. apply Rplus_le_compat; [apply Hc, rn_double|]. eapply Rle_trans; [apply cos_lip|exact Et]. }
  assert (Sa : Rabs (fsin a - sin (deg t)) <= e + 3e-15).
  { eapply Rle_trans; [apply (Tri _ (sin a))|]. apply Rplus_le_compat; [apply Hs, rn_double|]. eapply Rle_trans; [apply sin_lip|exact Et]. }
  assert (Cb : Rabs (fcos b - cos (deg f)) <= e + 3e-15).
  { eapply Rle_trans; [apply (Tri _ (cos b))|]. apply Rplus_le_compat; [apply Hc, rn_double|]. eapply Rle_trans; [apply cos_lip|exact Ef]. }
  assert (Sb : Rabs (fsin b - sin (deg f)) <= e + 3e-15).
  { eapply Rle_trans; [apply (Tri _ (sin b))|]. apply Rplus_le_compat; [apply Hs, rn_double|]. eapply Rle_trans; [apply sin_lip|exact Ef]. }
  pose proof (Rabs_pos r) as R0.
  split; [|split].
  - replace (r * (sin (deg t) * cos (deg f))) with (r * cos (deg f) * sin (deg t)) by ring.
    eapply Rle_trans; [apply (two_products r _ _ _ _ (Rabs r) (e + 3e-15) Lr (Rle_refl _) (cos_1 _) (sin_1 _) Cb Sa); lra|].
    apply Rmult_le_compat_l; [exact R0|]. clear Lr. lra.
  - replace (r * (sin (deg t) * sin (deg f))) with (r * sin (deg f) * sin (deg t)) by ring.
    eapply Rle_trans; [apply (two_products r _ _ _ _ (Rabs r) (e + 3e-15) Lr (Rle_refl _) (sin_1 _) (sin_1 _) Sb Sa); lra|].
    apply Rmult_le_compat_l; [exact R0|]. clear Lr. lra.
  - eapply Rle_trans; [apply (product_err r _ _ (Rabs r) (e + 3e-15) Lr (Rle_refl _) (cos_1 _) Ca); lra|].
    apply Rmult_le_compat_l; [exact R0|]. clear Lr. rewrite u_val. lra.
Qed.

(** ** there and back *)
Lemma three_factors r' r a' a b' b d1 d2 d3 : 0 <= r -> Rabs a <= 1 -> Rabs b <= 1 -> Rabs a' <= 1 -> Rabs b' <= 1 ->
  Rabs (r' - r) <= r * d1 -> Rabs (a' - a) <= d2 -> Rabs (b' - b) <= d3 ->
  Rabs (r' * (a' * b') - r * (a * b)) <= r * (d1 + d2 + d3).
Proof.
  intros R0 A B A' B' H1 H2 H3.
  replace (r' * (a' * b') - r * (a * b)) with ((r' - r) * (a' * b') + r * ((a' - a) * b' + a * (b' - b))) by ring.
  eapply Rle_trans; [apply Rabs_triang|].
  rewrite (Rabs_mult (r' - r)), (Rabs_mult r), (Rabs_pos_eq r R0), (Rabs_mult a').
  assert (P : Rabs ((a' - a) * b' + a * (b' - b)) <= d2 + d3).
  { eapply Rle_trans; [apply Rabs_triang|]. rewrite !Rabs_mult.
    pose proof (Rabs_pos (a' - a)). pose proof (Rabs_pos (b' - b)). pose proof (Rabs_pos a). pose proof (Rabs_pos b'). nra. }
  assert (Q : Rabs a' * Rabs b' <= 1) by (pose proof (Rabs_pos a'); pose proof (Rabs_pos b'); nra).
  assert (Q0 : 0 <= Rabs a' * Rabs b') by (apply Rmult_le_pos; apply Rabs_pos).
  pose proof (Rabs_pos (r' - r)).
  assert (Rabs (r' - r) * (Rabs a' * Rabs b') <= r * d1) by nra.
  assert (r * Rabs ((a' - a) * b' + a * (b' - b)) <= r * (d2 + d3)) by (apply Rmult_le_compat_l; assumption).
  lra.
Qed.

Lemma deg_diff x y d : Rabs (x - y) <= d -> Rabs (deg x - deg y) <= d * (4 / 180).
Proof.
  intros H. unfold deg. replace (x * (PI / 180) - y * (PI / 180)) with ((x - y) * (PI / 180)) by ring.
  pose proof PI_size. rewrite Rabs_mult, (Rabs_pos_eq (PI / 180)) by lra. pose proof (Rabs_pos (x - y)).
  apply Rmult_le_compat; lra.
Qed.

Lemma cart_to_sph_point p fatan2 v : accurate_atan2 p fatan2 -> INR p <= 1000 -> cart_in_range v ->
  let '(r', t', f') := cartesian_to_spherical_f fatan2 v in
  within (vlen v * (1e-15 * (INR p + 5))) (vscale r' (direction t' f')) v.
Proof.
  intros Acc Hp Hv. pose proof (cart_to_sph_near p fatan2 v Acc Hp Hv) as N.
  pose proof (spherical_exists v) as S. pose proof (cart_radius v) as Er.
  destruct (cartesian_to_spherical v) as [[r t] f]. destruct (cartesian_to_spherical_f fatan2 v) as [[r' t'] f'].
  cbn [fst] in Er. rewrite <- Er. destruct N as (N1 & N2 & N3). destruct S as (E & R0 & T & F & _).
  pose proof (pos_INR p) as P0.
  apply near_err in N1; [|cbn; lra]. apply near_err in N2; [|rewrite plus_INR; cbn; lra]. apply near_err in N3; [|rewrite plus_INR; cbn; lra].
  rewrite plus_INR in N2, N3. rewrite (Rabs_pos_eq r) in N1 by exact R0. rewrite (Rabs_pos_eq t) in N2 by lra.
  cbn [INR] in *.
  assert (D1 : Rabs (r' - r) <= r * 3.6e-16) by lra.
  assert (Ft : Rabs f <= 180) by (apply Rabs_le; lra).
  assert (D2 : Rabs (deg t' - deg t) <= 4.8e-16 * (INR p + 6)).
  { eapply Rle_trans; [apply (deg_diff _ _ (1.2e-16 * (INR p + 6) * 180))|lra]. eapply Rle_trans; [exact N2|].
    apply Rle_trans with (1.2e-16 * (INR p + 6) * t); [right; ring|]. apply Rmult_le_compat_l; lra. }
  assert (D3 : Rabs (deg f' - deg f) <= 4.8e-16 * (INR p + 3)).
  { eapply Rle_trans; [apply (deg_diff _ _ (1.2e-16 * (INR p + 3) * 180))|lra]. eapply Rle_trans; [exact N3|].
    apply Rle_trans with (1.2e-16 * (INR p + 3) * Rabs f); [right; ring|]. apply Rmult_le_compat_l; lra. }
  rewrite <- E. unfold within. cbn [vx vy vz vscale direction].
  pose proof (Rle_trans _ _ _ (sin_lip (deg t') (deg t)) D2) as S2.
  pose proof (Rle_trans _ _ _ (cos_lip (deg t') (deg t)) D2) as C2.
  pose proof (Rle_trans _ _ _ (sin_lip (deg f') (deg f)) D3) as S3.
  pose proof (Rle_trans _ _ _ (cos_lip (deg f') (deg f)) D3) as C3.
  split; [|split].
  - eapply Rle_trans; [apply (three_factors r' r _ _ _ _ _ _ _ R0 (sin_1 _) (cos_1 _) (sin_1 _) (cos_1 _) D1 S2 C3)|].
    apply Rmult_le_compat_l; [exact R0|]. lra.
  - eapply Rle_trans; [apply (three_factors r' r _ _ _ _ _ _ _ R0 (sin_1 _) (sin_1 _) (sin_1 _) (sin_1 _) D1 S2 S3)|].
    apply Rmult_le_compat_l; [exact R0|]. lra.
  - pose proof (three_factors r' r (cos (deg t')) (cos (deg t)) 1 1 3.6e-16 (4.8e-16 * (INR p + 6)) 0 R0) as K.
    rewrite !Rmult_1_r in K. eapply Rle_trans; [apply K|].
    + apply cos_1. + rewrite Rabs_R1; lra. + apply cos_1. + rewrite Rabs_R1; lra. + exact D1. + exact C2. + rewrite Rminus_diag_eq, Rabs_R0 by reflexivity. lra.
    + apply Rmult_le_compat_l; [exact R0|]. lra.
Qed.

Lemma within_trans d d' a b c : within d a b -> within d' b c -> within (d + d') a c.
Proof.
  intros (A & B & C) (A' & B' & C'). unfold within.
  assert (Tri : forall x y z, Rabs (x - z) <= Rabs (x - y) + Rabs (y - z)).
  { intros x y z. replace (x - z) with (x - y + (y - z)) by ring. apply Rabs_triang. }
  split; [|split]; (eapply Rle_trans; [apply Tri|apply Rplus_le_compat; eassumption]).
Qed.
Lemma within_mono d d' a b : d <= d' -> within d a b -> within d' a b.
Proof. intros H (A & B & C). unfold within. split; [|split]; lra. Qed.

Lemma vlen_scale r t f : 0 <= r -> vlen (vscale r (direction t f)) = r.
Proof.
  intros H. unfold vlen, vdot. cbn [vx vy vz vscale direction]. rewrite <- (sqrt_square r) at 7 by exact H. f_equal.
  pose proof (sc1 (deg t)) as A. pose proof (sc1 (deg f)) as B.
  transitivity (r * r * (sin (deg t) * sin (deg t) * (sin (deg f) * sin (deg f) + cos (deg f) * cos (deg f)) + cos (deg t) * cos (deg t))); [ring|].
  rewrite B, Rmult_1_r, A. ring.
Qed.

Lemma vlen_within d v w : 0 <= d -> within d v w -> vlen v <= vlen w + 2 * d.
Proof.
  intros D (A & B & C). unfold vlen, vdot.
  assert (W0 : 0 <= sqrt (vx w * vx w + vy w * vy w + vz w * vz w)) by apply sqrt_pos.
  set (n := sqrt (vx w * vx w + vy w * vy w + vz w * vz w)) in *.
  assert (N2 : n * n = vx w * vx w + vy w * vy w + vz w * vz w) by (apply sqrt_sqrt; nra).
  rewrite <- (sqrt_square (n + 2 * d)) by lra. apply sqrt_le_1_alt.
  assert (S : forall x y, Rabs (x - y) <= d -> x * x <= y * y + 2 * d * Rabs y + d * d).
  { intros x y H. assert (Rabs x <= Rabs y + d).
    { replace x with (x - y + y) by ring. eapply Rle_trans; [apply Rabs_triang|]. lra. }
    replace (x * x) with (Rabs x * Rabs x) by (rewrite <- Rabs_mult; apply Rabs_pos_eq; nra).
    replace (y * y) with (Rabs y * Rabs y) by (rewrite <- Rabs_mult; apply Rabs_pos_eq; nra).
    pose proof (Rabs_pos x). pose proof (Rabs_pos y). nra. }
  pose proof (S _ _ A). pose proof (S _ _ B). pose proof (S _ _ C).
  assert (Sum : Rabs (vx w) + Rabs (vy w) + Rabs (vz w) <= 2 * n).
  { assert (Q : forall y, y * y = Rabs y * Rabs y) by (intros; rewrite <- Rabs_mult; symmetry; apply Rabs_pos_eq; nra).
    rewrite (Q (vx w)), (Q (vy w)), (Q (vz w)) in N2. pose proof (Rabs_pos (vx w)). pose proof (Rabs_pos (vy w)). pose proof (Rabs_pos (vz w)).
    set (x := Rabs (vx w)) in *. set (y := Rabs (vy w)) in *. set (z := Rabs (vz w)) in *.
    apply Rsqr_incr_0_var; [|lra]. unfold Rsqr.
    pose proof (Rle_0_sqr (x - y)) as Q1. pose proof (Rle_0_sqr (y - z)) as Q2. pose proof (Rle_0_sqr (x - z)) as Q3. unfold Rsqr in Q1, Q2, Q3.
    clearbody x y z n. clear - N2 Q1 Q2 Q3. assert (0 <= n * n) by nra.
    replace (2 * n * (2 * n)) with (4 * (n * n)) by ring. lra. }
  nra.
Qed.

Lemma round_trip e p fcos fsin fatan2 r t f :
  accurate_within e cos fcos -> accurate_within e sin fsin -> e <= 1e-4 -> accurate_atan2 p fatan2 -> INR p <= 1000 ->
  powerRZ 2 (-1000) <= r -> Rabs t <= 360 -> Rabs f <= 360 ->
  cart_in_range (spherical_to_cartesian_f fcos fsin r t f) ->
  let '(r', t', f') := cartesian_to_spherical_f fatan2 (spherical_to_cartesian_f fcos fsin r t f) in
  within (r * (1.1e-15 * (INR p + 5) + 2.1 * e + 8e-15)) (vscale r' (direction t' f')) (vscale r (direction t f)).
Proof.
  intros Hc Hs He Acc Hp Hr Ht Hf Hv.
  assert (R0 : 0 < r) by (eapply Rlt_le_trans; [|exact Hr]; apply powerRZ_lt; apply Rlt_0_2).
  assert (e0 : 0 <= e).
  { pose proof (Hc 0 (double_int 0 ltac:(lia))). pose proof (Rabs_pos (fcos 0 - cos 0)). lra. }
  pose proof (sph_to_cart_err e fcos fsin r t f Hc Hs He ltac:(right; rewrite Rabs_pos_eq by lra; exact Hr) Ht Hf) as A.
  rewrite (Rabs_pos_eq r) in A by lra. clear Hr.
  set (v := spherical_to_cartesian_f fcos fsin r t f) in *.
  pose proof (cart_to_sph_point p fatan2 v Acc Hp Hv) as B.
  destruct (cartesian_to_spherical_f fatan2 v) as [[r' t'] f'].
  pose proof (pos_INR p) as P0.
  assert (D0 : 0 <= 2.1 * e + 8e-15 <= 0.001) by lra. set (d := 2.1 * e + 8e-15) in *.
  assert (L : vlen v <= 1.01 * r).
  { pose proof (vlen_within (r * d) v _ ltac:(nra) A) as L. rewrite vlen_scale in L by lra. nra. }
  eapply within_mono; [|eapply within_trans; [exact B|exact A]].
  replace (r * (1.1e-15 * (INR p + 5) + 2.1 * e + 8e-15)) with (r * (1.1e-15 * (INR p + 5)) + r * d) by (unfold d; ring).
  apply Rplus_le_compat_r.
  apply Rle_trans with (1.01 * r * (1e-15 * (INR p + 5))); [apply Rmult_le_compat_r; lra|].
  replace (1.01 * r * (1e-15 * (INR p + 5))) with (r * (1.01 * (1e-15 * (INR p + 5)))) by ring.
  apply Rmult_le_compat_l; lra.
Qed.
