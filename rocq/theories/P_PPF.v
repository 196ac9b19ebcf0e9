(** Proofs about M_PPF *)
From Coq Require Import ZArith Reals List Arith Lia Lra Psatz.
From Flocq Require Import Core.
From Coquelicot Require Import Coquelicot.
From Verif Require Import M_Prelude M_PP M_PPF Spec_PP Spec_Float Spec_Rounding Spec_Field P_Float P_Synth P_Rounding P_SpectrumF P_Spectrum P_Spline P_PP P_PP2.
Import ListNotations.
Open Scope R_scope.

Local Notation fexp := (FLT_exp (-1074) 53).
Local Instance prec53 : Prec_gt_0 53. Proof. reflexivity. Qed.
Local Instance valid53 : Valid_exp fexp := FLT_exp_valid (-1074) 53.

(** ** Multiples of 2^-700 *)
Definition grid (x : R) : Prop := exists m : Z, x = IZR m * bpow radix2 (-700).
Lemma grid_0 : grid 0.
Proof. exists 0%Z. ring. Qed.
Lemma grid_plus x y : grid x -> grid y -> grid (x + y).
Proof. intros (m & ->) (k & ->). exists (m + k)%Z. rewrite plus_IZR. ring. Qed.
Lemma grid_scaled m e : (-700 <= e)%Z -> grid (IZR m * bpow radix2 e).
Proof.
  intros H. exists (m * 2 ^ (e + 700))%Z. rewrite mult_IZR, <- (bpow_lt_Z (e + 700) 0) by lia.
  rewrite Rmult_assoc, <- bpow_plus. f_equal. f_equal. lia.
Qed.
Lemma grid_rn x : grid x -> grid (rn x).
Proof.
  intros (m & E). destruct (Req_dec x 0) as [Z|N]; [rewrite Z, rn_0; apply grid_0|].
  destruct (Z_le_gt_dec (-700) (cexp radix2 fexp x)) as [L|G].
  - unfold rn, round, F2R. cbn [Fnum Fexp]. apply grid_scaled, L.
  - rewrite rn_id; [exists m; exact E|]. apply double_format. rewrite E. 
    apply (generic_format_F2R radix2 fexp m (-700)). intros _. change (F2R (Float radix2 m (-700))) with (IZR m * bpow radix2 (-700)).
    rewrite <- E. lia.
Qed.
Lemma grid_double x : double x -> x = 0 \/ bpow radix2 (-640) <= Rabs x -> grid x.
Proof.
  intros D [->|H]; [apply grid_0|]. apply double_format in D. unfold generic_format, F2R in D. cbn [Fnum Fexp] in D.
  rewrite D. apply grid_scaled. unfold cexp, FLT_exp. assert (-639 <= mag radix2 x)%Z; [|lia]. apply mag_ge_bpow. exact H.
Qed.
Lemma grid_low x : grid x -> x = 0 \/ bpow radix2 (-700) <= Rabs x.
Proof.
  intros (m & ->). destruct (Z.eq_dec m 0) as [->|N]; [left; ring|right]. rewrite Rabs_mult, (Rabs_pos_eq (bpow _ _)) by apply bpow_ge_0.
  rewrite <- (Rmult_1_l (bpow radix2 (-700))) at 1. apply Rmult_le_compat_r; [apply bpow_ge_0|]. rewrite <- abs_IZR. apply IZR_le. lia.
Qed.

(** ** The loop *)
Lemma near_abs_low k x y : INR k <= 1000000 -> near k x y -> 0.9 * Rabs x <= Rabs y.
Proof.
  intros Hk N. pose proof (near_err k x y Hk N) as E. assert (0 <= INR k) by apply pos_INR.
  pose proof (Rabs_triang_inv x y) as T. rewrite (Rabs_minus_sym x y) in T.
  assert (0 <= Rabs x) by apply Rabs_pos. nra.
Qed.

Definition okc (c : R) : Prop := c = 0 \/ bpow radix2 (-300) <= Rabs c.
Lemma half_low k x y j : INR k <= 1000000 -> near k x y -> bpow radix2 j <= Rabs x -> bpow radix2 (j - 1) <= Rabs y.
Proof.
  intros Hk N H. pose proof (near_abs_low k x y Hk N). replace (j - 1)%Z with (-1 + j)%Z by lia. rewrite bpow_plus. change (bpow radix2 (-1)) with (/ 2).
  pose proof (bpow_gt_0 radix2 j). lra.
Qed.

Lemma eval_loop s0 s : near 1 s0 s -> forall cs k z res,
  (forall j, (k <= j <= k + List.length cs)%nat -> okc (s0 ^ j)) -> List.Forall okc cs ->
  INR (2 * (k + List.length cs) + 2) <= 1000000 ->
  near (2 * k) (s0 ^ k) z -> double res -> grid res ->
  exists q f, roundings (List.length cs) q /\ (forall j, (j < List.length cs)%nat -> roundings (2 * (k + List.length cs) + List.length cs) (f j)) /\
    eval_poly_f cs s z res = res * q + Rsum (map (fun j => nth j cs 0 * f j * s0 ^ (k + j)) (seq 0 (List.length cs))) /\
    double (eval_poly_f cs s z res) /\ grid (eval_poly_f cs s z res).
Proof.
  intros Hs. induction cs as [|c cs IH]; intros k z res Hp Hc HK Hz Dr Gr.
  - exists 1, (fun _ => 1). split; [apply Th_0|]. split; [intros j Hj; cbn in Hj; lia|]. cbn [eval_poly_f List.length seq map].
    change (Rsum []) with 0. split; [ring|]. split; assumption.
  - cbn [eval_poly_f List.length] in *. inversion Hc as [|? ? Hc0 Hc']; subst.
    assert (B1 : INR (2 * k) <= 1000000) by (apply (INR_le_k _ HK); lia).
    (* the power *)
    assert (Nz : near (2 * S k) (s0 ^ S k) (rn (z * s))).
    { replace (2 * S k)%nat with (2 * k + 1 + 1)%nat by lia. cbn [pow]. rewrite (Rmult_comm s0).
      assert (N1 : near (2 * k + 1) (s0 ^ k * s0) (z * s)) by (apply near_mul; assumption).
      eapply near_trans; [exact N1|]. apply near_rn.
      destruct (Hp (S k) ltac:(lia)) as [Z|L].
      - cbn [pow] in Z. rewrite (Rmult_comm s0) in Z. rewrite Z in N1. left. apply (near_zero _ _ N1).
      - cbn [pow] in L. rewrite (Rmult_comm s0) in L. right. rewrite powerRZ_bpow.
        pose proof (half_low _ _ _ _ (INR_le_k _ HK (2 * k + 1) ltac:(lia)) N1 L) as X. eapply Rle_trans; [|exact X]. apply bpow_le. lia. }
    (* the term *)
    assert (Lz : z = 0 \/ bpow radix2 (-301) <= Rabs z).
    { destruct (Hp k ltac:(lia)) as [Z|L]; [left; rewrite Z in Hz; apply (near_zero _ _ Hz)|right]. apply (half_low _ _ _ (-300) B1 Hz L). }
    assert (Lt : c * z = 0 \/ bpow radix2 (-601) <= Rabs (c * z)).
    { destruct Hc0 as [->|L0]; [left; ring|]. destruct Lz as [->|Lz]; [left; ring|right]. rewrite Rabs_mult.
      change (-601)%Z with (-300 + -301)%Z. rewrite bpow_plus. apply Rmult_le_compat; try apply bpow_ge_0; assumption. }
    assert (Nt : near 1 (c * z) (rn (c * z))).
    { apply near_rn. destruct Lt as [Z|L]; [left; exact Z|right]. rewrite powerRZ_bpow. eapply Rle_trans; [|exact L]. apply bpow_le. lia. }
    assert (Gt : grid (rn (c * z))).
    { apply grid_double; [apply rn_double|]. destruct Lt as [Z|L]; [left; rewrite Z; apply rn_0|right].
      assert (I1 : INR 1 <= 1000000) by (cbn; lra).
      pose proof (half_low _ _ _ _ I1 Nt L) as X. eapply Rle_trans; [|exact X]. apply bpow_le. lia. }
    destruct Nt as (qt & Tt & Et). destruct Hz as (qz & Tz & Ez).
    destruct (near_plus res (rn (c * z)) Dr (rn_double _)) as (qp & Tp & Ep).
    destruct (IH (S k) (rn (z * s)) (rn (res + rn (c * z)))) as (q & f & Tq & Tf & E & D & G); clear IH.
    + intros j Hj. apply Hp. lia.
    + exact Hc'.
    + replace (2 * (S k + List.length cs) + 2)%nat with (2 * (k + S (List.length cs)) + 2)%nat by lia. exact HK.
    + exact Nz.
    + apply rn_double.
    + apply grid_rn, grid_plus; assumption.
    + exists (qp * q), (fun j => match j with O => qz * qt * qp * q | S j => f j end).
      split; [exact (Th_mul 1 _ _ _ Tp Tq)|]. split.
      * intros [|j] Hj.
        -- eapply Th_mono; [|apply Th_mul; [apply Th_mul; [apply Th_mul; [exact Tz|exact Tt]|exact Tp]|exact Tq]]. lia.
        -- eapply Th_mono; [|apply Tf; lia]. lia.
      * split; [|split; assumption]. rewrite E, Ep, Et, Ez. cbn [seq map]. rewrite Rsum_cons. rewrite <- seq_shift, map_map.
        rewrite Nat.add_0_r. cbn [nth].
        rewrite (Rsum_ext (fun j => nth j cs 0 * f j * s0 ^ (S k + j)) (fun j => nth j cs 0 * f j * s0 ^ (k + S j))) by (intros j _; f_equal; f_equal; lia).
        ring.
Qed.

(** ** One piece *)
Lemma Rsum_scal_r l (f : nat -> R) a : Rsum (map f l) * a = Rsum (map (fun j => f j * a) l).
Proof. induction l as [|x l IH]; [cbn; ring|]. cbn [map]. rewrite !Rsum_cons. rewrite <- IH. ring. Qed.

Lemma poch_pos n : forall z, (1 <= z)%nat -> (1 <= poch z n)%nat.
Proof. induction n as [|n IH]; intros z Hz; cbn [poch]; [lia|]. specialize (IH (z + 1)%nat ltac:(lia)). nia. Qed.

Lemma poly_f K row nu t b scale p : (1 <= K)%nat -> double t -> double b -> near p (365.25 ^ nu) scale ->
  INR (3 * K + 3 + p) <= 1000000 -> (forall r, (r < K)%nat -> okc (row r)) -> (forall j, (j <= K)%nat -> okc ((t - b) ^ j)) ->
  exists row', (forall r, near (3 * K + 2 + p) (row r) (row' r)) /\
    rn (eval_poly_f (deriv_coeffs_f K row nu) (rn (t - b)) 1 0 * scale) = 365.25 ^ nu * poly_eval K row' nu (t - b).
Proof.
  intros HK Dt Db Hs HI Hrow Hpow. set (s0 := t - b) in *. unfold deriv_coeffs_f.
  assert (Ns : near 1 s0 (rn s0)).
  { unfold s0, Rminus. apply near_plus; [exact Dt|]. destruct Db as (m & e & -> & Hm & He). exists (- m)%Z, e. rewrite opp_IZR. split; [ring|]. split; lia. }
  assert (D0 : double 0) by (apply (double_int 0); lia).
  destruct (Nat.leb_spec K nu) as [L|L].
  - exists row. split; [intros r; apply near_refl|]. rewrite poly_eval_high by exact L.
    destruct (Nat.eqb_spec nu 0); [lia|]. cbn [eval_poly_f]. rewrite Rmult_0_l, rn_0, Rplus_0_l, rn_0, Rmult_0_l, rn_0. ring.
  - set (m := (K - nu)%nat) in *. assert (Hm : (1 <= m <= K)%nat) by (unfold m; lia). set (cs := map _ (seq 0 m)).
    assert (Lcs : List.length cs = m) by (unfold cs; rewrite map_length, seq_length; reflexivity).
    assert (Hcf : forall j, (j < m)%nat -> okc (row (m - 1 - j)%nat * INR (poch (j + 1) nu))).
    { intros j Hj. destruct (Hrow (m - 1 - j)%nat ltac:(lia)) as [Z|G]; [left; rewrite Z; ring|right].
      rewrite Rabs_mult. rewrite <- (Rmult_1_r (bpow radix2 (-300))). apply Rmult_le_compat; [apply bpow_ge_0|lra|exact G|].
      rewrite Rabs_pos_eq by apply pos_INR. change 1 with (INR 1). apply le_INR, poch_pos. lia. }
    assert (Hcn : forall j, (j < m)%nat -> near 1 (row (m - 1 - j)%nat * INR (poch (j + 1) nu)) (rn (row (m - 1 - j)%nat * INR (poch (j + 1) nu)))).
    { intros j Hj. apply near_rn. destruct (Hcf j Hj) as [Z|G]; [left; exact Z|right]. rewrite powerRZ_bpow. eapply Rle_trans; [|exact G]. apply bpow_le. lia. }
    assert (D300 : double (bpow radix2 (-300))). { exists 1%Z, (-300)%Z. split; [rewrite powerRZ_bpow; ring|]. split; [reflexivity|lia]. }
    assert (Hok : List.Forall okc cs).
    { unfold cs. apply Forall_forall. intros c Hc. apply in_map_iff in Hc. destruct Hc as (j & <- & Hj). apply in_seq in Hj.
      destruct (Hcf j ltac:(lia)) as [Z|G]; [left; rewrite Z; apply rn_0|right].
      destruct (Rcase_abs (row (m - 1 - j)%nat * INR (poch (j + 1) nu))) as [Ng|Ps].
      - rewrite Rabs_left in G by exact Ng. rewrite <- Rabs_Ropp, <- rn_opp. eapply Rle_trans; [|apply Rle_abs]. apply rn_ge; assumption.
      - rewrite Rabs_right in G by exact Ps. eapply Rle_trans; [|apply Rle_abs]. apply rn_ge; assumption. }
    assert (HI' : INR (2 * (0 + List.length cs) + 2) <= 1000000) by (apply (INR_le_k _ HI); lia).
    destruct (eval_loop s0 (rn s0) Ns cs 0 1 0) as (q & f & Tq & Tf & E & D & G).
    + intros j Hj. apply Hpow. lia.
    + exact Hok.
    + exact HI'.
    + apply near_refl.
    + exact D0.
    + apply grid_0.
    + set (v := eval_poly_f cs (rn s0) 1 0) in *.
      assert (Nv : near 1 (v * scale) (rn (v * scale))).
      { apply near_rn. destruct (grid_low v G) as [Z|Lv]; [left; rewrite Z; ring|right]. rewrite powerRZ_bpow, Rabs_mult.
        apply Rle_trans with (bpow radix2 (-700) * bpow radix2 (-1)); [rewrite <- bpow_plus; apply bpow_le; lia|].
        apply Rmult_le_compat; try apply bpow_ge_0; [exact Lv|].
        pose proof (near_abs_low p _ _ (INR_le_k _ HI p ltac:(lia)) Hs) as X.
        assert (1 <= Rabs (365.25 ^ nu)). { rewrite Rabs_pos_eq; [apply pow_R1_Rle; lra|apply pow_le; lra]. }
        change (bpow radix2 (-1)) with (/ 2). lra. }
      destruct Nv as (qv & Tv & Ev). destruct Hs as (qs & Ts & Es).
      (* factors of the coefficients *)
      assert (QC : exists g, forall j, (j < m)%nat -> roundings 1 (g j) /\ nth j cs 0 = row (m - 1 - j)%nat * INR (poch (j + 1) nu) * g j).
      { exists (fun j => let x := row (m - 1 - j)%nat * INR (poch (j + 1) nu) in if Req_EM_T x 0 then 1 else rn x / x).
        intros j Hj. assert (Ej : nth j cs 0 = rn (row (m - 1 - j)%nat * INR (poch (j + 1) nu))).
        { unfold cs. rewrite (nth_indep _ 0 (rn (row (m - 1 - 0)%nat * INR (poch (0 + 1) nu)))) by (rewrite map_length, seq_length; exact Hj).
          rewrite (map_nth (fun j => rn (row (m - 1 - j)%nat * INR (poch (j + 1) nu)))). rewrite seq_nth by exact Hj. reflexivity. }
        rewrite Ej. cbv zeta. destruct (Hcn j Hj) as (qj & Tj & Eqj). set (x := row (m - 1 - j)%nat * INR (poch (j + 1) nu)) in *.
        destruct (Req_EM_T x 0) as [Z|NZ].
        - split; [apply Th_0|]. rewrite Z, rn_0. ring.
        - rewrite Eqj. replace (x * qj / x) with qj by (field; exact NZ). split; [exact Tj|ring]. }
      destruct QC as (g & Hg).
      exists (fun r => if (r <? m)%nat then row r * (g (m - 1 - r)%nat * f (m - 1 - r)%nat * qs * qv) else row r).
      split.
      * intros r. destruct (Nat.ltb_spec r m) as [Hr|Hr]; [|apply near_refl].
        exists (g (m - 1 - r)%nat * f (m - 1 - r)%nat * qs * qv). split; [|reflexivity].
        eapply Th_mono; [|apply Th_mul; [apply Th_mul; [apply Th_mul; [apply Hg; lia|apply Tf; lia]|exact Ts]|exact Tv]]. lia.
      * rewrite Ev, Es, E. rewrite Rmult_0_l, Rplus_0_l, Lcs. rewrite <- poly_deriv by exact L. fold m.
        unfold poly_eval. rewrite fold_plus_Rsum. rewrite Nat.sub_0_r.
        rewrite (Rmult_comm (365.25 ^ nu) (Rsum _)).
        rewrite !Rsum_scal_r. apply Rsum_seq_ext. intros j Hj. destruct (Hg j ltac:(lia)) as [_ ->].
        destruct (Nat.ltb_spec (m - 1 - j) m) as [_|X]; [|lia].
        replace (m - 1 - (m - 1 - j))%nat with j by lia. cbn [falling INR]. rewrite Nat.sub_0_r.
        replace (m - (m - 1 - j))%nat with (j + 1)%nat by lia. change (0 + j)%nat with j. ring.
Qed.

Lemma sizeable_okc x : sizeable x -> okc x.
Proof. unfold sizeable, okc. rewrite powerRZ_bpow. exact (fun H => H). Qed.

Theorem value_backward x K c i d nu t scale p : good_breaks x -> (1 <= K)%nat -> in_interval x i t ->
  double t -> double (nth i x 0) -> near p (365.25 ^ nu) scale -> INR (3 * K + 3 + p) <= 1000000 ->
  (forall r, (r < K)%nat -> sizeable (c r i d)) -> (forall j, (j <= K)%nat -> sizeable ((t - nth i x 0) ^ j)) ->
  exists v c', value_f scale x K c nu t d = Some v /\ (forall r, near (3 * K + 2 + p) (c r i d) (c' r i d)) /\
    is_derive_n (fun year => piece x K c' i d (365.25 * year)) nu (t / 365.25) v.
Proof.
  intros G HK HI Dt Db Hs HB Hc Hp. unfold value_f. rewrite (interval_inside x K c true i t G HI).
  destruct (poly_f K (fun r => c r i d) nu t (nth i x 0) scale p HK Dt Db Hs HB) as (row' & N & E).
  - intros r Hr. apply sizeable_okc, Hc, Hr.
  - intros j Hj. apply sizeable_okc, Hp, Hj.
  - eexists. exists (fun r _ _ => row' r). split; [reflexivity|]. split; [exact N|]. rewrite E.
    apply (is_derive_n_ext (fun y => poly_eval K row' 0 (365.25 * y - nth i x 0))).
    { intros y. symmetry. exact (piece_poly x K (fun r _ _ => row' r) i d (365.25 * y)). }
    pose proof (is_derive_n_poly K row' (nth i x 0) 365.25 nu (t / 365.25)) as P.
    rewrite year_day in P. exact P.
Qed.

(** The error of the value itself *)
Theorem value_forward x K c i d t : good_breaks x -> (1 <= K)%nat -> in_interval x i t ->
  double t -> double (nth i x 0) -> INR (3 * K + 3) <= 1000000 ->
  (forall r, (r < K)%nat -> sizeable (c r i d)) -> (forall j, (j <= K)%nat -> sizeable ((t - nth i x 0) ^ j)) ->
  exists v, value_f 1 x K c 0 t d = Some v /\
    Rabs (v - piece x K c i d t) <= 1.2e-16 * INR (3 * K + 2) * piece x K (fun r i d => Rabs (c r i d)) i d t.
Proof.
  intros G HK HI Dt Db HB Hc Hp.
  destruct (value_backward x K c i d 0 t 1 0 G HK HI Dt Db ltac:(rewrite pow_O; apply near_refl) ltac:(rewrite Nat.add_0_r; exact HB) Hc Hp) as (v & c' & E & N & D).
  exists v. split; [exact E|]. cbn [is_derive_n] in D. rewrite year_day in D. rewrite <- D. rewrite Nat.add_0_r in N.
  unfold piece. change (fold_right Rplus 0) with Rsum. 
  assert (H0 : 0 <= t - nth i x 0) by (destruct HI as (_ & H & _); lra). set (s := t - nth i x 0) in *.
  assert (B : INR (3 * K + 2) <= 1000000) by (apply (INR_le_k _ HB); lia).
  generalize (seq 0 K). intros l. induction l as [|k l IH].
  - cbn [map]. change (Rsum []) with 0. rewrite Rminus_0_r, Rabs_R0. lra.
  - cbn [map]. rewrite !Rsum_cons. set (A := Rsum _) in *. set (A' := Rsum (map (fun k => c (K - 1 - k)%nat i d * s ^ k) l)) in *.
    replace (c' (K - 1 - k)%nat i d * s ^ k + A - (c (K - 1 - k)%nat i d * s ^ k + A')) with
            ((c' (K - 1 - k)%nat i d - c (K - 1 - k)%nat i d) * s ^ k + (A - A')) by ring.
    eapply Rle_trans; [apply Rabs_triang|]. rewrite Rmult_plus_distr_l. apply Rplus_le_compat; [|exact IH].
    rewrite Rabs_mult, (Rabs_pos_eq (s ^ k)) by (apply pow_le; exact H0). rewrite <- Rmult_assoc.
    apply Rmult_le_compat_r; [apply pow_le; exact H0|]. apply near_err; [exact B|apply N].
Qed.
