(** Distance of the computed field from the gradient of the potential *)
From Coq Require Import ZArith Reals List Lia Lra Psatz.
From Flocq Require Import Core.
From Coquelicot Require Import Coquelicot.
From Verif Require Import M_Prelude Spec_Legendre Spec_Field Spec_Float Spec_Rounding Spec_SynthF M_Legendre M_Synth M_SynthF
  P_Float P_Synth P_Rounding P_SpectrumF P_SynthF P_LegendreTab P_Legendre2 P_SynthClosed.
Import ListNotations.
Open Scope R_scope.

Lemma Rsum_flat {A} (f : A -> list R) l : Rsum (flat_map f l) = Rsum (map (fun x => Rsum (f x)) l).
Proof. induction l as [|x l IH]; [reflexivity|]. cbn [flat_map map]. rewrite Rsum_app, Rsum_cons, IH. reflexivity. Qed.
Lemma Rsum_contributions m0 nmin nmax mmax f : Rsum (contributions m0 nmin nmax mmax f) =
  Rsum (map (fun n => Rsum (map (fun m => Rsum (f n m)) (range_incl m0 (Nat.min n mmax)))) (range_incl nmin nmax)).
Proof. unfold contributions. rewrite Rsum_flat. apply Rsum_map_ext. intros n _. apply Rsum_flat. Qed.
Lemma map_contributions (k : R -> R) m0 nmin nmax mmax f :
  map k (contributions m0 nmin nmax mmax f) = contributions m0 nmin nmax mmax (fun n m => map k (f n m)).
Proof.
  unfold contributions. assert (E : forall {A} (F : A -> list R) l, map k (flat_map F l) = flat_map (fun x => map k (F x)) l).
  { intros A F l. induction l as [|x l IH]; [reflexivity|]. cbn [flat_map]. rewrite map_app, IH. reflexivity. }
  rewrite E. apply flat_map_ext. intros n. apply E.
Qed.
Lemma Rsum_map_le {A} (f g : A -> R) l : (forall x, In x l -> f x <= g x) -> Rsum (map f l) <= Rsum (map g l).
Proof.
  induction l as [|x l IH]; intros H; cbn [map]; [lra|]. rewrite !Rsum_cons.
  pose proof (H x (or_introl eq_refl)). specialize (IH (fun y Hy => H y (or_intror Hy))). lra.
Qed.
Lemma Rsum_map_abs {A} (f g : A -> R) (b : A -> R) l : (forall x, In x l -> Rabs (f x - g x) <= b x) ->
  Rabs (Rsum (map f l) - Rsum (map g l)) <= Rsum (map b l).
Proof.
  induction l as [|x l IH]; intros H; cbn [map].
  - change (Rsum []) with 0. rewrite Rminus_0_r, Rabs_R0. lra.
  - rewrite !Rsum_cons. replace (f x + Rsum (map f l) - (g x + Rsum (map g l))) with ((f x - g x) + (Rsum (map f l) - Rsum (map g l))) by ring.
    eapply Rle_trans; [apply Rabs_triang|]. pose proof (H x (or_introl eq_refl)). specialize (IH (fun y Hy => H y (or_intror Hy))). lra.
Qed.

(** The general bound: [e] is the relative error of the additions, f the terms
    added, F the terms wanted. *)
Lemma forward k m0 nmin nmax mmax f (F : nat -> nat -> list R) (b : nat -> nat -> R) y :
  INR k <= 1000000 -> terms_near k (contributions m0 nmin nmax mmax f) y ->
  (forall n m, (nmin <= n <= nmax)%nat -> (m0 <= m <= Nat.min n mmax)%nat ->
     1.2e-16 * INR k * Rsum (map Rabs (f n m)) + Rabs (Rsum (f n m) - Rsum (F n m)) <= b n m) ->
  Rabs (y - Rsum (contributions m0 nmin nmax mmax F)) <=
    Rsum (map (fun n => Rsum (map (b n) (range_incl m0 (Nat.min n mmax)))) (range_incl nmin nmax)).
Proof.
  intros Hk T B. pose proof (terms_near_err _ _ _ Hk T) as E. rewrite map_contributions in E.
  rewrite !Rsum_contributions in *. set (d := 1.2e-16 * INR k) in *.
  set (S1 := Rsum (map (fun n => Rsum (map (fun m => Rsum (f n m)) (range_incl m0 (Nat.min n mmax)))) (range_incl nmin nmax))) in *.
  set (S2 := Rsum (map (fun n => Rsum (map (fun m => Rsum (F n m)) (range_incl m0 (Nat.min n mmax)))) (range_incl nmin nmax))) in *.
  assert (D : Rabs (S1 - S2) <= Rsum (map (fun n => Rsum (map (fun m => Rabs (Rsum (f n m) - Rsum (F n m))) (range_incl m0 (Nat.min n mmax)))) (range_incl nmin nmax))).
  { apply Rsum_map_abs. intros n _. apply (Rsum_map_abs (fun m => Rsum (f n m)) (fun m => Rsum (F n m)) (fun m => Rabs (Rsum (f n m) - Rsum (F n m)))). intros m _. lra. }
  replace (y - S2) with ((y - S1) + (S1 - S2)) by ring. eapply Rle_trans; [apply Rabs_triang|].
  eapply Rle_trans; [apply Rplus_le_compat; [exact E|exact D]|].
  rewrite <- Rsum_map_scal, <- Rsum_map_plus. apply Rsum_map_le. intros n Hn. apply range_incl_spec in Hn.
  rewrite <- Rsum_map_scal, <- Rsum_map_plus. apply Rsum_map_le. intros m Hm. apply range_incl_spec in Hm. apply B; assumption.
Qed.

(** One contribution *)
Lemma one d w w' c c' g rho b e eT : 0 <= d -> 0 <= e -> 0 <= eT -> 0 <= rho -> Rabs w <= b -> Rabs (w' - w) <= e -> Rabs c <= 1 -> Rabs (c' - c) <= eT ->
  d * Rabs (w' * rho * (g * c')) + Rabs (w' * rho * (g * c') - w * rho * (g * c)) <= rho * Rabs g * ((b + e) * (1 + eT) * (1 + d) - b).
Proof.
  intros Hd He HeT Hrho Hw Hw' Hc Hc'.
  assert (Aw : Rabs w' <= b + e).
  { replace w' with (w + (w' - w)) by ring. eapply Rle_trans; [apply Rabs_triang|]. lra. }
  assert (Ac : Rabs c' <= 1 + eT).
  { replace c' with (c + (c' - c)) by ring. eapply Rle_trans; [apply Rabs_triang|]. lra. }
  assert (b0 : 0 <= b) by (pose proof (Rabs_pos w); lra).
  assert (P1 : Rabs (w' * c') <= (b + e) * (1 + eT)).
  { rewrite Rabs_mult. apply Rmult_le_compat; try apply Rabs_pos; assumption. }
  assert (P2 : Rabs (w' * c' - w * c) <= (b + e) * (1 + eT) - b).
  { replace (w' * c' - w * c) with (w' * (c' - c) + (w' - w) * c) by ring. eapply Rle_trans; [apply Rabs_triang|]. rewrite !Rabs_mult.
    assert (Rabs w' * Rabs (c' - c) <= (b + e) * eT) by (apply Rmult_le_compat; try apply Rabs_pos; assumption).
    assert (Rabs (w' - w) * Rabs c <= e * 1) by (apply Rmult_le_compat; try apply Rabs_pos; assumption). lra. }
  replace (w' * rho * (g * c')) with (rho * g * (w' * c')) by ring. replace (w * rho * (g * c)) with (rho * g * (w * c)) by ring.
  rewrite <- Rmult_minus_distr_l, !Rabs_mult with (x := rho * g), (Rabs_mult rho g), (Rabs_pos_eq rho Hrho).
  assert (N : 0 <= rho * Rabs g) by (apply Rmult_le_pos; [exact Hrho|apply Rabs_pos]).
  set (q := rho * Rabs g) in *. assert (q * (d * Rabs (w' * c') + Rabs (w' * c' - w * c)) <= q * ((b + e) * (1 + eT) * (1 + d) - b)); [|lra].
  apply Rmult_le_compat_l; [exact N|]. assert (d * Rabs (w' * c') <= d * ((b + e) * (1 + eT))) by (apply Rmult_le_compat_l; assumption). lra.
Qed.
Lemma two d w w' c c' s s' g h rho b e eT : 0 <= d -> 0 <= e -> 0 <= eT -> 0 <= rho -> Rabs w <= b -> Rabs (w' - w) <= e ->
  Rabs c <= 1 -> Rabs (c' - c) <= eT -> Rabs s <= 1 -> Rabs (s' - s) <= eT ->
  d * Rsum (map Rabs [w' * rho * (g * c'); w' * rho * (h * s')]) +
    Rabs (Rsum [w' * rho * (g * c'); w' * rho * (h * s')] - Rsum [w * rho * (g * c); w * rho * (h * s)]) <=
  rho * (Rabs g + Rabs h) * ((b + e) * (1 + eT) * (1 + d) - b).
Proof.
  intros Hd He HeT Hrho Hw Hw' Hc Hc' Hs Hs'.
  pose proof (one d w w' c c' g rho b e eT Hd He HeT Hrho Hw Hw' Hc Hc') as A.
  pose proof (one d w w' s s' h rho b e eT Hd He HeT Hrho Hw Hw' Hs Hs') as B.
  unfold Rsum. cbn [map fold_right].
  set (x := w' * rho * (g * c')) in *. set (y := w' * rho * (h * s')) in *. set (x0 := w * rho * (g * c)) in *. set (y0 := w * rho * (h * s)) in *.
  replace (x + (y + 0) - (x0 + (y0 + 0))) with ((x - x0) + (y - y0)) by ring. pose proof (Rabs_triang (x - x0) (y - y0)). lra.
Qed.

(** The exact sums *)
Lemma exact_r s a nmin nmax mmax g h r t p : 0 < a -> 0 < r ->
  Rsum (contributions 0 nmin nmax mmax (cos_sin g h (fun m => cos (INR m * p)) (fun m => sin (INR m * p)) (fun n m => weight s n * schmidt n m t * rho s a r n)))
  = clo_r s a nmin nmax mmax g h r t p.
Proof.
  intros Ha Hr. rewrite Rsum_contributions. unfold clo_r. apply Rsum_map_ext. intros n _. unfold sum_r.
  rewrite <- !Rsum_map_scal. apply Rsum_map_ext. intros m _. unfold cos_sin, ang, Rsum. cbn [fold_right]. unfold rr, rho, kk, weight.
  destruct s; [|ring]. rewrite <- pow_inv. replace (/ (r / a)) with (a / r) by (field; lra). ring.
Qed.
Lemma exact_t s a nmin nmax mmax g h r t p : 0 < a -> 0 < r ->
  Rsum (contributions 0 nmin nmax mmax (cos_sin g h (fun m => cos (INR m * p)) (fun m => sin (INR m * p)) (fun n m => - rawd n m t * rho s a r n)))
  = clo_t s a nmin nmax mmax g h r t p.
Proof.
  intros Ha Hr. rewrite Rsum_contributions. unfold clo_t. apply Rsum_map_ext. intros n _. unfold sum_t.
  rewrite <- !Rsum_map_scal. apply Rsum_map_ext. intros m _. unfold cos_sin, ang, Rsum. cbn [fold_right]. unfold rr, rho.
  destruct s; [|ring]. rewrite <- pow_inv. replace (/ (r / a)) with (a / r) by (field; lra). ring.
Qed.
Lemma exact_p s a nmin nmax mmax g h r t p : 0 < a -> 0 < r ->
  Rsum (contributions 1 nmin nmax mmax (sin_cos g h (fun m => cos (INR m * p)) (fun m => sin (INR m * p)) (fun n m => INR m * reg n m t * rho s a r n)))
  = clo_p s a nmin nmax mmax g h r t p.
Proof.
  intros Ha Hr. rewrite Rsum_contributions. unfold clo_p. apply Rsum_map_ext. intros n _. unfold sum_p.
  rewrite range_incl_0. cbn [map]. rewrite Rsum_cons. cbn [INR]. rewrite Rmult_0_l, Rmult_0_r, Rplus_0_l.
  rewrite <- !Rsum_map_scal. apply Rsum_map_ext. intros m _. unfold sin_cos, ang', Rsum. cbn [fold_right]. unfold rr, rho.
  destruct s; [|ring]. rewrite <- pow_inv. replace (/ (r / a)) with (a / r) by (field; lra). ring.
Qed.

Section Final.
Variables (p : nat) (pow : R -> Z -> R) (fcos fsin : R -> R) (s : src) (a : R) (nmin nmax mmax : nat) (pole : bool) (P : tab)
  (g h : nat -> nat -> R) (radius phi : R).
Notation cs := (fun m => fcos (rn (INR m * phi))).
Notation sn := (fun m => fsin (rn (INR m * phi))).
Let K := (2 * nmax + 8 + p + (nmax + 1) * (mmax + 1))%nat.
Hypothesis Hpow : accurate_pow p pow.
Hypothesis Ha : 0 < a.
Hypothesis Hr : 0 < radius.
Hypothesis Hn : (1 <= nmin <= nmax)%nat.
Hypothesis HK : INR K <= 1000000.
Hypothesis Hc0 : fcos 0 = 1.
Hypothesis Hs0 : fsin 0 = 0.
Hypothesis Hx : powerRZ 2 (-200) <= radius / a.
Hypothesis Hrho : forall n, (nmin <= n <= nmax)%nat -> powerRZ 2 (-200) <= rho s a radius n.
Hypothesis HP : forall n m, (nmin <= n <= nmax)%nat -> (m <= Nat.min n mmax)%nat -> large (-300) (P n m) /\ large (-300) (P m (n + 1)%nat).
Hypothesis HG : forall n m, (nmin <= n <= nmax)%nat -> (m <= Nat.min n mmax)%nat -> large (-200) (g n m) /\ (m <> 0%nat -> large (-200) (h n m)).
Hypothesis HT : forall m, (m <= Nat.min nmax mmax)%nat -> large (-200) (cs m) /\ large (-200) (sn m).
Hypothesis HD : if pole then Rabs (P 1%nat 0%nat) = 1 else 0 < P 1%nat 1%nat <= 1.
Variables (th lam eP eD eE eT : R).
Hypothesis EP0 : 0 <= eP.
Hypothesis ED0 : 0 <= eD.
Hypothesis EE0 : 0 <= eE.
Hypothesis ET0 : 0 <= eT.
Hypothesis EP : forall n m, (nmin <= n <= nmax)%nat -> (m <= Nat.min n mmax)%nat -> Rabs (P n m - schmidt n m th) <= eP.
Hypothesis ED : forall n m, (nmin <= n <= nmax)%nat -> (m <= Nat.min n mmax)%nat -> Rabs (P m (n + 1)%nat - Derive (schmidt n m) th) <= eD.
Hypothesis EE : forall n m, (nmin <= n <= nmax)%nat -> (1 <= m <= Nat.min n mmax)%nat ->
  Rabs ((if pole then P m (n + 1)%nat * P 1%nat 0%nat else P n m / P 1%nat 1%nat) - schmidt n m th / sin th) <= eE.
Hypothesis ET : forall m, (m <= Nat.min nmax mmax)%nat -> Rabs (cs m - cos (INR m * lam)) <= eT /\ Rabs (sn m - sin (INR m * lam)) <= eT.

Lemma rho_pos n : 0 <= rho s a radius n.
Proof. unfold rho. assert (0 < a / radius) by (apply Rdiv_lt_0_compat; assumption). assert (0 < radius / a) by (apply Rdiv_lt_0_compat; assumption). destruct s; left; apply pow_lt; assumption. Qed.
Lemma delta_pos : 0 <= 1.2e-16 * INR K.
Proof. pose proof (pos_INR K). lra. Qed.
Lemma cos_abs x : Rabs (cos x) <= 1.
Proof. apply Rabs_le. pose proof (COS_bound x). lra. Qed.
Lemma sin_abs x : Rabs (sin x) <= 1.
Proof. apply Rabs_le. pose proof (SIN_bound x). lra. Qed.
Lemma derive_rawd n m : Derive (schmidt n m) th = rawd n m th.
Proof. apply is_derive_unique. apply is_derive_schmidt_raw. Qed.

Lemma synth_point_error rest : exists br bt bp Br Bt Bp,
  synth_point_f pow fcos fsin s a nmin nmax mmax pole P (gauss_list nmin nmax mmax g h ++ rest) radius phi = Ok (br, bt, bp) /\
  is_derive (fun x => potential s a nmin nmax mmax g h x th lam) radius (- Br) /\
  is_derive (fun x => potential s a nmin nmax mmax g h radius x lam) th (- (radius * Bt)) /\
  is_derive (fun x => potential s a nmin nmax mmax g h radius th x) lam (- (radius * sin th * Bp)) /\
  Rabs (br - Br) <= Rsum (map (fun n => Rsum (map (fun m => Rabs (weight s n) * rho s a radius n * (Rabs (g n m) + Rabs (h n m)) * excess K eT 1 eP) (range_incl 0 (Nat.min n mmax)))) (range_incl nmin nmax)) /\
  Rabs (bt - Bt) <= Rsum (map (fun n => Rsum (map (fun m => rho s a radius n * (Rabs (g n m) + Rabs (h n m)) * excess K eT (Rabs (Derive (schmidt n m) th)) eD) (range_incl 0 (Nat.min n mmax)))) (range_incl nmin nmax)) /\
  (sin th <> 0 -> Rabs (bp - Bp) <= Rsum (map (fun n => Rsum (map (fun m => INR m * rho s a radius n * (Rabs (g n m) + Rabs (h n m)) * excess K eT (Rabs (schmidt n m th / sin th)) eE) (range_incl 1 (Nat.min n mmax)))) (range_incl nmin nmax))).
Proof.
  destruct (synth_point_near p pow fcos fsin s a nmin nmax mmax pole P g h radius phi Hpow Ha Hr Hn HK Hc0 Hs0 Hx Hrho HP HG HT HD rest)
    as (br & bt & bp & E & Nr & Nt & Np). fold K in Nr, Nt, Np.
  exists br, bt, bp, (clo_r s a nmin nmax mmax g h radius th lam), (clo_t s a nmin nmax mmax g h radius th lam), (clo_p s a nmin nmax mmax g h radius th lam).
  split; [exact E|]. split; [apply grad_r; assumption|]. split; [apply grad_t; assumption|]. split; [apply grad_p; assumption|].
  split; [|split].
  - rewrite <- exact_r by assumption. eapply forward; [exact HK|exact Nr|]. intros n m H Hm. unfold cos_sin, W_r, excess.
    destruct (ET m ltac:(lia)) as [Ec Es].
    pose proof (two (1.2e-16 * INR K) (schmidt n m th) (P n m) _ _ _ _ (g n m) (h n m) (Rabs (weight s n) * rho s a radius n) 1 eP eT
      delta_pos EP0 ET0 (Rmult_le_pos _ _ (Rabs_pos _) (rho_pos n)) (schmidt_bound n m th ltac:(lia)) (EP n m H ltac:(lia)) (cos_abs _) Ec (sin_abs _) Es) as T.
    eapply Rle_trans; [|exact T]. clear T. right. unfold Rsum. cbn [map fold_right].
    f_equal.
    + f_equal. f_equal; [|f_equal]; rewrite !Rabs_mult, Rabs_Rabsolu; ring.
    + assert (X : forall c' s' c0 s0, Rabs (weight s n * P n m * rho s a radius n * c' + (weight s n * P n m * rho s a radius n * s' + 0) -
        (weight s n * schmidt n m th * rho s a radius n * c0 + (weight s n * schmidt n m th * rho s a radius n * s0 + 0))) =
        Rabs (P n m * (Rabs (weight s n) * rho s a radius n) * c' + (P n m * (Rabs (weight s n) * rho s a radius n) * s' + 0) -
        (schmidt n m th * (Rabs (weight s n) * rho s a radius n) * c0 + (schmidt n m th * (Rabs (weight s n) * rho s a radius n) * s0 + 0)))).
      { intros c' s' c0 s0. set (W := weight s n). set (q := rho s a radius n).
        replace (W * P n m * q * c' + (W * P n m * q * s' + 0) - (W * schmidt n m th * q * c0 + (W * schmidt n m th * q * s0 + 0)))
          with (W * (P n m * q * c' + P n m * q * s' - schmidt n m th * q * c0 - schmidt n m th * q * s0)) by ring.
        replace (P n m * (Rabs W * q) * c' + (P n m * (Rabs W * q) * s' + 0) - (schmidt n m th * (Rabs W * q) * c0 + (schmidt n m th * (Rabs W * q) * s0 + 0)))
          with (Rabs W * (P n m * q * c' + P n m * q * s' - schmidt n m th * q * c0 - schmidt n m th * q * s0)) by ring.
        rewrite !Rabs_mult, Rabs_Rabsolu. reflexivity. }
      apply X.
  - rewrite <- exact_t by assumption. eapply forward; [exact HK|exact Nt|]. intros n m H Hm. unfold cos_sin, W_t, excess.
    destruct (ET m ltac:(lia)) as [Ec Es]. rewrite derive_rawd.
    apply (two (1.2e-16 * INR K) (- rawd n m th) (- P m (n + 1)%nat)); try assumption; try apply delta_pos; try apply rho_pos; try apply cos_abs; try apply sin_abs.
    + rewrite Rabs_Ropp. lra.
    + replace (- P m (n + 1)%nat - - rawd n m th) with (- (P m (n + 1)%nat - rawd n m th)) by ring. rewrite Rabs_Ropp.
      pose proof (ED n m H ltac:(lia)) as X. rewrite derive_rawd in X. exact X.
  - intros Hsin. rewrite <- exact_p by assumption. eapply forward; [exact HK|exact Np|]. intros n m H Hm. unfold sin_cos, W_p, excess.
    destruct (ET m ltac:(lia)) as [Ec Es].
    assert (Er : schmidt n m th / sin th = reg n m th) by (rewrite <- reg_sin by lia; field; exact Hsin).
    pose proof (EE n m H Hm) as X. rewrite Er in X |- *. set (E' := if pole then P m (n + 1)%nat * P 1%nat 0%nat else P n m / P 1%nat 1%nat) in *.
    pose proof (two (1.2e-16 * INR K) (reg n m th) E' _ _ _ _ (g n m) (- h n m) (INR m * rho s a radius n) (Rabs (reg n m th)) eE eT
      delta_pos EE0 ET0 (Rmult_le_pos _ _ (pos_INR _) (rho_pos n)) (Rle_refl _) X (sin_abs _) Es (cos_abs _) Ec) as T.
    rewrite Rabs_Ropp in T. eapply Rle_trans; [|exact T]. clear T. right. unfold Rsum. cbn [map fold_right].
    f_equal; [f_equal; f_equal; [|f_equal]|]; f_equal; ring.
Qed.
End Final.

Lemma near_form p pow fcos fsin s a nmin nmax mmax pole (P : tab) g h rest radius phi :
  let cs m := fcos (rn (INR m * phi)) in let sn m := fsin (rn (INR m * phi)) in
  let K := (2 * nmax + 8 + p + (nmax + 1) * (mmax + 1))%nat in
  accurate_pow p pow -> 0 < a -> 0 < radius -> (1 <= nmin <= nmax)%nat -> INR K <= 1000000 -> fcos 0 = 1 -> fsin 0 = 0 ->
  sizes_ok s a nmin nmax mmax pole P g h cs sn radius ->
  exists br bt bp,
    synth_point_f pow fcos fsin s a nmin nmax mmax pole P (gauss_list nmin nmax mmax g h ++ rest) radius phi = Ok (br, bt, bp) /\
    terms_near K (contributions 0 nmin nmax mmax (cos_sin g h cs sn (fun n m => weight s n * P n m * rho s a radius n))) br /\
    terms_near K (contributions 0 nmin nmax mmax (cos_sin g h cs sn (fun n m => - P m (n + 1)%nat * rho s a radius n))) bt /\
    terms_near K (contributions 1 nmin nmax mmax (sin_cos g h cs sn (fun n m =>
       INR m * (if pole then P m (n + 1)%nat * P 1%nat 0%nat else P n m / P 1%nat 1%nat) * rho s a radius n))) bp.
Proof.
  intros cs sn K Hp Ha Hr Hn HK Hc Hs (S1 & S2 & S3 & S4 & S5 & S6).
  exact (synth_point_near p pow fcos fsin s a nmin nmax mmax pole P g h radius phi Hp Ha Hr Hn HK Hc Hs S1 S2 S3 S4 S5 S6 rest).
Qed.

Lemma distance_form p pow fcos fsin s a nmin nmax mmax pole (P : tab) g h rest radius phi th lam eP eD eE eT :
  let cs m := fcos (rn (INR m * phi)) in let sn m := fsin (rn (INR m * phi)) in
  let K := (2 * nmax + 8 + p + (nmax + 1) * (mmax + 1))%nat in
  accurate_pow p pow -> 0 < a -> 0 < radius -> (1 <= nmin <= nmax)%nat -> INR K <= 1000000 -> fcos 0 = 1 -> fsin 0 = 0 ->
  sizes_ok s a nmin nmax mmax pole P g h cs sn radius ->
  0 <= eP -> 0 <= eD -> 0 <= eE -> 0 <= eT ->
  (forall n m, (nmin <= n <= nmax)%nat -> (m <= Nat.min n mmax)%nat -> Rabs (P n m - schmidt n m th) <= eP) ->
  (forall n m, (nmin <= n <= nmax)%nat -> (m <= Nat.min n mmax)%nat -> Rabs (P m (n + 1)%nat - Derive (schmidt n m) th) <= eD) ->
  (forall n m, (nmin <= n <= nmax)%nat -> (1 <= m <= Nat.min n mmax)%nat ->
     Rabs ((if pole then P m (n + 1)%nat * P 1%nat 0%nat else P n m / P 1%nat 1%nat) - schmidt n m th / sin th) <= eE) ->
  (forall m, (m <= Nat.min nmax mmax)%nat -> Rabs (cs m - cos (INR m * lam)) <= eT /\ Rabs (sn m - sin (INR m * lam)) <= eT) ->
  exists br bt bp Br Bt Bp,
    synth_point_f pow fcos fsin s a nmin nmax mmax pole P (gauss_list nmin nmax mmax g h ++ rest) radius phi = Ok (br, bt, bp) /\
    is_derive (fun x => potential s a nmin nmax mmax g h x th lam) radius (- Br) /\
    is_derive (fun x => potential s a nmin nmax mmax g h radius x lam) th (- (radius * Bt)) /\
    is_derive (fun x => potential s a nmin nmax mmax g h radius th x) lam (- (radius * sin th * Bp)) /\
    Rabs (br - Br) <= over_nm 0 nmin nmax mmax (fun n m =>
      Rabs (weight s n) * rho s a radius n * (Rabs (g n m) + Rabs (h n m)) * excess K eT 1 eP) /\
    Rabs (bt - Bt) <= over_nm 0 nmin nmax mmax (fun n m =>
      rho s a radius n * (Rabs (g n m) + Rabs (h n m)) * excess K eT (Rabs (Derive (schmidt n m) th)) eD) /\
    (sin th <> 0 -> Rabs (bp - Bp) <= over_nm 1 nmin nmax mmax (fun n m =>
      INR m * rho s a radius n * (Rabs (g n m) + Rabs (h n m)) * excess K eT (Rabs (schmidt n m th / sin th)) eE)).
Proof.
  intros cs sn K Hp Ha Hr Hn HK Hc Hs (S1 & S2 & S3 & S4 & S5 & S6) P0 D0 E0 T0 EP ED EE ET.
  exact (synth_point_error p pow fcos fsin s a nmin nmax mmax pole P g h radius phi Hp Ha Hr Hn HK Hc Hs S1 S2 S3 S4 S5 S6
    th lam eP eD eE eT P0 D0 E0 T0 EP ED EE ET rest).
Qed.
