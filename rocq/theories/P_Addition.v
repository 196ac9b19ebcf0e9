(** Uniqueness of spherical harmonic coefficients and the addition theorem of
    the Schmidt functions. *)
From Coq Require Import Reals List Arith Lia Lra ZArith Bool.
From Coquelicot Require Import Coquelicot.
From Verif Require Import M_Prelude Spec_Legendre Spec_Field Spec_Analysis Spec_Coord M_Coord M_Legendre M_Rotate M_Analysis
  P_Legendre2 P_LegendreTab P_Synth P_Spline P_Quad P_Ortho P_Gauss P_SHC2 P_Analysis P_Coord3 P_RotSH P_RotGauss.
Import ListNotations.
Open Scope R_scope.

(** ** Uniqueness *)
Theorem surface_unique N g h g' h' :
  (forall theta phi, surface 1 N g h theta phi = surface 1 N g' h' theta phi) ->
  (forall n m, (1 <= n <= N)%nat -> (m <= n)%nat -> g n m = g' n m) /\
  (forall n m, (1 <= n <= N)%nat -> (1 <= m <= n)%nat -> h n m = h' n m).
Proof.
  destruct N as [|N].
  { intros _. split; intros; lia. }
  intros H. destruct (gauss_rule_exists (S N + 1) ltac:(lia)) as (x & w & G).
  set (z := fun (a : nat -> nat -> R) n m => if Nat.eqb n 0 then 0 else a n m).
  assert (Z : forall a b theta phi, surface 0 (S N) (z a) (z b) theta phi = surface 1 (S N) a b theta phi).
  { intros a b theta phi. unfold surface, range_incl. replace (S N + 1 - 0)%nat with (S (S N)) by lia.
    replace (S N + 1 - 1)%nat with (S N) by lia. cbn [seq]. rewrite map_cons, Rsum_cons.
    rewrite (Rsum_map_0 _ (seq 0 (0 + 1 - 0))).
    2:{ intros m _. unfold z. cbn [Nat.eqb]. ring. }
    rewrite Rplus_0_l. change (1%nat :: seq 2 N) with (seq 1 (S N)). apply Rsum_map_ext. intros n Hn. apply in_seq in Hn.
    unfold z. destruct (Nat.eqb_spec n 0); [lia|]. reflexivity. }
  pose proof (sh_analysis_exact 0 (fun _ => (x, w)) (surface 0 (S N) (z g) (z h)) (S N) None (S N) (z g) (z h)) as A.
  pose proof (sh_analysis_exact 0 (fun _ => (x, w)) (surface 0 (S N) (z g) (z h)) (S N) None (S N) (z g') (z h')) as B.
  cbv beta iota zeta in A, B. specialize (A ltac:(lia) ltac:(lia) G (fun _ _ _ => eq_refl)).
  specialize (B ltac:(lia) ltac:(lia) G ltac:(intros; rewrite !Z; apply H)).
  rewrite A in B. assert (E : gauss_list 1 (S N) (S N) (z g) (z h) = gauss_list 1 (S N) (S N) (z g') (z h')) by congruence.
  rewrite !gauss_lay in E.
  split; intros n m Hn Hm.
  - pose proof (f_equal (fun l => nth (g_position n m) l 0) E) as F. cbv beta in F. rewrite !lay_nth_g in F by lia.
    unfold z in F. destruct (Nat.eqb_spec n 0); [lia|exact F].
  - pose proof (f_equal (fun l => nth (h_position n m) l 0) E) as F. cbv beta in F. rewrite !lay_nth_h in F by lia.
    unfold z in F. destruct (Nat.eqb_spec n 0); [lia|exact F].
Qed.

Lemma surface_one k g h theta phi : surface k k g h theta phi = hsum k (g k) (h k) (rad theta) (rad phi).
Proof.
  rewrite surface_hsum. unfold range_incl. replace (k + 1 - k)%nat with 1%nat by lia. cbn [seq map]. rewrite Rsum_cons.
  change (Rsum []) with 0. ring.
Qed.

Lemma hsum_ext k g h g' h' th p : (forall m, (m <= k)%nat -> g m = g' m) -> (forall m, (1 <= m <= k)%nat -> h m = h' m) ->
  hsum k g h th p = hsum k g' h' th p.
Proof.
  intros A B. unfold hsum. apply Rsum_map_ext. intros m Hm. apply in_seq in Hm. rewrite A by lia. f_equal. f_equal.
  destruct (Nat.eq_dec m 0) as [->|Nz]; [change (INR 0) with 0; rewrite Rmult_0_l, sin_0; ring|]. rewrite B by lia. reflexivity.
Qed.

Lemma hsum_unique k g h g' h' : (forall th p, hsum k g h th p = hsum k g' h' th p) ->
  (forall m, (m <= k)%nat -> g m = g' m) /\ (forall m, (1 <= m <= k)%nat -> h m = h' m).
Proof.
  intros H. destruct k as [|k].
  { split; [|intros; lia]. intros m Hm. replace m with 0%nat by lia. specialize (H 0 0). unfold hsum in H. cbn [seq map] in H.
    rewrite !Rsum_cons in H. change (Rsum []) with 0 in H. change (INR 0) with 0 in H.
    rewrite !Rmult_0_l, cos_0, sin_0, schmidt_00 in H. lra. }
  set (z := fun (a : nat -> R) n m => if Nat.eqb n (S k) then a m else 0).
  assert (Z : forall a b theta phi, surface 1 (S k) (z a) (z b) theta phi = hsum (S k) a b (rad theta) (rad phi)).
  { intros a b theta phi. rewrite surface_hsum. unfold range_incl. replace (S k + 1 - 1)%nat with (S k) by lia.
    rewrite seq_S, map_app, P_Synth.Rsum_app. cbn [map]. rewrite Rsum_cons. change (Rsum []) with 0.
    rewrite (Rsum_map_0 _ (seq 1 k)).
    2:{ intros n Hn. apply in_seq in Hn. unfold hsum. apply Rsum_map_0. intros m _. unfold z. destruct (Nat.eqb_spec n (S k)); [lia|]. ring. }
    rewrite Rplus_0_l, Rplus_0_r. apply hsum_ext; intros m Hm; unfold z; change (1 + k)%nat with (S k); rewrite Nat.eqb_refl; reflexivity. }
  destruct (surface_unique (S k) (z g) (z h) (z g') (z h')) as [A B].
  { intros. rewrite !Z. apply H. }
  split; intros m Hm.
  - specialize (A (S k) m ltac:(lia) Hm). unfold z in A. rewrite Nat.eqb_refl in A. exact A.
  - specialize (B (S k) m ltac:(lia) Hm). unfold z in B. rewrite Nat.eqb_refl in B. exact B.
Qed.

(** ** The addition theorem *)
Lemma trig_unique L a b a' b' : (forall p, trig L a b p = trig L a' b' p) -> forall m, (m <= L)%nat -> a m = a' m.
Proof.
  intros H m Hm. set (N := (2 * L + 1)%nat).
  pose proof (fft_trig N L a b (fun j => trig L a b (angle N j)) m ltac:(lia) (fun _ _ => eq_refl)) as A.
  pose proof (fft_trig N L a' b' (fun j => trig L a b (angle N j)) m ltac:(lia) (fun j _ => H (angle N j))) as B.
  rewrite A in B. apply (f_equal fst) in B. cbn [fst] in B. destruct (Nat.leb_spec m L); [|lia].
  destruct (Nat.eqb m 0); lra.
Qed.

Lemma schmidt_n0 k th : schmidt k 0 th = Qf k 0 (cos th).
Proof.
  rewrite schmidt_Q. cbn [pow]. unfold cn, norm. cbn [Nat.eqb]. rewrite Nat.add_0_r, Nat.sub_0_r.
  replace (1 * INR (fact k) / INR (fact k)) with 1 by (field; apply INR_fact_neq_0). rewrite sqrt_1. ring.
Qed.

Lemma zonal_even k s : exists a, forall th p,
  Qf k 0 (cos th * cos s + sin th * sin s * cos p) = hsum k a (fun _ => 0) th p.
Proof.
  set (e1 := V3 (cos s) 0 (- sin s)). set (e2 := V3 0 1 0). set (e3 := V3 (sin s) 0 (cos s)).
  assert (T : sin s * sin s + cos s * cos s = 1) by (pose proof (sin2_cos2 s) as X; unfold Rsqr in X; lra).
  assert (H : right_handed_orthonormal e1 e2 e3).
  { unfold right_handed_orthonormal, unit_vec, vdot, vprod, e1, e2, e3. cbn [vx vy vz].
    repeat split; try lra. f_equal; lra. }
  destruct (rotated_is_harmonic (e1, e2, e3) k 0 H ltac:(lia) cos (or_introl eq_refl)) as (g & h & E).
  assert (F : forall th p, Qf k 0 (cos th * cos s + sin th * sin s * cos p) = hsum k (g k) (h k) th p).
  { intros th p. specialize (E (np_degrees th) (np_degrees p)). cbv zeta in E.
    rewrite surface_one, !rad_degrees in E. rewrite <- E.
    pose proof (geo_to_base_fwd (np_degrees th) (np_degrees p) e1 e2 e3 H) as W.
    destruct (geo_to_base _ _ _ _) as [t' p']. destruct W as [W _]. cbn [fst snd].
    change (INR 0) with 0. rewrite Rmult_0_l, cos_0, Rmult_1_r, schmidt_n0. f_equal.
    apply (f_equal vz) in W. unfold direction, resolve, vdot, e3 in W. cbn [vx vy vz] in W. rewrite !deg_rad, !rad_degrees in W.
    rewrite W. ring. }
  exists (g k). intros th p.
  assert (X : hsum k (g k) (h k) th p + hsum k (g k) (h k) th (- p) = 2 * hsum k (g k) (fun _ => 0) th p).
  { unfold hsum. rewrite <- Rsum_map_plus, <- Rsum_map_scal. apply Rsum_map_ext. intros m _.
    replace (INR m * - p) with (- (INR m * p)) by ring. rewrite cos_neg, sin_neg. ring. }
  rewrite <- !F, cos_neg in X. lra.
Qed.

Lemma finite_choice (P : nat -> R -> Prop) n : (forall m, exists c, P m c) -> exists f, forall m, (m <= n)%nat -> P m (f m).
Proof.
  intros H. induction n as [|n [f Hf]].
  - destruct (H 0%nat) as [c Hc]. exists (fun _ => c). intros m Hm. replace m with 0%nat by lia. exact Hc.
  - destruct (H (S n)) as [c Hc]. exists (fun m => if Nat.eqb m (S n) then c else f m). intros m Hm.
    destruct (Nat.eqb_spec m (S n)) as [->|]; [exact Hc|apply Hf; lia].
Qed.

Lemma zonal_product k : exists al : nat -> R, forall th s p,
  Qf k 0 (cos th * cos s + sin th * sin s * cos p) =
  Rsum (map (fun m => al m * (schmidt k m th * schmidt k m s) * cos (INR m * p)) (seq 0 (S k))).
Proof.
  (* a_m(s) P_m(th) = a_m(th) P_m(s) *)
  assert (Sym : forall a s a' th, (forall th p, Qf k 0 (cos th * cos s + sin th * sin s * cos p) = hsum k a (fun _ => 0) th p) ->
     (forall s p, Qf k 0 (cos s * cos th + sin s * sin th * cos p) = hsum k a' (fun _ => 0) s p) ->
     forall m, (m <= k)%nat -> a m * schmidt k m th = a' m * schmidt k m s).
  { intros a s a' th Ha Ha' m Hm.
    apply (trig_unique k (fun m => a m * schmidt k m th) (fun _ => 0) (fun m => a' m * schmidt k m s) (fun _ => 0)); [|exact Hm].
    intros p. transitivity (hsum k a (fun _ => 0) th p).
    { unfold trig, hsum. apply Rsum_map_ext. intros; ring. }
    rewrite <- Ha. replace (cos th * cos s + sin th * sin s * cos p) with (cos s * cos th + sin s * sin th * cos p) by ring.
    rewrite Ha'. unfold trig, hsum. apply Rsum_map_ext. intros; ring. }
  assert (NZ : forall m, (m <= k)%nat -> exists t, schmidt k m t <> 0).
  { intros m Hm. apply Classical_Pred_Type.not_all_not_ex. intros Z.
    destruct (hsum_unique k (fun i => if Nat.eqb i m then 1 else 0) (fun _ => 0) (fun _ => 0) (fun _ => 0)) as [A _].
    { intros th p. unfold hsum. apply Rsum_map_ext. intros i _. destruct (Nat.eqb_spec i m) as [->|]; [|ring].
      specialize (Z th). apply Classical_Prop.NNPP in Z. rewrite Z. ring. }
    specialize (A m Hm). cbv beta in A. rewrite Nat.eqb_refl in A. lra. }
  assert (Al : forall m, exists c, (m <= k)%nat -> forall a s, 
    (forall th p, Qf k 0 (cos th * cos s + sin th * sin s * cos p) = hsum k a (fun _ => 0) th p) -> a m = c * schmidt k m s).
  { intros m. destruct (le_dec m k) as [Hm|Hm].
    - destruct (NZ m Hm) as [t Ht]. destruct (zonal_even k t) as [b Hb]. exists (b m / schmidt k m t). intros _ a s Ha.
      pose proof (Sym a s b t Ha Hb m Hm) as X. apply (Rmult_eq_reg_r (schmidt k m t)); [|exact Ht]. rewrite X. field. exact Ht.
    - exists 0. intros X. lia. }
  destruct (finite_choice _ k Al) as [al Hal]. exists al. intros th s p.
  destruct (zonal_even k s) as [a Ha]. rewrite Ha. unfold hsum. apply Rsum_map_ext. intros m Hm. apply in_seq in Hm.
  rewrite (Hal m ltac:(lia) ltac:(lia) a s Ha). ring.
Qed.

Lemma Qf_one_nz k m : (m <= k)%nat -> Qf k m 1 <> 0.
Proof.
  induction m as [|m IH]; intros Hm; [rewrite legendre_one; lra|].
  pose proof (Qf_ode k m 1) as E. replace (1 - 1 ^ 2) with 0 in E by ring. rewrite Rmult_0_l, Rminus_0_r in E.
  intros Z. rewrite Z, Rmult_0_r in E. symmetry in E. pose proof (pos_INR m). pose proof (lt_INR m k ltac:(lia)).
  apply Rmult_integral in E. destruct E as [E|E]; [|apply IH; [lia|exact E]].
  apply Rmult_integral in E. lra.
Qed.

Lemma cont_zero f : continuous f 1 -> (forall x, 0 < x < 1 -> f x = 0) -> f 1 = 0.
Proof.
  intros C Z. destruct (Req_dec (f 1) 0) as [E|E]; [exact E|exfalso].
  apply continuity_pt_filterlim in C. destruct (C (Rabs (f 1)) (Rabs_pos_lt _ E)) as (al & P & H).
  set (d := Rmin al 1 / 2). pose proof (Rmin_glb_lt al 1 0 P ltac:(lra)). pose proof (Rmin_l al 1). pose proof (Rmin_r al 1).
  assert (0 < d < 1 /\ d < al) as [D1 D2] by (unfold d; lra).
  specialize (H (1 - d)). rewrite (Z (1 - d)) in H by lra. unfold dist in H. cbn in H. unfold R_dist in H.
  rewrite Rminus_0_l, Rabs_Ropp in H. apply (Rlt_irrefl (Rabs (f 1))), H. split.
  - split; [exact I|lra].
  - replace (1 - d - 1) with (- d) by ring. rewrite Rabs_Ropp, Rabs_right; lra.
Qed.

Lemma cont_sum {A} (l : list A) (f : A -> R -> R) x : (forall a, continuous (f a) x) -> continuous (fun x => Rsum (map (fun a => f a x) l)) x.
Proof.
  intros H. induction l as [|a l IH].
  - apply (continuous_ext (fun _ => 0)); [intros; reflexivity|]. apply continuous_const.
  - apply (continuous_ext (fun x => f a x + Rsum (map (fun a => f a x) l))); [intros; reflexivity|].
    apply (continuous_plus (V := R_NormedModule)); [apply H|exact IH].
Qed.

Lemma squares_indep k be : (forall th, Rsum (map (fun m => be m * schmidt k m th ^ 2) (seq 0 (S k))) = 0) -> forall m, (m <= k)%nat -> be m = 0.
Proof.
  intros H.
  assert (G : forall j n, (j + n = S k)%nat -> (forall m, (m < j)%nat -> be m = 0) /\
     forall x, -1 < x < 1 -> Rsum (map (fun i => be (j + i)%nat * ((1 - x ^ 2) ^ i * (cn k (j + i) * Qf k (j + i) x) ^ 2)) (seq 0 n)) = 0).
  { induction j as [|j IH]; intros n Hn.
    - split; [intros; lia|]. intros x Hx. rewrite <- (H (acos x)). replace n with (S k) by lia. apply Rsum_map_ext. intros i _.
      cbn [Nat.add]. rewrite schmidt_Q, cos_acos by lra.
      replace (1 - x ^ 2) with (sin (acos x) ^ 2).
      2:{ pose proof (sin2_cos2 (acos x)) as X. unfold Rsqr in X. rewrite cos_acos in X by lra. lra. }
      rewrite <- pow_mult, Nat.mul_comm, pow_mult. ring.
    - destruct (IH (S n) ltac:(lia)) as [Z S].
      set (F := fun x => Rsum (map (fun i => be (j + i)%nat * ((1 - x ^ 2) ^ i * (cn k (j + i) * Qf k (j + i) x) ^ 2)) (seq 0 (Datatypes.S n)))) in *.
      assert (B : be j = 0).
      { assert (F1 : F 1 = 0).
        { apply cont_zero; [|intros x Hx; apply S; lra]. unfold F.
          apply (cont_sum (seq 0 (Datatypes.S n)) (fun i x => be (j + i)%nat * ((1 - x ^ 2) ^ i * (cn k (j + i) * Qf k (j + i) x) ^ 2))).
          intros i. apply (@ex_derive_continuous R_AbsRing R_NormedModule). auto_derive.
          eexists. apply is_derive_Qf. }
        unfold F in F1. cbn [seq map] in F1. rewrite Rsum_cons, Rsum_map_0 in F1.
        2:{ intros i Hi. apply in_seq in Hi. destruct i as [|i]; [lia|]. cbn [pow]. ring. }
        rewrite Nat.add_0_r in F1. cbn [pow] in F1.
        pose proof (cn_pos k j). pose proof (Qf_one_nz k j ltac:(lia)).
        assert (Nz : cn k j * Qf k j 1 <> 0) by (apply Rmult_integral_contrapositive_currified; lra).
        assert (N2 : cn k j * Qf k j 1 * (cn k j * Qf k j 1) <> 0) by (apply Rmult_integral_contrapositive_currified; exact Nz).
        apply (Rmult_eq_reg_r _ _ _ ) with (2 := N2). lra. }
      split.
      + intros m Hm. destruct (Nat.eq_dec m j) as [->|]; [exact B|apply Z; lia].
      + intros x Hx. specialize (S x Hx). unfold F in S. cbn [seq map] in S. rewrite Rsum_cons, Nat.add_0_r, B in S.
        rewrite <- (seq_shift n 0), map_map in S.
        rewrite (Rsum_map_ext _ (fun i => (1 - x ^ 2) * (be (Datatypes.S j + i)%nat * ((1 - x ^ 2) ^ i * (cn k (Datatypes.S j + i) * Qf k (Datatypes.S j + i) x) ^ 2)))) in S.
        2:{ intros i _. rewrite <- plus_n_Sm. cbn [Nat.add]. rewrite <- (tech_pow_Rmult _ i). ring. }
        rewrite Rsum_map_scal in S. rewrite Rmult_0_l, Rplus_0_l in S. apply Rmult_integral in S. destruct S as [S|S]; [|exact S].
        exfalso. nra. }
  intros m Hm. destruct (G (S k) 0%nat ltac:(lia)) as [X _]. apply X. lia.
Qed.

Lemma sum_f_R0_Rsum f n : sum_f_R0 f n = Rsum (map f (seq 0 (S n))).
Proof. induction n as [|n IH]; [cbn; ring|]. rewrite P_Spline.Rsum_snoc, <- IH. reflexivity. Qed.

Theorem addition k th s p :
  Qf k 0 (cos th * cos s + sin th * sin s * cos p) =
  Rsum (map (fun m => schmidt k m th * schmidt k m s * cos (INR m * p)) (seq 0 (S k))).
Proof.
  destruct (zonal_product k) as [al E]. rewrite E. apply Rsum_map_ext. intros m Hm. apply in_seq in Hm.
  enough (al m = 1) as -> by ring.
  enough (al m - 1 = 0) by lra. apply (squares_indep k (fun m => al m - 1)); [|lia]. intros t.
  transitivity (Rsum (map (fun m => al m * (schmidt k m t * schmidt k m t) * cos (INR m * 0)) (seq 0 (S k))) - sumsq k t).
  - unfold sumsq. rewrite sum_f_R0_Rsum.
    rewrite (Rsum_map_ext (fun m => (al m - 1) * schmidt k m t ^ 2) (fun m => al m * (schmidt k m t * schmidt k m t) * cos (INR m * 0) + (-1) * schmidt k m t ^ 2)).
    + rewrite Rsum_map_plus, Rsum_map_scal. ring.
    + intros i _. rewrite Rmult_0_r, cos_0. ring.
  - rewrite <- E, sumsq_one, cos_0. pose proof (sin2_cos2 t) as X. unfold Rsqr in X.
    replace (cos t * cos t + sin t * sin t * 1) with 1 by lra. rewrite legendre_one. ring.
Qed.
