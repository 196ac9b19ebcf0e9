(** Least-squares fits of perturbed samples; export and import of smooth models
    of any order with rounded values. *)
From Coq Require Import Reals QArith Qabs Qround Qreals List Arith ZArith String Ascii Bool Lia Lra Psatz.
From Coquelicot Require Import Coquelicot.
From Verif Require Import M_Prelude M_ND Spec_Field Spec_PP Spec_Spline Spec_Smooth M_Spectrum M_PP M_Model M_FromSpline M_Time M_Text M_SHC M_SHCModel Spec_SHC Spec_Lsq Spec_Loaders
  P_Time2 P_SHC2 P_SHC3 P_SHC4 P_Spectrum P_Spline P_Spline3 P_Spline4 P_Spline5 P_PP P_PP2 P_Model P_SHCModel P_SHCModel2 P_Loaders P_SHCImport P_Smooth P_SHCImport2.
Import ListNotations.
Open Scope R_scope.

(** ** A polynomial is bounded by its values at separated nodes *)
Lemma pe_bound Rr : 0 <= Rr -> forall K l (r : nat -> R) h E s, (1 <= K)%nat -> (List.length l <= K)%nat -> 0 < h -> 0 <= E ->
  (forall i, (i < K)%nat -> Rabs (pe l (r i)) <= E) -> (forall i j, (i < K)%nat -> (j < K)%nat -> i <> j -> h <= Rabs (r i - r j)) ->
  (forall i, (i < K)%nat -> Rabs (s - r i) <= Rr * h) -> Rabs (pe l s) <= (2 * Rr + 1) ^ (K - 1) * E.
Proof.
  intros HR. induction K as [|K IH]; intros l r h E s HK L Hh HE V D S; [lia|].
  destruct (pe_div l (r K)) as (q & Lq & EQ). rewrite EQ. replace (Datatypes.S K - 1)%nat with K by lia.
  pose proof (V K ltac:(lia)) as VK.
  destruct K as [|K].
  { destruct q; [|cbn in Lq; lia]. cbn [pe fold_right pow]. rewrite Rmult_0_r, Rplus_0_r. lra. }
  assert (Q : Rabs (pe q s) <= (2 * Rr + 1) ^ (Datatypes.S K - 1) * (2 * E / h)).
  { apply (IH q r h); [lia|lia|exact Hh| | |intros i j Hi Hj; apply D; lia|intros i Hi; apply S; lia].
    - apply Rmult_le_pos; [lra|left; apply Rinv_0_lt_compat; exact Hh].
    - intros i Hi. pose proof (D i (Datatypes.S K) ltac:(lia) ltac:(lia) ltac:(lia)) as DI.
      pose proof (V i ltac:(lia)) as VI. pose proof (EQ (r i)) as Ei.
      assert (M : Rabs (r i - r (Datatypes.S K)) * Rabs (pe q (r i)) <= 2 * E).
      { rewrite <- Rabs_mult. replace ((r i - r (Datatypes.S K)) * pe q (r i)) with (pe l (r i) - pe l (r (Datatypes.S K))) by lra.
        unfold Rminus. eapply Rle_trans; [apply Rabs_triang|]. rewrite Rabs_Ropp. lra. }
      apply (Rmult_le_reg_l h); [exact Hh|]. replace (h * (2 * E / h)) with (2 * E) by (field; lra).
      eapply Rle_trans; [|exact M]. apply Rmult_le_compat_r; [apply Rabs_pos|exact DI]. }
  pose proof (S (Datatypes.S K) ltac:(lia)) as SK. cbn [Nat.sub] in Q. rewrite Nat.sub_0_r in Q. set (B := (2 * Rr + 1) ^ K) in *.
  assert (B1 : 1 <= B) by (unfold B; apply pow_R1_Rle; lra).
  eapply Rle_trans; [apply Rabs_triang|]. rewrite Rabs_mult.
  assert (M : Rabs (s - r (Datatypes.S K)) * Rabs (pe q s) <= Rr * h * (B * (2 * E / h))).
  { apply Rmult_le_compat; try apply Rabs_pos; assumption. }
  replace (Rr * h * (B * (2 * E / h))) with (2 * Rr * B * E) in M by (field; lra).
  change ((2 * Rr + 1) ^ Datatypes.S K) with ((2 * Rr + 1) * B). nra.
Qed.

Section Spl.
Variables (b : list R) (order : nat) (t : list R).
Hypothesis G : good_breaks b.
Hypothesis Ho : (2 <= order)%nat.
Hypothesis Ea : augment_breaks b (Z.of_nat order) = Ok t.
Let k := (order - 1)%nat.
Let n := (List.length t - order)%nat.
Lemma spline_piece_bound c p (r : nat -> R) h E y : (p + 1 < List.length b)%nat -> 0 < h -> 0 <= E -> nth (p + 1) b 0 - nth p b 0 <= INR k * h ->
  (forall i j, (i < order)%nat -> (j < order)%nat -> i <> j -> h <= Rabs (r i - r j)) ->
  (forall i, (i < order)%nat -> nth p b 0 <= r i <= nth (p + 1) b 0 /\ Rabs (spline t k c n (r i)) <= E) ->
  nth p b 0 <= y <= nth (p + 1) b 0 -> Rabs (spline t k c n y) <= (2 * INR k + 1) ^ k * E.
Proof.
  intros IL Hh HE HL D V Hy. assert (Ho1 : (1 <= order)%nat) by lia. set (l := map c (seq 0 n)).
  assert (Hl : forall i, (i < n)%nat -> nth i l 0 = c i) by (intros i Hi; apply map_seq_nth; exact Hi).
  set (x0 := nth p b 0) in *.
  set (q := map (fun m => spoly order t l p m x0 / INR (fact m)) (seq 0 order)).
  assert (TE : forall x, x0 <= x <= nth (p + 1) b 0 -> spline t k c n x = pe q (x - x0)).
  { intros x Hx. unfold k, n. rewrite (spline_closed b order t G Ho Ea c l p x IL Hx Hl). rewrite (spoly_taylor b order t G Ho1 Ea l p x0 x IL (proj1 Hx)). replace (Datatypes.S (order - 1)) with order by lia.
    unfold q. rewrite <- pe_sum. reflexivity. }
  rewrite TE by exact Hy. unfold k. apply (pe_bound (INR (order - 1)) ltac:(apply pos_INR) order q (fun i => r i - x0) h E).
  - lia.
  - unfold q. rewrite map_length, seq_length. lia.
  - exact Hh.
  - exact HE.
  - intros i Hi. destruct (V i Hi) as [I1 I2]. rewrite <- TE by exact I1. exact I2.
  - intros i j Hi Hj NE. replace (r i - x0 - (r j - x0)) with (r i - r j) by ring. apply D; assumption.
  - intros i Hi. destruct (V i Hi) as [[I1 I2] _]. unfold k in HL. apply Rabs_le_between. lra.
Qed.
End Spl.

(** ** Least squares is a contraction *)
Lemma quad_sum (r h : nat -> R) e l : fold_right Rplus 0 (map (fun i => (r i - e * h i) ^ 2) l) =
  fold_right Rplus 0 (map (fun i => (r i) ^ 2) l) - 2 * e * fold_right Rplus 0 (map (fun i => r i * h i) l) + e ^ 2 * fold_right Rplus 0 (map (fun i => (h i) ^ 2) l).
Proof. induction l as [|i l IH]; cbn [map fold_right]; [ring|]. rewrite IH. ring. Qed.
Lemma sqs_pos (h : nat -> R) l : 0 <= fold_right Rplus 0 (map (fun i => (h i) ^ 2) l).
Proof. induction l as [|i l IH]; cbn [map fold_right]; [lra|]. pose proof (pow2_ge_0 (h i)). lra. Qed.
Lemma spline_lin t k n x (c g : nat -> R) e : spline t k (fun j => c j + e * (g j - c j)) n x = spline t k c n x + e * (spline t k g n x - spline t k c n x).
Proof. unfold spline. induction (seq 0 n) as [|a l IH]; cbn [map fold_right]; [ring|]. rewrite IH. ring. Qed.
Lemma contraction x y t k c g : (forall c', misfit x y t k c <= misfit x y t k c') ->
  fold_right Rplus 0 (map (fun i => (spline t k g (List.length t - k - 1) (nth i x 0) - spline t k c (List.length t - k - 1) (nth i x 0)) ^ 2) (seq 0 (List.length x))) <= misfit x y t k g.
Proof.
  intros H. set (n := (List.length t - k - 1)%nat). set (r := fun i => y i - spline t k c n (nth i x 0)). set (h := fun i => spline t k g n (nth i x 0) - spline t k c n (nth i x 0)).
  set (l := seq 0 (List.length x)).
  assert (MF : forall e, misfit x y t k (fun j => c j + e * (g j - c j)) = fold_right Rplus 0 (map (fun i => (r i - e * h i) ^ 2) l)).
  { intros e. unfold misfit. fold n. fold l. f_equal. apply map_ext. intros i. rewrite spline_lin. unfold r, h. f_equal. ring. }
  assert (M0 : misfit x y t k c = fold_right Rplus 0 (map (fun i => (r i) ^ 2) l)) by reflexivity.
  assert (M1 : misfit x y t k g = fold_right Rplus 0 (map (fun i => (r i - 1 * h i) ^ 2) l)).
  { unfold misfit. fold n. fold l. f_equal. apply map_ext. intros i. unfold r, h. f_equal. ring. }
  set (P := fold_right Rplus 0 (map (fun i => r i * h i) l)). set (Hh := fold_right Rplus 0 (map (fun i => (h i) ^ 2) l)). set (Rr := fold_right Rplus 0 (map (fun i => (r i) ^ 2) l)) in *.
  assert (Q : forall e, 0 <= - 2 * e * P + e ^ 2 * Hh).
  { intros e. pose proof (H (fun j => c j + e * (g j - c j))) as A. rewrite M0, MF, quad_sum in A. fold Rr P Hh in A. lra. }
  assert (H0 : 0 <= Hh) by apply sqs_pos. assert (R0 : 0 <= Rr) by apply sqs_pos.
  assert (P0 : P = 0).
  { destruct (Req_dec Hh 0) as [E|N].
    - pose proof (Q 1). pose proof (Q (-1)). rewrite E in *. lra.
    - pose proof (Q (P / Hh)) as A. replace (-2 * (P / Hh) * P + (P / Hh) ^ 2 * Hh) with (- (P ^ 2 / Hh)) in A by (field; exact N).
      assert (0 < / Hh) by (apply Rinv_0_lt_compat; lra). assert (B : P ^ 2 <= 0). { apply Rnot_lt_le. intros B. assert (0 < P ^ 2 / Hh) by (apply Rmult_lt_0_compat; assumption). lra. }
      nra. }
  rewrite M1, quad_sum. fold Rr P Hh. change (Hh <= Rr - 2 * 1 * P + 1 ^ 2 * Hh). rewrite P0. lra.
Qed.
Lemma member_le (h : nat -> R) l i : In i l -> (h i) ^ 2 <= fold_right Rplus 0 (map (fun i => (h i) ^ 2) l).
Proof. induction l as [|a l IH]; intros H; [destruct H|]. cbn [map fold_right]. pose proof (sqs_pos h l). pose proof (pow2_ge_0 (h a)). destruct H as [ -> |H]; [lra|]. specialize (IH H). lra. Qed.
Lemma sqs_le (h : nat -> R) d l : (forall i, In i l -> Rabs (h i) <= d) -> fold_right Rplus 0 (map (fun i => (h i) ^ 2) l) <= INR (List.length l) * d ^ 2.
Proof.
  induction l as [|a l IH]; intros H; cbn [map fold_right List.length]; [cbn; lra|]. rewrite S_INR.
  pose proof (H a (or_introl eq_refl)) as A. specialize (IH (fun i Hi => H i (or_intror Hi))).
  assert ((h a) ^ 2 <= d ^ 2). { rewrite <- (pow2_abs (h a)). apply pow_incr. split; [apply Rabs_pos|exact A]. } lra.
Qed.
Lemma near_samples x y t k c g d i : (forall c', misfit x y t k c <= misfit x y t k c') ->
  (forall i, (i < List.length x)%nat -> Rabs (y i - spline t k g (List.length t - k - 1) (nth i x 0)) <= d) -> (i < List.length x)%nat ->
  Rabs (spline t k g (List.length t - k - 1) (nth i x 0) - spline t k c (List.length t - k - 1) (nth i x 0)) <= sqrt (INR (List.length x)) * d.
Proof.
  intros H V Hi. assert (Hd : 0 <= d) by (eapply Rle_trans; [apply Rabs_pos|apply (V i Hi)]).
  pose proof (contraction x y t k c g H) as C. set (n := (List.length t - k - 1)%nat) in *.
  set (h := fun i => spline t k g n (nth i x 0) - spline t k c n (nth i x 0)) in *.
  assert (A : (h i) ^ 2 <= INR (List.length x) * d ^ 2).
  { eapply Rle_trans; [apply (member_le h (seq 0 (List.length x))); apply in_seq; lia|]. eapply Rle_trans; [exact C|].
    unfold misfit. fold n. rewrite <- (seq_length (List.length x) 0) at 2. apply (sqs_le (fun i => y i - spline t k g n (nth i x 0))). intros j Hj. apply V. apply in_seq in Hj. lia. }
  fold (h i). rewrite <- (sqrt_pow2 d Hd), <- sqrt_mult by (apply pos_INR || apply pow2_ge_0). rewrite <- (sqrt_pow2 (Rabs (h i))) by apply Rabs_pos.
  apply sqrt_le_1_alt. rewrite pow2_abs. exact A.
Qed.

(** ** Import: the fit *)
Lemma import_fit lsq content lp source s nmin nmax N K step more a b knots :
  least_squares lsq -> load_shcfile content (Some (leap_flag lp)) None = Ok s ->
  l_params s = nmin :: nmax :: N :: Z.of_nat K :: step :: more -> nmin = Z.of_nat a -> nmax = Z.of_nat b -> (1 <= a <= b)%nat ->
  List.length (l_rows s) = ((b + 1) * (b + 1) - a * a)%nat ->
  (2 <= K)%nat -> (Z.of_nat K - 1 <= step)%Z -> (step < Z.of_nat (List.length (l_time s)))%Z -> rising (map Q2R (l_time s)) ->
  let breaks := every_step (map Q2R (l_time s)) (Z.to_nat step) in
  let first := (a * a - 1)%nat in
  augment_breaks breaks (Z.of_nat K) = Ok knots ->
  exists M C, from_shc lsq content lp source = Ok M /\
    m_nmax M = Some (Z.of_nat b) /\ m_source M = (match source with None => "internal"%string | Some s => s end) /\ b_breaks (m_base M) = Some breaks /\
    takes_values M (b * (b + 2)) (first_break breaks) (last_break breaks) (fun d t => spline knots (K - 1) (C d) (List.length knots - K) t) /\
    forall d, (d < b * (b + 2))%nat -> forall c',
      let sites := firstn ((List.length (map Q2R (l_time s)) - 1) / Z.to_nat step * Z.to_nat step + 1) (map Q2R (l_time s)) in
      let y := fun i => if (d <? first)%nat then 0 else Q2R (nth i (nth (d - first)%nat (l_rows s) []) 0%Q) in
      misfit sites y knots (K - 1) (C d) <= misfit sites y knots (K - 1) c'.
Proof.
  intros F EL EP -> -> Hab LR HK HS HT RI breaks first Ea.
  set (time := map Q2R (l_time s)) in *. set (st := Z.to_nat step) in *.
  assert (AA : (a * a <= b * b)%nat) by (apply Nat.mul_le_mono; lia). assert (AA1 : (1 <= a * a)%nat) by nia.
  assert (Hst1 : (1 <= st)%nat) by (unfold st; lia). assert (Hst2 : (K - 1 <= st)%nat) by (unfold st; lia).
  assert (LT : List.length time = List.length (l_time s)) by apply map_length.
  assert (Hst3 : (st < List.length time)%nat) by (unfold st; lia).
  unfold from_shc. fold (leap_flag lp). rewrite EL. cbn [bind]. rewrite EP. fold time.
  assert (BE : breaks = every_step time st) by reflexivity. clearbody breaks.
  destruct time as [|t0 tr] eqn:ET; [cbn in Hst3; lia|]. rewrite <- ET in *. subst breaks. set (breaks := every_step time st) in *.
  destruct (Z.eqb_spec (Z.of_nat K) 1) as [KK|KK]; [lia|]. replace (Z.to_nat (Z.max step 1)) with st by (unfold st; lia). fold breaks.
  set (n := (List.length knots - K)%nat) in *.
  set (y := fun i j => if (j <? first)%nat then 0 else Q2R (nth i (nth (j - first)%nat (l_rows s) []) 0%Q)).
  assert (PD : exists y', shc_padded s (Z.of_nat a) (Z.of_nat b) = Ok ((b * (b + 2))%nat, y') /\ forall i j, y' i j = y i j).
  { unfold shc_padded. destruct (Z.ltb_spec 1 (Z.of_nat a)) as [A|A].
    - replace (Z.to_nat (Z.of_nat a * Z.of_nat a - 1)) with first by (unfold first; nia).
      destruct (Z.ltb_spec (Z.of_nat b * (Z.of_nat b + 2)) 0) as [NB|_]; [exfalso; nia|].
      replace (Z.to_nat (Z.of_nat b * (Z.of_nat b + 2))) with (b * (b + 2))%nat by nia. rewrite LR.
      destruct (Nat.eqb_spec (b * (b + 2) - first) ((b + 1) * (b + 1) - a * a)) as [_|X]; [|exfalso; unfold first in X; lia]. cbn [negb].
      eexists. split; [reflexivity|]. intros i j. reflexivity.
    - assert (a = 1)%nat by lia. subst a. eexists. split; [rewrite LR; replace ((b + 1) * (b + 1) - 1 * 1)%nat with (b * (b + 2))%nat by lia; reflexivity|]. intros i j. unfold y, first. cbn [Nat.mul Nat.add Nat.sub].
      destruct (Nat.ltb_spec j 0); [lia|]. rewrite Nat.sub_0_r. reflexivity. }
  destruct PD as (y' & PD & Ey). rewrite PD. cbn [bind]. rewrite Ea. cbn [bind]. destruct (Z.ltb_spec (Z.of_nat K) 1); [lia|].
  replace (Z.to_nat (Z.of_nat K - 1)) with (K - 1)%nat by lia. rewrite Nat2Z.id.
  destruct (F (firstn ((List.length time - 1) / st * st + 1) time) (b * (b + 2))%nat y' breaks knots (K - 1)%nat (breaks_good time st RI Hst1 Hst3)) as (c & E & B).
  { replace (K - 1 + 1)%nat with K by lia. exact Ea. } { exact (sites_rising time st RI Hst1 Hst3). } { exact (sites_inside time st RI Hst1 Hst3). } { exact (sites_determine time st RI Hst1 Hst3 K knots HK Hst2 Ea). }
  rewrite E. cbn [bind].
  destruct (model_spline breaks K knots n (b * (b + 2)) c source (breaks_good time st RI Hst1 Hst3) ltac:(lia) ltac:(nia) Ea ltac:(fold n; lia)) as (M & EM & N1 & N2 & N3 & TV).
  exists M, (fun d j => c j d). split; [exact EM|]. split; [rewrite N1; f_equal; apply degree_full|]. split; [exact N2|]. split; [exact N3|]. split.
  - intros tm m HE. destruct (TV tm m HE) as (r & Er & S1 & S2 & V). exists r. split; [exact Er|]. split; [exact S1|]. split; [exact S2|].
    intros idx d Vi Hd Hx. exact (V idx d Vi Hd Hx).
  - intros d Hd c'. cbv zeta. assert (EM' : forall g, misfit (firstn ((List.length time - 1) / st * st + 1) time) (fun i => y' i d) knots (K - 1) g = misfit (firstn ((List.length time - 1) / st * st + 1) time) (fun i => y i d) knots (K - 1) g).
    { intros g. unfold misfit. f_equal. apply map_ext. intros i. rewrite Ey. reflexivity. }
    pose proof (B d Hd c') as X. rewrite !EM' in X. exact X.
Qed.
