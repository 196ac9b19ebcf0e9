(** BaseModel.from_shc for orders from two. *)
From Coq Require Import Reals QArith Qreals List Arith ZArith String Bool Lia Lra.
From Verif Require Import M_Prelude M_ND Spec_Field Spec_PP Spec_Smooth Spec_Spline M_Spectrum M_PP M_Model M_FromSpline M_Text M_SHC M_SHCModel Spec_Lsq Spec_Loaders
  P_Spectrum P_Spline P_Spline3 P_Spline4 P_Spline5 P_PP P_PP2 P_Model P_SHCModel P_SHCModel2 P_Loaders.
Import ListNotations.
Open Scope R_scope.

Lemma rising_lt l : rising l -> forall i j, (i < j < List.length l)%nat -> nth i l 0 < nth j l 0.
Proof.
  intros H i j [H1 H2]. induction j as [|j IH]; [lia|]. pose proof (H j ltac:(lia)) as S1. rewrite Nat.add_1_r in S1.
  destruct (Nat.eq_dec i j) as [ -> |NE]; [exact S1|]. specialize (IH ltac:(lia) ltac:(lia)). lra.
Qed.
Lemma rising_le l : rising l -> forall i j, (i <= j < List.length l)%nat -> nth i l 0 <= nth j l 0.
Proof. intros H i j [H1 H2]. destruct (Nat.eq_dec i j) as [ -> |NE]; [lra|]. left. apply rising_lt; [exact H|lia]. Qed.

Lemma spline_ext t k c c' m x : (forall j, (j < m)%nat -> c j = c' j) -> spline t k c m x = spline t k c' m x.
Proof. intros H. unfold spline. f_equal. apply map_ext_in. intros j Hj. apply in_seq in Hj. rewrite H by lia. reflexivity. Qed.

Section Sites.
Variables (time : list R) (step : nat).
Hypothesis Ri : rising time.
Hypothesis Hs : (1 <= step)%nat.
Hypothesis Hl : (step < List.length time)%nat.
Let P := ((List.length time - 1) / step)%nat.
Let breaks := every_step time step.
Let sites := firstn (P * step + 1) time.

Lemma P_bound : (P * step + 1 <= List.length time)%nat.
Proof. pose proof (Nat.mul_div_le (List.length time - 1) step ltac:(lia)). unfold P. nia. Qed.
Lemma P_pos : (1 <= P)%nat. Proof. unfold P. apply Nat.div_le_lower_bound; lia. Qed.
Lemma breaks_len : List.length breaks = (P + 1)%nat.
Proof. unfold breaks, every_step. rewrite map_length, seq_length. reflexivity. Qed.
Lemma breaks_nth p : (p <= P)%nat -> nth p breaks 0 = nth (p * step) time 0.
Proof. intros Hp. unfold breaks, every_step. apply (map_seq_nth (fun i => nth (i * step) time 0)). fold P. lia. Qed.
Lemma breaks_good : good_breaks breaks.
Proof.
  split; [rewrite breaks_len; pose proof P_pos; lia|]. intros i Hi. rewrite breaks_len in Hi. rewrite !breaks_nth by lia. apply rising_lt; [exact Ri|].
  pose proof P_bound. nia.
Qed.
Lemma sites_len : List.length sites = (P * step + 1)%nat.
Proof. unfold sites. rewrite firstn_length. pose proof P_bound. lia. Qed.
Lemma sites_nth i : (i < P * step + 1)%nat -> nth i sites 0 = nth i time 0.
Proof.
  intros Hi. unfold sites. rewrite <- (firstn_skipn (P * step + 1) time) at 2. rewrite app_nth1; [reflexivity|].
  fold sites. rewrite sites_len. exact Hi.
Qed.
Lemma sites_rising : rising sites.
Proof. intros i Hi. rewrite sites_len in Hi. rewrite !sites_nth by lia. apply Ri. pose proof P_bound. lia. Qed.
Lemma sites_inside i : (i < List.length sites)%nat -> first_break breaks <= nth i sites 0 <= last_break breaks.
Proof.
  intros Hi. rewrite sites_len in Hi. rewrite sites_nth by exact Hi. unfold first_break, last_break. rewrite breaks_len. replace (P + 1 - 1)%nat with P by lia.
  rewrite !breaks_nth by lia. pose proof P_bound. split; apply rising_le; (exact Ri || lia).
Qed.

Variables (K : nat) (knots : list R).
Hypothesis HK : (2 <= K)%nat.
Hypothesis Hst : (K - 1 <= step)%nat.
Hypothesis Ea : augment_breaks breaks (Z.of_nat K) = Ok knots.
Let n := (List.length knots - K)%nat.

Lemma sites_determine : determined sites knots (K - 1).
Proof.
  intros c H j Hj. replace (List.length knots - (K - 1) - 1)%nat with (List.length knots - K)%nat in * by lia.
  apply (zero_coefficients breaks K knots breaks_good HK Ea c); [|exact Hj]. intros p Hp. rewrite breaks_len in Hp.
  exists (fun i => nth (p * step + i) time 0). pose proof P_bound. split.
  - intros i i' Hi Hi' NE E. assert (X : (p * step + i < p * step + i' \/ p * step + i' < p * step + i)%nat) by lia.
    assert (PP : ((p + 1) * step <= P * step)%nat) by (apply Nat.mul_le_mono_r; lia).
    assert (M1 : (p * step + i < List.length time)%nat) by lia. assert (M2 : (p * step + i' < List.length time)%nat) by lia.
    destruct X as [X|X]; [pose proof (rising_lt time Ri _ _ (conj X M2))|pose proof (rising_lt time Ri _ _ (conj X M1))]; lra.
  - intros i Hi. assert (PP : ((p + 1) * step <= P * step)%nat) by (apply Nat.mul_le_mono_r; lia). assert (B : (p * step + i < P * step + 1)%nat) by lia. rewrite !breaks_nth by lia. split.
    + split; apply rising_le; (exact Ri || lia).
    + rewrite <- sites_nth by exact B. apply H. rewrite sites_len. exact B.
Qed.

(** a fit to samples of a spline is that spline *)
Lemma exact_fit fit dim y (f : nat -> nat -> R) : least_squares fit ->
  (forall i d, (i < List.length sites)%nat -> (d < dim)%nat -> y i d = spline knots (K - 1) (f d) n (nth i sites 0)) ->
  exists c, fit sites dim y knots (K - 1)%nat = Ok c /\ forall d j, (d < dim)%nat -> (j < n)%nat -> c j d = f d j.
Proof.
  intros F H. assert (NN : (List.length knots - (K - 1) - 1)%nat = n) by (unfold n; lia).
  destruct (F sites dim y breaks knots (K - 1)%nat breaks_good) as (c & E & B).
  { replace (K - 1 + 1)%nat with K by lia. exact Ea. } { exact sites_rising. } { exact sites_inside. } { exact sites_determine. }
  exists c. split; [exact E|]. intros d j Hd Hj.
  assert (Z : misfit sites (fun i => y i d) knots (K - 1) (f d) = 0).
  { unfold misfit. rewrite NN. change (Rsum (map (fun i => (y i d - spline knots (K - 1) (f d) n (nth i sites 0)) ^ 2) (seq 0 (List.length sites))) = 0).
    rewrite (Rsum_seq_ext _ (fun _ => 0)); [apply Rsum_const0|]. intros i Hi. rewrite H by assumption. ring. }
  pose proof (B d Hd (f d)) as LE. rewrite Z in LE.
  assert (RZ : forall i, (i < List.length sites)%nat -> y i d = spline knots (K - 1) (fun j => c j d) n (nth i sites 0)).
  { unfold misfit in LE. rewrite NN in LE. assert (NG : forall l g, 0 <= fold_right Rplus 0 (map (fun i : nat => (g i) ^ 2) l)).
    { induction l as [|a l IH]; intros g; cbn [map fold_right]; [lra|]. pose proof (pow2_ge_0 (g a)). specialize (IH g). lra. }
    assert (AL : forall l g, fold_right Rplus 0 (map (fun i : nat => (g i) ^ 2) l) <= 0 -> forall i, In i l -> g i = 0).
    { induction l as [|a l IH]; intros g HL i Hi; [destruct Hi|]. cbn [map fold_right] in HL. pose proof (pow2_ge_0 (g a)). pose proof (NG l g).
      destruct Hi as [ -> |Hi]; [|apply IH; [lra|exact Hi]]. assert (g i ^ 2 = 0) by lra. rewrite <- Rsqr_pow2 in H2. apply Rsqr_0_uniq. exact H2. }
    intros i Hi. pose proof (AL _ (fun i => y i d - spline knots (K - 1) (fun j => c j d) n (nth i sites 0)) LE i ltac:(apply in_seq; lia)) as X. cbv beta in X. lra. }
  assert (DZ : c j d - f d j = 0).
  { apply (sites_determine (fun j => c j d - f d j)); [|rewrite NN; exact Hj]. intros i Hi. rewrite NN.
    assert (SM : spline knots (K - 1) (fun j => c j d - f d j) n (nth i sites 0) =
       spline knots (K - 1) (fun j => c j d) n (nth i sites 0) - spline knots (K - 1) (f d) n (nth i sites 0)).
    { unfold spline. induction (seq 0 n) as [|a l IH]; cbn [map fold_right]; [ring|]. rewrite IH. ring. }
    rewrite SM, <- RZ, H by assumption. ring. }
  lra.
Qed.
End Sites.

Lemma import_spline lsq content lp source s nmin nmax N K step more a b (f : nat -> nat -> R) knots :
  least_squares lsq -> load_shcfile content (Some (leap_flag lp)) None = Ok s ->
  l_params s = nmin :: nmax :: N :: Z.of_nat K :: step :: more -> nmin = Z.of_nat a -> nmax = Z.of_nat b -> (1 <= a <= b)%nat ->
  List.length (l_rows s) = ((b + 1) * (b + 1) - a * a)%nat ->
  (2 <= K)%nat -> (Z.of_nat K - 1 <= step)%Z -> (step < Z.of_nat (List.length (l_time s)))%Z -> rising (map Q2R (l_time s)) ->
  let breaks := every_step (map Q2R (l_time s)) (Z.to_nat step) in
  let first := (a * a - 1)%nat in
  augment_breaks breaks (Z.of_nat K) = Ok knots ->
  (forall j i, (j < List.length (l_rows s))%nat -> (i < List.length (l_time s))%nat -> Q2R (nth i (l_time s) 0%Q) <= last_break breaks ->
     Q2R (nth i (nth j (l_rows s) []) 0%Q) = spline knots (K - 1) (f j) (List.length knots - K) (Q2R (nth i (l_time s) 0%Q))) ->
  exists M, from_shc lsq content lp source = Ok M /\
    m_nmax M = Some (Z.of_nat b) /\ m_source M = (match source with None => "internal"%string | Some s => s end) /\ b_breaks (m_base M) = Some breaks /\
    takes_values M (b * (b + 2)) (first_break breaks) (last_break breaks) (fun d t =>
      if (d <? first)%nat then 0 else spline knots (K - 1) (f (d - first)%nat) (List.length knots - K) t).
Proof.
  intros F EL EP -> -> Hab LR HK HS HT RI breaks first Ea H.
  set (time := map Q2R (l_time s)) in *. set (st := Z.to_nat step) in *.
  assert (AA : (a * a <= b * b)%nat) by (apply Nat.mul_le_mono; lia). assert (AA1 : (1 <= a * a)%nat) by nia.
  assert (Hst1 : (1 <= st)%nat) by (unfold st; lia). assert (Hst2 : (K - 1 <= st)%nat) by (unfold st; lia).
  assert (LT : List.length time = List.length (l_time s)) by apply map_length.
  assert (Hst3 : (st < List.length time)%nat) by (unfold st; lia).
  unfold from_shc. fold (leap_flag lp). rewrite EL. cbn [bind]. rewrite EP. fold time.
  assert (BE : breaks = every_step time st) by reflexivity. clearbody breaks.
  destruct time as [|t0 tr] eqn:ET; [cbn in Hst3; lia|]. rewrite <- ET in *. subst breaks. set (breaks := every_step time st) in *.
  destruct (Z.eqb_spec (Z.of_nat K) 1) as [KK|KK]; [lia|]. replace (Z.to_nat (Z.max step 1)) with st by (unfold st; lia). fold breaks.
  set (n := (List.length knots - K)%nat) in *.
  set (y := fun i j => if (j <? first)%nat then 0 else Q2R (nth i (nth (j - first)%nat (l_rows s) []) 0%Q)).
  assert (PD : exists y', shc_padded s (Z.of_nat a) (Z.of_nat b) = Ok ((b * (b + 2))%nat, y') /\ forall i j, y' i j = y i j).
  { unfold shc_padded. destruct (Z.ltb_spec 1 (Z.of_nat a)) as [A|A].
    - replace (Z.to_nat (Z.of_nat a * Z.of_nat a - 1)) with first by (unfold first; nia).
      destruct (Z.ltb_spec (Z.of_nat b * (Z.of_nat b + 2)) 0) as [NB|_]; [exfalso; nia|].
      replace (Z.to_nat (Z.of_nat b * (Z.of_nat b + 2))) with (b * (b + 2))%nat by nia. rewrite LR.
      destruct (Nat.eqb_spec (b * (b + 2) - first) ((b + 1) * (b + 1) - a * a)) as [_|X]; [|exfalso; unfold first in X; lia]. cbn [negb].
      eexists. split; [reflexivity|]. intros i j. reflexivity.
    - assert (a = 1)%nat by lia. subst a. eexists. split; [rewrite LR; replace ((b + 1) * (b + 1) - 1 * 1)%nat with (b * (b + 2))%nat by lia; reflexivity|]. intros i j. unfold y, first. cbn [Nat.mul Nat.add Nat.sub].
      destruct (Nat.ltb_spec j 0); [lia|]. rewrite Nat.sub_0_r. reflexivity. }
  destruct PD as (y' & PD & Ey). rewrite PD. cbn [bind]. rewrite Ea. cbn [bind]. destruct (Z.ltb_spec (Z.of_nat K) 1); [lia|].
  replace (Z.to_nat (Z.of_nat K - 1)) with (K - 1)%nat by lia. rewrite Nat2Z.id.
  set (g := fun d j => if (d <? first)%nat then 0 else f (d - first)%nat j).
  assert (SG : forall d t, spline knots (K - 1) (g d) n t = if (d <? first)%nat then 0 else spline knots (K - 1) (f (d - first)%nat) n t).
  { intros d t. unfold g. destruct (Nat.ltb_spec d first); [|reflexivity]. unfold spline. induction (seq 0 n) as [|u l IH]; cbn [map fold_right]; [reflexivity|]. rewrite IH. ring. }
  destruct (exact_fit time st RI Hst1 Hst3 K knots HK Hst2 Ea lsq (b * (b + 2)) y' g F) as (c & E & CE).
  { intros i d Hi Hd. rewrite Ey. fold n. rewrite SG. unfold y. destruct (Nat.ltb_spec d first) as [D|D]; [reflexivity|].
    pose proof (sites_inside time st RI Hst1 Hst3 i Hi) as [_ IN]. fold breaks in IN.
    rewrite (sites_len time st Hst1 Hst3) in Hi. rewrite (sites_nth time st Hst1 Hst3) in * by exact Hi. pose proof (P_bound time st Hst1 Hst3) as PB.
    assert (TQ : nth i time 0 = Q2R (nth i (l_time s) 0%Q)) by (unfold time; rewrite <- RMicromega.Q2R_0, (map_nth Q2R); reflexivity).
    rewrite TQ in IN. rewrite TQ. apply H; [rewrite LR; unfold first in *; lia|lia|exact IN]. }
  rewrite E. cbn [bind].
  destruct (model_spline breaks K knots n (b * (b + 2)) c source (breaks_good time st RI Hst1 Hst3) ltac:(lia) ltac:(nia) Ea ltac:(fold n; lia)) as (M & EM & N1 & N2 & N3 & TV).
  exists M. split; [exact EM|]. split; [rewrite N1; f_equal; apply degree_full|]. split; [exact N2|]. split; [exact N3|].
  intros tm m HE. destruct (TV tm m HE) as (r & Er & S1 & S2 & V). exists r. split; [exact Er|]. split; [exact S1|]. split; [exact S2|].
  intros idx d Vi Hd Hx. rewrite (V idx d Vi Hd Hx). f_equal. fold n. rewrite <- SG. apply spline_ext. intros j Hj. apply CE; assumption.
Qed.
