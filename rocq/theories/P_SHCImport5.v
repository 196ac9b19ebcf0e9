(** Export and import of smooth models of any order: values rounded to eight decimals. *)
From Coq Require Import Reals QArith Qabs Qround Qreals List Arith ZArith String Ascii Bool Lia Lra Psatz.
From Coquelicot Require Import Coquelicot.
From Verif Require Import M_Prelude M_ND Spec_Field Spec_PP Spec_Spline Spec_Smooth M_Spectrum M_PP M_Model M_FromSpline M_Time M_Text M_SHC M_SHCModel Spec_SHC Spec_Lsq Spec_Loaders
  P_Time2 P_SHC2 P_SHC3 P_SHC4 P_Spectrum P_Spline P_Spline3 P_Spline4 P_Spline5 P_PP P_PP2 P_Model P_SHCModel P_SHCModel2 P_Loaders P_SHCImport P_Smooth P_SHCImport2 P_SHCImport4.
Import ListNotations.
Open Scope R_scope.

Lemma spline_minus t k n x (c g : nat -> R) : spline t k (fun j => g j - c j) n x = spline t k g n x - spline t k c n x.
Proof. unfold spline. induction (seq 0 n) as [|a l IH]; cbn [map fold_right]; [ring|]. rewrite IH. ring. Qed.
Lemma spline_zero t k n x : spline t k (fun _ => 0) n x = 0.
Proof. unfold spline. induction (seq 0 n) as [|a l IH]; cbn [map fold_right]; [reflexivity|]. rewrite IH. ring. Qed.

Lemma rounded_round_trip now fs name x K D c source tq cq path lp nmin nmax header a b source' lsq :
  let M := model_init (Some x) None (Some (mkc3 K (List.length x - 1) D c)) source in
  let N := ((List.length x - 1) * (K - 1) + 1)%nat in
  least_squares lsq -> good_breaks x -> (2 <= K)%nat -> exported M tq cq ->
  first_degree nmin a -> last_degree D nmax b -> (1 <= a <= b)%nat -> (b * (b + 2) <= D)%nat ->
  (match header with None => ~ In "010"%char name | Some h => comment_lines h end) -> ~ In "010"%char now ->
  (forall d, (d < b * (b + 2))%nat -> smooth_at_breaks x K c d) ->
  (lp = Some true -> forall t, In t tq -> mjd_ok t) ->
  (forall t, In t tq -> exists y, mjd_to_dyear t (Some (leap_flag lp)) = Ok y /\ exact8 y) ->
  exists fs' text M' f,
    to_shc now fs name M tq cq path lp nmin nmax header = (fs', Ok tt) /\ fs' path = Some text /\
    from_shc lsq text lp source' = Ok M' /\
    m_nmax M' = Some (Z.of_nat b) /\ m_source M' = (match source' with None => "internal"%string | Some s => s end) /\ b_breaks (m_base M') = Some x /\ b_order (m_base M') = Some (Z.of_nat K) /\
    takes_values M' (b * (b + 2)) (first_break x) (last_break x) f /\
    (forall p d t, (d < a * a - 1)%nat -> in_interval x p t -> f d t = 0) /\
    (forall p d t, (a * a - 1 <= d < b * (b + 2))%nat -> in_interval x p t -> In t (map Q2R tq) ->
       Rabs (f d t - piece x K c p d t) <= sqrt (INR N) / 200000000) /\
    forall p d t, (a * a - 1 <= d < b * (b + 2))%nat -> in_interval x p t ->
      Rabs (f d t - piece x K c p d t) <= (2 * INR K - 1) ^ (K - 1) * sqrt (INR N) / 200000000.
Proof.
  intros M N F G HK EX0 Ha Hb Hab HbD Hh Hn SM Hlp TX. pose proof G as [L2 GS].
  destruct (export_round now fs name x K D c source tq cq path lp nmin nmax header a b G HK EX0 Ha Hb Hab HbD Hh Hn Hlp TX)
    as (fs' & text & s & times' & E1 & E2 & E3 & E4 & E6 & TE & LT0 & LQ & TN & VA). fold M in E1.
  assert (LTS : List.length (l_time s) = List.length times') by (rewrite <- TE, map_length; reflexivity).
  assert (RI : rising (map Q2R (l_time s))).
  { rewrite TE. intros i Hi. rewrite LT0 in Hi. set (p := (i / (K - 1))%nat). set (m := (i mod (K - 1))%nat).
    pose proof (Nat.div_mod i (K - 1) ltac:(lia)) as DM. pose proof (Nat.mod_upper_bound i (K - 1) ltac:(lia)) as MB. fold p m in DM, MB.
    assert (PB : (p + 1 < List.length x)%nat) by nia.
    assert (I1 : i = (p * (K - 1) + m)%nat) by lia.
    assert (I2 : (i + 1 = p * (K - 1) + (m + 1))%nat) by lia. rewrite I2. rewrite I1 at 1. rewrite !TN by lia.
    pose proof (GS p PB) as GP. rewrite plus_INR. change (INR 1) with 1.
    assert (HP : 0 < (nth (p + 1) x 0 - nth p x 0) / INR (K - 1)) by (apply Rdiv_lt_0_compat; [lra|apply lt_0_INR; lia]). lra. }
  assert (BE : every_step (map Q2R (l_time s)) (Z.to_nat (Z.of_nat K - 1)) = x).
  { rewrite TE. replace (Z.to_nat (Z.of_nat K - 1)) with (K - 1)%nat by lia. unfold every_step. rewrite LT0.
    rewrite Nat.add_sub, Nat.div_mul by (clear - HK; lia).
    apply (nth_ext _ _ 0 0); [rewrite map_length, seq_length; lia|]. intros p Hp. rewrite map_length, seq_length in Hp.
    rewrite (map_seq_nth (fun i => nth (i * (K - 1)) times' 0)) by exact Hp.
    assert (IK : INR (K - 1) <> 0) by (apply not_0_INR; lia).
    destruct (Nat.eq_dec p (List.length x - 1)) as [EP|NEP].
    - rewrite EP. replace ((List.length x - 1) * (K - 1))%nat with ((List.length x - 2) * (K - 1) + (K - 1))%nat by nia. rewrite TN by lia.
      replace (List.length x - 2 + 1)%nat with (List.length x - 1)%nat by lia. field. exact IK.
    - rewrite <- (Nat.add_0_r (p * (K - 1))), TN by lia. change (INR 0) with 0. ring. }
  destruct (augment_breaks x (Z.of_nat K)) as [knots|e] eqn:Ea; [|unfold augment_breaks in Ea; destruct x; [cbn in L2; lia|discriminate]].
  (* the splines *)
  destruct (fin_choice (fun d C => forall p y, in_interval x p y -> piece x K c p d y = spline knots (K - 1) C (List.length knots - K) y) (fun _ => 0) (b * (b + 2))) as [g Hg].
  { intros d Hd. apply (pieces_are_spline x K knots c d G HK Ea). apply SM. exact Hd. }
  assert (NI : forall i, (i < List.length times')%nat -> exists p, in_interval x p (nth i times' 0)).
  { intros i Hi. rewrite LT0 in Hi. set (p := (i / (K - 1))%nat). set (m := (i mod (K - 1))%nat).
    pose proof (Nat.div_mod i (K - 1) ltac:(lia)) as DM. pose proof (Nat.mod_upper_bound i (K - 1) ltac:(lia)) as MB. fold p m in DM, MB.
    apply (in_interval_ex x _ G). assert (X : exists p m, (p + 1 < List.length x)%nat /\ (m < K)%nat /\ i = (p * (K - 1) + m)%nat).
    { destruct (Nat.eq_dec p (List.length x - 1)) as [EP|NEP]; [exists (List.length x - 2)%nat, (K - 1)%nat; repeat split; nia|exists p, m; repeat split; nia]. }
    destruct X as (p' & m' & X1 & X2 & X3). rewrite X3, TN by assumption. pose proof (GS p' X1) as GP.
    pose proof (good_mono x G 0 p' ltac:(lia)) as Y1. pose proof (good_mono x G (p' + 1) (List.length x - 1) ltac:(lia)) as Y2. fold (first_break x) in Y1. fold (last_break x) in Y2.
    assert (IK : 0 < INR (K - 1)) by (apply lt_0_INR; lia). assert (MK : INR m' <= INR (K - 1)) by (apply le_INR; lia). pose proof (pos_INR m') as M0.
    set (h := (nth (p' + 1) x 0 - nth p' x 0) / INR (K - 1)). assert (HE : INR (K - 1) * h = nth (p' + 1) x 0 - nth p' x 0) by (unfold h; field; lra).
    assert (H0 : 0 < h) by (unfold h; apply Rdiv_lt_0_compat; lra). nra. }

  assert (TQ : map Q2R tq = times').
  { destruct EX0 as (times & r' & ED' & TQ & _). destruct (samples x K D c source G HK ltac:(nia)) as (times2 & r0 & ED & LT2 & TN2 & _).
    fold M in ED. rewrite ED in ED'. injection ED' as E8 _. rewrite TQ, <- E8. apply (nth_ext _ _ 0 0); [lia|]. intros i Hi. rewrite LT2 in Hi.
    assert (X : exists p m, (p + 1 < List.length x)%nat /\ (m < K)%nat /\ i = (p * (K - 1) + m)%nat).
    { set (p := (i / (K - 1))%nat). set (m := (i mod (K - 1))%nat). pose proof (Nat.div_mod i (K - 1) ltac:(lia)) as DM. pose proof (Nat.mod_upper_bound i (K - 1) ltac:(lia)) as MB. fold p m in DM, MB.
      destruct (Nat.eq_dec p (List.length x - 1)) as [EP|NEP]; [exists (List.length x - 2)%nat, (K - 1)%nat; repeat split; nia|exists p, m; repeat split; nia]. }
    destruct X as (p & m & X1 & X2 & X3). rewrite X3, TN, TN2 by assumption. reflexivity. }
  destruct (import_fit lsq text lp source' s (Z.of_nat a) (Z.of_nat b) (Z.of_nat (List.length tq)) K (Z.of_nat K - 1)%Z [] a b knots
     F E3 E4 eq_refl eq_refl Hab E6 HK ltac:(lia)) as (M' & C & EM & N1 & N2 & N3 & TVM & LS).
  { rewrite LTS, LT0. nia. } { exact RI. } { rewrite BE. exact Ea. }
  rewrite BE in N3, TVM. rewrite E1.
  assert (SI : firstn ((List.length (map Q2R (l_time s)) - 1) / Z.to_nat (Z.of_nat K - 1) * Z.to_nat (Z.of_nat K - 1) + 1) (map Q2R (l_time s)) = times').
  { rewrite TE, LT0. replace (Z.to_nat (Z.of_nat K - 1)) with (K - 1)%nat by lia. rewrite Nat.add_sub, Nat.div_mul by lia. rewrite <- LT0. apply firstn_all. }
  cbv zeta in LS. rewrite SI in LS.
  set (n := (List.length knots - K)%nat) in *. assert (NN : (List.length knots - (K - 1) - 1)%nat = n) by (unfold n; lia).
  assert (AA1 : (1 <= a * a)%nat) by nia.
  (* missing degrees *)
  assert (Z0 : forall d t, (d < a * a - 1)%nat -> spline knots (K - 1) (C d) n t = 0).
  { intros d t Hd. assert (AA : (a * a <= b * b)%nat) by (apply Nat.mul_le_mono; lia). pose proof (LS d ltac:(nia)) as L.
    assert (CZ : forall j, (j < n)%nat -> C d j = 0).
    { intros j Hj. pose proof (sites_determine (map Q2R (l_time s)) (K - 1) RI ltac:(lia) ltac:(rewrite map_length, LTS, LT0; nia) K knots HK ltac:(lia)) as DT.
      replace (Z.to_nat (Z.of_nat K - 1)) with (K - 1)%nat in BE, SI by lia. rewrite BE in DT. specialize (DT Ea). rewrite SI in DT.
      apply DT; [|rewrite NN; exact Hj]. intros i Hi.
      pose proof (near_samples times' (fun i => if (d <? a * a - 1)%nat then 0 else Q2R (nth i (nth (d - (a * a - 1)) (l_rows s) []) 0%Q)) knots (K - 1) (C d) (fun _ => 0) 0 i L) as NS.
      rewrite NN in *. rewrite spline_zero in NS. assert (Y : Rabs (0 - spline knots (K - 1) (C d) n (nth i times' 0)) <= sqrt (INR (List.length times')) * 0).
      { apply NS; [|exact Hi]. intros i' _. destruct (Nat.ltb_spec d (a * a - 1)); [|lia]. rewrite spline_zero, Rminus_0_r, Rabs_R0. lra. }
      rewrite Rmult_0_r in Y. pose proof (Rabs_pos (0 - spline knots (K - 1) (C d) n (nth i times' 0))). destruct (Req_dec (0 - spline knots (K - 1) (C d) n (nth i times' 0)) 0) as [E|E]; [lra|]. apply Rabs_no_R0 in E. lra. }
    rewrite (spline_ext knots (K - 1) (C d) (fun _ => 0) n t CZ). apply spline_zero. }
  (* errors at the sites *)
  set (dl := / 200000000). assert (Hdl : 0 < dl) by (unfold dl; lra).
  assert (ER : forall d i, (a * a - 1 <= d < b * (b + 2))%nat -> (i < List.length times')%nat ->
    Rabs (spline knots (K - 1) (g d) n (nth i times' 0) - spline knots (K - 1) (C d) n (nth i times' 0)) <= sqrt (INR N) * dl).
  { intros d i Hd Hi. unfold N. rewrite <- LT0. rewrite <- NN.
    apply (near_samples times' (fun i => if (d <? a * a - 1)%nat then 0 else Q2R (nth i (nth (d - (a * a - 1)) (l_rows s) []) 0%Q)) knots (K - 1) (C d) (g d) dl i); [apply LS; lia| |exact Hi].
    intros i' Hi'. rewrite NN. destruct (Nat.ltb_spec d (a * a - 1)); [lia|]. destruct (NI i' Hi') as [p I].
    assert (JR : (d - (a * a - 1) < List.length (l_rows s))%nat) by (rewrite E6; lia).
    destruct (VA (d - (a * a - 1))%nat i' p JR Hi' I) as [(kk & _ & R2) V]. replace (a * a - 1 + (d - (a * a - 1)))%nat with d in R2, V by lia.
    rewrite <- (Hg d ltac:(lia) p _ I), <- V. replace dl with (Q2R (1 # 200000000)) by (unfold Q2R, dl; cbn; lra). apply Q2R_abs. exact R2. }
  exists fs', text, M', (fun d t => spline knots (K - 1) (C d) n t).
  split; [reflexivity|]. split; [exact E2|]. split; [exact EM|]. split; [exact N1|]. split; [exact N2|]. split; [exact N3|]. split; [exact (from_shc_order lsq text lp source' s _ _ _ _ _ _ M' E3 E4 EM)|]. split; [exact TVM|].
  split; [intros p d t Hd _; apply Z0; exact Hd|]. split.
  - intros p d t Hd I HI. rewrite TQ in HI. destruct (In_nth _ _ 0 HI) as (i & Hi & Ei). rewrite (Hg d ltac:(lia) p t I). rewrite Rabs_minus_sym. rewrite <- Ei. apply ER; assumption.
  - intros p d t Hd I. pose proof I as (IL & I1 & I2). rewrite (Hg d ltac:(lia) p t I). rewrite Rabs_minus_sym, <- spline_minus.
    assert (IK : 0 < INR (K - 1)) by (apply lt_0_INR; lia).
    set (h := (nth (p + 1) x 0 - nth p x 0) / INR (K - 1)). pose proof (GS p IL) as GP. assert (H0 : 0 < h) by (unfold h; apply Rdiv_lt_0_compat; lra).
    assert (HE : INR (K - 1) * h = nth (p + 1) x 0 - nth p x 0) by (unfold h; field; lra).
    replace ((2 * INR K - 1) ^ (K - 1) * sqrt (INR N) / 200000000) with ((2 * INR (K - 1) + 1) ^ (K - 1) * (sqrt (INR N) * dl)).
    2:{ unfold dl. replace (2 * INR K - 1) with (2 * INR (K - 1) + 1) by (rewrite minus_INR by lia; cbn [INR]; ring). field. }
    apply (spline_piece_bound x K knots G HK Ea (fun j => g d j - C d j) p (fun i => nth (p * (K - 1) + i) times' 0) h).
    + exact IL.
    + exact H0.
    + apply Rmult_le_pos; [apply sqrt_pos|lra].
    + lra.
    + intros i j Hi Hj NE. rewrite !TN by assumption. fold h. replace (nth p x 0 + INR i * h - (nth p x 0 + INR j * h)) with ((INR i - INR j) * h) by ring.
      rewrite Rabs_mult, (Rabs_pos_eq h) by lra. rewrite <- (Rmult_1_l h) at 1. apply Rmult_le_compat_r; [lra|].
      destruct (Nat.lt_ge_cases i j) as [LL|LL].
      * apply (le_INR (i + 1) j) in LL || (assert (LL' : (i + 1 <= j)%nat) by lia; apply le_INR in LL'; rewrite plus_INR in LL'; cbn [INR] in LL'; rewrite Rabs_left; lra).
      * assert (LL' : (j + 1 <= i)%nat) by lia. apply le_INR in LL'. rewrite plus_INR in LL'. cbn [INR] in LL'. rewrite Rabs_pos_eq; lra.
    + intros i Hi. split.
      * rewrite TN by assumption. fold h. assert (INR i <= INR (K - 1)) by (apply le_INR; lia). pose proof (pos_INR i). split; nra.
      * rewrite spline_minus. apply ER; [exact Hd|]. rewrite LT0. nia.
    + split; [exact I1|]. destruct I2 as [I2|[_ I2]]; lra.
Qed.
