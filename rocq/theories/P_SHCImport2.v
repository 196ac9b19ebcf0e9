(** Export and import of smooth models of order two and more. *)
From Coq Require Import Reals QArith Qabs Qround Qreals List Arith ZArith String Ascii Bool Lia Lra.
From Coquelicot Require Import Coquelicot.
From Verif Require Import M_Prelude M_ND Spec_Field Spec_PP Spec_Spline Spec_Smooth M_Spectrum M_PP M_Model M_FromSpline M_Time M_Text M_SHC M_SHCModel Spec_SHC Spec_Lsq Spec_Loaders
  P_Time2 P_SHC2 P_SHC3 P_SHC4 P_Spectrum P_Spline P_Spline3 P_Spline4 P_Spline5 P_PP P_PP2 P_Model P_SHCModel P_SHCModel2 P_Loaders P_SHCImport P_Smooth.
Import ListNotations.
Open Scope R_scope.

Lemma exact_round y q : exact8 y -> eight_decimals y q -> (q == y)%Q.
Proof.
  intros [k Hk] (m & Hm & H). rewrite Hk, Hm in *. apply Qabs_Qle_condition in H. destruct H as [H1 H2].
  assert (E : m = k); [|subst; reflexivity].
  unfold Qle, Qminus, Qplus, Qopp in *. cbn in *. lia.
Qed.

Lemma time_back t lp y q t' : (match lp with Some false => True | _ => mjd_ok t end) ->
  mjd_to_dyear t lp = Ok y -> exact8 y -> eight_decimals y q -> dyear_to_mjd q lp = Ok t' -> (t' == t)%Q.
Proof.
  intros Ht Ey X R Et. pose proof (exact_round y q X R) as E.
  assert (TR : mjd_ok t -> mjd_to_dyear t None = Ok y -> dyear_to_mjd q None = Ok t' -> (t' == t)%Q).
  { clear Ht Ey Et. intros MO Ey Et. destruct (mjd_to_dyear_year t MO) as (y' & E1 & V & F). rewrite Ey in E1. injection E1 as <-.
    pose proof (mjd_ok_year t MO) as YO. rewrite <- (Qfloor_comp _ _ E) in F. destruct (dyear_to_mjd_val q _ YO F) as (x & E2 & W). rewrite Et in E2. injection E2 as <-.
    rewrite W, E, V. pose proof (days_per_year_pos (year_of_mjd t)) as DP. field. intros Z0. rewrite Z0 in DP. revert DP. apply Qlt_irrefl. }
  destruct lp as [[]|]; [apply TR; assumption| |apply TR; assumption].
  unfold mjd_to_dyear, dyear_to_mjd in *. injection Ey as <-. injection Et as <-. rewrite E. field.
Qed.

Lemma export_round now fs name x K D c source tq cq path lp nmin nmax header a b :
  let M := model_init (Some x) None (Some (mkc3 K (List.length x - 1) D c)) source in
  good_breaks x -> (2 <= K)%nat -> exported M tq cq ->
  first_degree nmin a -> last_degree D nmax b -> (1 <= a <= b)%nat -> (b * (b + 2) <= D)%nat ->
  (match header with None => ~ In "010"%char name | Some h => comment_lines h end) -> ~ In "010"%char now ->
  (lp = Some true -> forall t, In t tq -> mjd_ok t) ->
  (forall t, In t tq -> exists y, mjd_to_dyear t (Some (leap_flag lp)) = Ok y /\ exact8 y) ->
  exists fs' text s times',
    to_shc now fs name M tq cq path lp nmin nmax header = (fs', Ok tt) /\ fs' path = Some text /\
    load_shcfile text (Some (leap_flag lp)) None = Ok s /\
    l_params s = [Z.of_nat a; Z.of_nat b; Z.of_nat (List.length tq); Z.of_nat K; (Z.of_nat K - 1)%Z] /\
    List.length (l_rows s) = ((b + 1) * (b + 1) - a * a)%nat /\
    map Q2R (l_time s) = times' /\ List.length times' = ((List.length x - 1) * (K - 1) + 1)%nat /\ List.length tq = List.length times' /\
    (forall p i, (p + 1 < List.length x)%nat -> (i < K)%nat ->
       nth (p * (K - 1) + i) times' 0 = nth p x 0 + INR i * ((nth (p + 1) x 0 - nth p x 0) / INR (K - 1))) /\
    forall j i p, (j < List.length (l_rows s))%nat -> (i < List.length times')%nat -> in_interval x p (nth i times' 0) ->
      eight_decimals (c_at cq i (a * a - 1 + j)%nat) (nth i (nth j (l_rows s) []) 0%Q) /\
      Q2R (c_at cq i (a * a - 1 + j)%nat) = piece x K c p (a * a - 1 + j) (nth i times' 0).
Proof.
  intros M G HK EX Ha Hb Hab HbD Hh Hn Hlp TX. pose proof G as [L2 GS].
  assert (HD3 : (3 <= D)%nat) by nia.
  destruct (degree_of_size_spec D) as (N0 & D1 & D2 & D3).
  assert (BN : (b <= N0)%nat) by nia.
  destruct (samples x K D c source G HK HD3) as (times' & r0 & ED & LT0 & TN & SD0 & SV). fold M in ED.
  destruct EX as (times & r' & ED' & TQ & C1 & C2 & C3 & C4). rewrite ED in ED'. injection ED' as <- <-.
  assert (SD : (N0 * (N0 + 2) = s_dim r0)%nat).
  { clear - ED D1 D2 D3 G HK HD3 LT0. pose proof (proj1 G) as L2. unfold to_shc_data, M in ED.
    assert (BB : b_breaks (m_base (model_init (Some x) None (Some (mkc3 K (List.length x - 1) D c)) source)) = Some x) by (clear - L2; destruct x as [|? [|? ?]]; cbn in L2; try lia; reflexivity).
    rewrite BB in ED. cbn [m_base model_init base_init b_coeffs b_order c_k m_nmax b_dim c_d option_map] in ED. rewrite D3, Nat2Z.id in ED.
    destruct (to_shc_times (Z.of_nat K) x) as [times|] eqn:ET; [|discriminate]. cbn [bind] in ED.
    destruct (model_coeffs _ _ _ _ _) as [r|] eqn:EM; [|discriminate]. cbn [bind] in ED. injection ED as E1 E2. subst times r0.
    unfold model_coeffs in EM. change (m_base _) with (P_PP.model x K D c) in EM. cbn [option_map] in EM.
    assert (NE : elems (vec 0 times') <> []).
    { rewrite P_SynthProps3.elems_vec. intros E0. rewrite E0 in LT0. rewrite Nat.add_1_r in LT0. discriminate LT0. }
    destruct (C39_ok x K D c (vec 0 times') (Some (N0 * (N0 + 2))%nat) None XNone G ltac:(lia) ltac:(lia) NE ltac:(discriminate)) as (r2 & ER & S1 & S2).
    rewrite ER in EM. injection EM as <-. rewrite S2. lia. }
  assert (LT : List.length tq = ((List.length x - 1) * (K - 1) + 1)%nat) by (rewrite <- (map_length Q2R), TQ; exact LT0).
  assert (TV : forall i, Q2R (nth i tq 0%Q) = nth i times' 0) by (intros i; rewrite <- TQ, <- RMicromega.Q2R_0, (map_nth Q2R); reflexivity).
  set (hd := match header with None => (txt "# " ++ name ++ nl)%list | Some h => h end).
  set (nmx := match nmax with None => m_nmax M | Some n => Some n end).
  assert (HM : m_nmax M = Some (Z.of_nat N0)) by (unfold M, model_init, base_init; cbn; rewrite D3; destruct x as [|? [|? ?]]; reflexivity).
  assert (LD : last_degree (c_cols cq) nmx b).
  { unfold nmx, last_degree in *. destruct nmax as [n|]; [exact Hb|]. rewrite HM. f_equal. nia. }
  assert (FD : first_degree (Some (match nmin with None => 1%Z | Some n => n end)) a).
  { unfold first_degree in *. destruct nmin; [exact Ha|]. subst a. reflexivity. }
  assert (HO : b_order (m_base M) = Some (Z.of_nat K)) by reflexivity.
  destruct (C47_round now fs tq cq (Some (Z.of_nat K)) (Some path) (Some (match nmin with None => 1%Z | Some n => n end)) nmx (Some (leap_flag lp)) (Some hd) a b FD LD Hab)
    as (fs' & text & s & E1 & E2 & E3 & E4 & E5 & E6 & E7).
  { rewrite C3, <- SD. nia. }
  { rewrite C1, C2, LT0, LT. reflexivity. }
  { unfold hd. destruct header as [h|]; [exact Hh|apply comment_name; exact Hh]. }
  { exact Hn. }
  cbv zeta in E3, E4, E5.
  assert (E8 : forall j i, (j < (b + 1) * (b + 1) - a * a)%nat -> (i < List.length tq)%nat ->
     exists row, nth_error (l_rows s) j = Some row /\ eight_decimals (c_at cq i (a * a - 1 + j)%nat) (nth i row 0%Q)).
  { intros j i Hj Hi. assert (PC : (a * a - 1 + j < b * (b + 2))%nat) by nia.
    destruct (P_SynthProps2.positions_cover b _ PC) as (n & m & N1 & M1 & [P|[M2 P]]).
    - change (P_SynthProps2.gidx n m) with (g_position n m) in P. assert (N2 : (a <= n)%nat) by (unfold g_position in P; destruct (Nat.eqb_spec m 0); nia).
      destruct (E7 n m i ltac:(lia) M1 Hi) as (row & R1 & _ & R2 & _). exists row. rewrite P. split; [|exact R2]. rewrite <- R1. f_equal. lia.
    - change (P_SynthProps2.hidx n m) with (h_position n m) in P. assert (N2 : (a <= n)%nat) by (unfold h_position in P; nia).
      destruct (E7 n m i ltac:(lia) M1 Hi) as (_ & _ & _ & _ & R). destruct (R M2) as (row & R1 & _ & R2). exists row. rewrite P. split; [|exact R2]. rewrite <- R1. f_equal. lia. }
  assert (LTS : List.length (l_time s) = List.length tq) by (symmetry; exact (Forall2_length _ _ _ E5)).
  assert (TS : to_shc now fs name M tq cq path lp nmin nmax header =
    save_shcfile now fs (TVec tq) cq (Some (Z.of_nat K)) (Some path) (Some (match nmin with None => 1%Z | Some n => n end)) nmx (Some (leap_flag lp)) (Some hd)) by reflexivity.
  (* the times are exact *)
  assert (TE : map Q2R (l_time s) = times').
  { rewrite <- TQ. clear - E5 TX Hlp. revert TX Hlp. induction E5 as [|u v l l' H E5 IH]; intros TX Hlp; [reflexivity|]. cbn [map]. f_equal.
    - apply Qeq_eqR. destruct H as (y & q & H1 & H2 & H3). destruct (TX u (or_introl eq_refl)) as (y' & H4 & H5). rewrite H1 in H4. injection H4 as <-.
      apply (time_back u (Some (leap_flag lp)) y q v); try assumption. destruct lp as [[]|]; cbn; [apply Hlp; [reflexivity|left; reflexivity]|exact I|exact I].
    - apply IH; [intros t Ht; apply TX; right; exact Ht|intros E t Ht; apply Hlp; [exact E|right; exact Ht]]. }
  exists fs', text, s, times'. rewrite TS, E1. split; [reflexivity|]. split; [exact E2|]. split; [exact E3|]. split; [exact E4|]. split; [exact E6|].
  split; [exact TE|]. split; [exact LT0|]. split; [lia|]. split; [exact TN|].
  intros j i p Hj Hi I. rewrite E6 in Hj. assert (AA : (1 <= a * a)%nat) by nia. assert (JB : (a * a - 1 + j < b * (b + 2))%nat) by lia. assert (Hi' : (i < List.length tq)%nat) by lia.
  destruct (E8 j i Hj Hi') as (row & R1 & R2). rewrite (nth_error_nth _ _ _ R1). split; [exact R2|].
  assert (SO : Some (Q2R (c_at cq i (a * a - 1 + j)%nat)) = Some (piece x K c p (a * a - 1 + j) (nth i times' 0))).
  { rewrite <- (SV i p (a * a - 1 + j)%nat); [symmetry; apply C4; [lia|nia]|lia|nia|exact I]. }
  injection SO as SO. exact SO.
Qed.

Lemma export_exact now fs name x K D c source tq cq path lp nmin nmax header a b :
  let M := model_init (Some x) None (Some (mkc3 K (List.length x - 1) D c)) source in
  good_breaks x -> (2 <= K)%nat -> exported M tq cq ->
  first_degree nmin a -> last_degree D nmax b -> (1 <= a <= b)%nat -> (b * (b + 2) <= D)%nat ->
  (match header with None => ~ In "010"%char name | Some h => comment_lines h end) -> ~ In "010"%char now ->
  (lp = Some true -> forall t, In t tq -> mjd_ok t) ->
  (forall t, In t tq -> exists y, mjd_to_dyear t (Some (leap_flag lp)) = Ok y /\ exact8 y) ->
  (forall i j, (i < List.length tq)%nat -> (j < b * (b + 2))%nat -> exact8 (c_at cq i j)) ->
  exists fs' text s times',
    to_shc now fs name M tq cq path lp nmin nmax header = (fs', Ok tt) /\ fs' path = Some text /\
    load_shcfile text (Some (leap_flag lp)) None = Ok s /\
    l_params s = [Z.of_nat a; Z.of_nat b; Z.of_nat (List.length tq); Z.of_nat K; (Z.of_nat K - 1)%Z] /\
    List.length (l_rows s) = ((b + 1) * (b + 1) - a * a)%nat /\
    map Q2R (l_time s) = times' /\ List.length times' = ((List.length x - 1) * (K - 1) + 1)%nat /\
    (forall p i, (p + 1 < List.length x)%nat -> (i < K)%nat ->
       nth (p * (K - 1) + i) times' 0 = nth p x 0 + INR i * ((nth (p + 1) x 0 - nth p x 0) / INR (K - 1))) /\
    forall j i p, (j < List.length (l_rows s))%nat -> (i < List.length times')%nat -> in_interval x p (nth i times' 0) ->
      Q2R (nth i (nth j (l_rows s) []) 0%Q) = piece x K c p (a * a - 1 + j) (nth i times' 0).
Proof.
  intros M G HK EX Ha Hb Hab HbD Hh Hn Hlp TX CX.
  destruct (export_round now fs name x K D c source tq cq path lp nmin nmax header a b G HK EX Ha Hb Hab HbD Hh Hn Hlp TX)
    as (fs' & text & s & times' & E1 & E2 & E3 & E4 & E6 & TE & LT0 & LQ & TN & VA). fold M in E1.
  exists fs', text, s, times'. repeat (split; [assumption|]).
  intros j i p Hj Hi I. destruct (VA j i p Hj Hi I) as [R2 V]. rewrite <- V.
  apply Qeq_eqR, (exact_round _ _ (CX i (a * a - 1 + j)%nat ltac:(lia) ltac:(rewrite E6 in Hj; nia)) R2).
Qed.

Lemma from_shc_order lsq content lp source s nmin nmax N order step more M : load_shcfile content (Some (leap_flag lp)) None = Ok s ->
  l_params s = nmin :: nmax :: N :: order :: step :: more -> from_shc lsq content lp source = Ok M -> b_order (m_base M) = Some order.
Proof.
  intros E EP H. unfold from_shc in H. fold (leap_flag lp) in H. rewrite E in H. cbn [bind] in H. rewrite EP in H.
  destruct (map Q2R (l_time s)) as [|t0 ts]; [discriminate|].
  destruct (Z.eqb_spec order 1) as [->|NE].
  - destruct (shc_padded s nmin nmax) as [[dim co]|]; [|discriminate]. cbn [bind] in H. injection H as <-. reflexivity.
  - destruct (shc_padded s nmin nmax) as [[dim co]|]; [|discriminate]. cbn [bind] in H. destruct (augment_breaks _ _) as [knots|]; [|discriminate]. cbn [bind] in H.
    destruct (Z.ltb_spec order 1) as [L|L]; [discriminate|]. destruct (lsq _ _ _ _ _) as [c|]; [|discriminate]. cbn [bind] in H.
    unfold from_bspline in H. destruct (pp_from_bspline _ _ _ _ _) as [[c' br]|] eqn:X; [|discriminate]. cbn [bind] in H. injection H as <-.
    unfold pp_from_bspline in X. destruct (_ && _)%bool; [discriminate|]. destruct (_ && _)%bool; [discriminate|]. injection X as <- _.
    unfold model_init, base_init. cbn [m_base b_order c_k]. f_equal. lia.
Qed.

Lemma smooth_round_trip now fs name x K D c source tq cq path lp nmin nmax header a b source' lsq :
  let M := model_init (Some x) None (Some (mkc3 K (List.length x - 1) D c)) source in
  least_squares lsq -> good_breaks x -> (2 <= K)%nat -> exported M tq cq ->
  first_degree nmin a -> last_degree D nmax b -> (1 <= a <= b)%nat -> (b * (b + 2) <= D)%nat ->
  (match header with None => ~ In "010"%char name | Some h => comment_lines h end) -> ~ In "010"%char now ->
  (forall d, (d < b * (b + 2))%nat -> smooth_at_breaks x K c d) ->
  (lp = Some true -> forall t, In t tq -> mjd_ok t) ->
  (forall t, In t tq -> exists y, mjd_to_dyear t (Some (leap_flag lp)) = Ok y /\ exact8 y) ->
  (forall i j, (i < List.length tq)%nat -> (j < b * (b + 2))%nat -> exact8 (c_at cq i j)) ->
  exists fs' text M' f,
    to_shc now fs name M tq cq path lp nmin nmax header = (fs', Ok tt) /\ fs' path = Some text /\
    from_shc lsq text lp source' = Ok M' /\
    m_nmax M' = Some (Z.of_nat b) /\ m_source M' = (match source' with None => "internal"%string | Some s => s end) /\ b_breaks (m_base M') = Some x /\ b_order (m_base M') = Some (Z.of_nat K) /\
    takes_values M' (b * (b + 2)) (first_break x) (last_break x) f /\
    forall p d t, (d < b * (b + 2))%nat -> in_interval x p t -> f d t = if (d <? a * a - 1)%nat then 0 else piece x K c p d t.
Proof.
  intros M F G HK EX0 Ha Hb Hab HbD Hh Hn SM Hlp TX CX. pose proof G as [L2 GS].
  destruct (export_exact now fs name x K D c source tq cq path lp nmin nmax header a b G HK EX0 Ha Hb Hab HbD Hh Hn Hlp TX CX)
    as (fs' & text & s & times' & E1 & E2 & E3 & E4 & E6 & TE & LT0 & TN & VA). fold M in E1.
  assert (LTS : List.length (l_time s) = List.length times') by (rewrite <- TE, map_length; reflexivity).
  assert (RI : rising (map Q2R (l_time s))).
  { rewrite TE. intros i Hi. rewrite LT0 in Hi. set (p := (i / (K - 1))%nat). set (m := (i mod (K - 1))%nat).
    pose proof (Nat.div_mod i (K - 1) ltac:(lia)) as DM. pose proof (Nat.mod_upper_bound i (K - 1) ltac:(lia)) as MB. fold p m in DM, MB.
    assert (PB : (p + 1 < List.length x)%nat) by nia.
    assert (I1 : i = (p * (K - 1) + m)%nat) by lia.
    assert (I2 : (i + 1 = p * (K - 1) + (m + 1))%nat) by lia. rewrite I2. rewrite I1 at 1. rewrite !TN by lia.
    pose proof (GS p PB) as GP. rewrite plus_INR. change (INR 1) with 1.
    assert (HP : 0 < (nth (p + 1) x 0 - nth p x 0) / INR (K - 1)) by (apply Rdiv_lt_0_compat; [lra|apply lt_0_INR; lia]). lra. }
  assert (BE : every_step (map Q2R (l_time s)) (Z.to_nat (Z.of_nat K - 1)) = x).
  { rewrite TE. replace (Z.to_nat (Z.of_nat K - 1)) with (K - 1)%nat by lia. unfold every_step. rewrite LT0.
    rewrite Nat.add_sub, Nat.div_mul by (clear - HK; lia).
    apply (nth_ext _ _ 0 0); [rewrite map_length, seq_length; lia|]. intros p Hp. rewrite map_length, seq_length in Hp.
    rewrite (map_seq_nth (fun i => nth (i * (K - 1)) times' 0)) by exact Hp.
    assert (IK : INR (K - 1) <> 0) by (apply not_0_INR; lia).
    destruct (Nat.eq_dec p (List.length x - 1)) as [EP|NEP].
    - rewrite EP. replace ((List.length x - 1) * (K - 1))%nat with ((List.length x - 2) * (K - 1) + (K - 1))%nat by nia. rewrite TN by lia.
      replace (List.length x - 2 + 1)%nat with (List.length x - 1)%nat by lia. field. exact IK.
    - rewrite <- (Nat.add_0_r (p * (K - 1))), TN by lia. change (INR 0) with 0. ring. }
  destruct (augment_breaks x (Z.of_nat K)) as [knots|e] eqn:Ea; [|unfold augment_breaks in Ea; destruct x; [cbn in L2; lia|discriminate]].
  (* the splines *)
  destruct (fin_choice (fun d C => forall p y, in_interval x p y -> piece x K c p d y = spline knots (K - 1) C (List.length knots - K) y) (fun _ => 0) (b * (b + 2))) as [g Hg].
  { intros d Hd. apply (pieces_are_spline x K knots c d G HK Ea). apply SM. exact Hd. }
  assert (NI : forall i, (i < List.length times')%nat -> exists p, in_interval x p (nth i times' 0)).
  { intros i Hi. rewrite LT0 in Hi. set (p := (i / (K - 1))%nat). set (m := (i mod (K - 1))%nat).
    pose proof (Nat.div_mod i (K - 1) ltac:(lia)) as DM. pose proof (Nat.mod_upper_bound i (K - 1) ltac:(lia)) as MB. fold p m in DM, MB.
    apply (in_interval_ex x _ G). assert (X : exists p m, (p + 1 < List.length x)%nat /\ (m < K)%nat /\ i = (p * (K - 1) + m)%nat).
    { destruct (Nat.eq_dec p (List.length x - 1)) as [EP|NEP]; [exists (List.length x - 2)%nat, (K - 1)%nat; repeat split; nia|exists p, m; repeat split; nia]. }
    destruct X as (p' & m' & X1 & X2 & X3). rewrite X3, TN by assumption. pose proof (GS p' X1) as GP.
    pose proof (good_mono x G 0 p' ltac:(lia)) as Y1. pose proof (good_mono x G (p' + 1) (List.length x - 1) ltac:(lia)) as Y2. fold (first_break x) in Y1. fold (last_break x) in Y2.
    assert (IK : 0 < INR (K - 1)) by (apply lt_0_INR; lia). assert (MK : INR m' <= INR (K - 1)) by (apply le_INR; lia). pose proof (pos_INR m') as M0.
    set (h := (nth (p' + 1) x 0 - nth p' x 0) / INR (K - 1)). assert (HE : INR (K - 1) * h = nth (p' + 1) x 0 - nth p' x 0) by (unfold h; field; lra).
    assert (H0 : 0 < h) by (unfold h; apply Rdiv_lt_0_compat; lra). nra. }
  assert (EX : forall j i, (j < List.length (l_rows s))%nat -> (i < List.length (l_time s))%nat -> Q2R (nth i (l_time s) 0%Q) <= last_break x ->
     Q2R (nth i (nth j (l_rows s) []) 0%Q) = spline knots (K - 1) (g (a * a - 1 + j)%nat) (List.length knots - K) (Q2R (nth i (l_time s) 0%Q))).
  { intros j i Hj Hi _. assert (AA : (1 <= a * a)%nat) by nia. assert (JB : (a * a - 1 + j < b * (b + 2))%nat) by (rewrite E6 in Hj; lia).
    assert (TI : Q2R (nth i (l_time s) 0%Q) = nth i times' 0) by (rewrite <- TE, <- RMicromega.Q2R_0, (map_nth Q2R); reflexivity).
    assert (Hi' : (i < List.length times')%nat) by lia.
    rewrite TI. destruct (NI i Hi') as [p I]. rewrite <- (Hg (a * a - 1 + j)%nat JB p (nth i times' 0) I). apply VA; assumption. }
  destruct (import_spline lsq text lp source' s (Z.of_nat a) (Z.of_nat b) (Z.of_nat (List.length tq)) K (Z.of_nat K - 1)%Z [] a b (fun j => g (a * a - 1 + j)%nat) knots
     F E3 E4 eq_refl eq_refl Hab E6 HK ltac:(lia)) as (M' & EM & N1 & N2 & N3 & TVM).
  { rewrite LTS, LT0. nia. } { exact RI. } { rewrite BE. exact Ea. } { rewrite BE. exact EX. }
  rewrite BE in N3, TVM. rewrite E1. 
  exists fs', text, M', (fun d t => if (d <? a * a - 1)%nat then 0 else spline knots (K - 1) (g (a * a - 1 + (d - (a * a - 1)))%nat) (List.length knots - K) t).
  split; [reflexivity|]. split; [exact E2|]. split; [exact EM|]. split; [exact N1|]. split; [exact N2|]. split; [exact N3|]. split; [exact (from_shc_order lsq text lp source' s _ _ _ _ _ _ M' E3 E4 EM)|]. split; [exact TVM|].
  intros p d t Hd I. destruct (Nat.ltb_spec d (a * a - 1)); [reflexivity|]. replace (a * a - 1 + (d - (a * a - 1)))%nat with d by lia. symmetry. apply Hg; assumption.
Qed.
