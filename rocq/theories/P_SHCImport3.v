(** Files of order two: linear interpolation; export and import with rounding. *)
From Coq Require Import Reals QArith Qabs Qround Qreals List Arith ZArith String Ascii Bool Lia Lra.
From Coquelicot Require Import Coquelicot.
From Verif Require Import M_Prelude M_ND Spec_Field Spec_PP Spec_Spline Spec_Smooth M_Spectrum M_PP M_Model M_FromSpline M_Time M_Text M_SHC M_SHCModel Spec_SHC Spec_Lsq Spec_Loaders
  P_Time2 P_SHC2 P_SHC3 P_SHC4 P_Spectrum P_Spline P_Spline3 P_Spline4 P_Spline5 P_PP P_PP2 P_Model P_SHCModel P_SHCModel2 P_Loaders P_SHCImport P_Smooth.
Import ListNotations.
Open Scope R_scope.

Lemma every_one l : l <> [] -> every_step l 1 = l.
Proof.
  intros H. assert (L : (1 <= List.length l)%nat) by (destruct l; [contradiction|cbn; lia]). unfold every_step. rewrite Nat.div_1_r.
  apply (nth_ext _ _ 0 0); [rewrite map_length, seq_length; lia|]. intros p Hp. rewrite map_length, seq_length in Hp.
  rewrite (map_seq_nth (fun i => nth (i * 1) l 0)) by exact Hp. rewrite Nat.mul_1_r. reflexivity.
Qed.

Lemma piece2 x c p d t : piece x 2 c p d t = c 0%nat p d * (t - nth p x 0) + c 1%nat p d.
Proof. unfold piece. cbn. ring. Qed.

(** The linear interpolation of values is a spline of order 2. *)
Lemma linear_spline y knots (v : nat -> R) : good_breaks y -> augment_breaks y 2 = Ok knots ->
  exists C, forall p t, in_interval y p t -> spline knots 1 C (List.length knots - 2) t = linear (nth p y 0) (v p) (nth (p + 1) y 0) (v (p + 1)%nat) t.
Proof.
  intros G Ea. pose proof G as [L2 GS].
  set (c := fun m p (d : nat) => match m with O => (v (p + 1)%nat - v p) / (nth (p + 1) y 0 - nth p y 0) | _ => v p end).
  destruct (pieces_are_spline y 2 knots c 0 G ltac:(lia) Ea) as [C HC].
  { intros i m Hi Hm. replace m with 0%nat by lia. cbn [Derive_n]. rewrite !piece2. unfold c. pose proof (GS i ltac:(lia)). pose proof (GS (i + 1)%nat ltac:(lia)). field. split; lra. }
  exists C. change (2 - 1)%nat with 1%nat in HC. intros p t I. rewrite <- (HC p t I), piece2. unfold c, linear. destruct I as (IL & _). pose proof (GS p IL). field. lra.
Qed.

(** A file of order 2 and step 1. *)
Lemma import_linear lsq content lp source s nmin nmax N more a b :
  least_squares lsq -> load_shcfile content (Some (leap_flag lp)) None = Ok s ->
  l_params s = nmin :: nmax :: N :: 2%Z :: 1%Z :: more -> nmin = Z.of_nat a -> nmax = Z.of_nat b -> (1 <= a <= b)%nat ->
  List.length (l_rows s) = ((b + 1) * (b + 1) - a * a)%nat ->
  (2 <= List.length (l_time s))%nat -> rising (map Q2R (l_time s)) ->
  let y := map Q2R (l_time s) in
  let value d i := if (d <? a * a - 1)%nat then 0 else Q2R (nth i (nth (d - (a * a - 1)) (l_rows s) []) 0%Q) in
  exists M f, from_shc lsq content lp source = Ok M /\
    m_nmax M = Some (Z.of_nat b) /\ m_source M = (match source with None => "internal"%string | Some s => s end) /\ b_breaks (m_base M) = Some y /\
    takes_values M (b * (b + 2)) (first_break y) (last_break y) f /\
    forall p d t, (d < b * (b + 2))%nat -> in_interval y p t -> f d t = linear (nth p y 0) (value d p) (nth (p + 1) y 0) (value d (p + 1)%nat) t.
Proof.
  intros F EL EP Ea_ Eb_ Hab LR HT RI y value.
  assert (LY : List.length y = List.length (l_time s)) by apply map_length.
  assert (ES : every_step (map Q2R (l_time s)) (Z.to_nat 1) = y).
  { change (Z.to_nat 1) with 1%nat. apply every_one. intros E. apply (f_equal (@List.length R)) in E. fold y in E. rewrite LY in E. cbn in E. lia. }
  assert (G : good_breaks y) by (split; [lia|exact RI]).
  destruct (augment_breaks y 2) as [knots|] eqn:Ea; [|unfold augment_breaks in Ea; destruct y; [cbn in LY; lia|discriminate]].
  destruct (fin_choice (fun d C => forall p t, in_interval y p t -> spline knots 1 C (List.length knots - 2) t = linear (nth p y 0) (value d p) (nth (p + 1) y 0) (value d (p + 1)%nat) t) (fun _ => 0) (b * (b + 2))) as [g Hg].
  { intros d Hd. apply linear_spline; assumption. }
  assert (AA : (a * a <= b * b)%nat) by (apply Nat.mul_le_mono; lia). assert (AA1 : (1 <= a * a)%nat) by nia.
  destruct (import_spline lsq content lp source s nmin nmax N 2 1 more a b (fun j => g (a * a - 1 + j)%nat) knots F EL EP Ea_ Eb_ Hab LR ltac:(lia) ltac:(lia) ltac:(lia) RI)
    as (M & EM & N1 & N2 & N3 & TV).
  { rewrite ES. exact Ea. }
  { intros j i Hj Hi _.
    assert (TI : Q2R (nth i (l_time s) 0%Q) = nth i y 0) by (unfold y; rewrite <- RMicromega.Q2R_0, (map_nth Q2R); reflexivity).
    assert (VJ : Q2R (nth i (nth j (l_rows s) []) 0%Q) = value (a * a - 1 + j)%nat i).
    { unfold value. destruct (Nat.ltb_spec (a * a - 1 + j) (a * a - 1)); [lia|]. replace (a * a - 1 + j - (a * a - 1))%nat with j by lia. reflexivity. }
    rewrite VJ, TI. change (2 - 1)%nat with 1%nat.
    assert (JB : (a * a - 1 + j < b * (b + 2))%nat) by lia.
    destruct (Nat.eq_dec (i + 1) (List.length y)) as [EI|NI].
    - assert (I : in_interval y (i - 1) (nth i y 0)).
      { split; [lia|]. pose proof (RI (i - 1)%nat ltac:(fold y; lia)) as RR. fold y in RR. replace (i - 1 + 1)%nat with i in * by lia. split; [left; exact RR|]. right. split; [lia|reflexivity]. }
      rewrite (Hg _ JB _ _ I). replace (i - 1 + 1)%nat with i by lia. pose proof (RI (i - 1)%nat ltac:(fold y; lia)) as RR. fold y in RR. replace (i - 1 + 1)%nat with i in RR by lia. unfold linear. field. lra.
    - assert (I : in_interval y i (nth i y 0)).
      { split; [lia|]. split; [lra|]. left. apply RI. fold y. lia. }
      rewrite (Hg _ JB _ _ I). pose proof (RI i ltac:(fold y; lia)) as RR. fold y in RR. unfold linear. field. lra. }
  rewrite ES in N3, TV.
  exists M, (fun d t => if (d <? a * a - 1)%nat then 0 else spline knots 1 (g (a * a - 1 + (d - (a * a - 1)))%nat) (List.length knots - 2) t).
  split; [exact EM|]. split; [exact N1|]. split; [exact N2|]. split; [exact N3|]. split; [exact TV|].
  intros p d t Hd I. destruct (Nat.ltb_spec d (a * a - 1)) as [X|X].
  - unfold value. destruct (Nat.ltb_spec d (a * a - 1)); [|lia]. unfold linear. ring.
  - replace (a * a - 1 + (d - (a * a - 1)))%nat with d by lia. apply Hg; assumption.
Qed.

Lemma linear_round_trip now fs name x D c source tq cq path lp nmin nmax header a b source' lsq :
  let M := model_init (Some x) None (Some (mkc3 2 (List.length x - 1) D c)) source in
  least_squares lsq -> good_breaks x -> exported M tq cq ->
  first_degree nmin a -> last_degree D nmax b -> (1 <= a <= b)%nat -> (b * (b + 2) <= D)%nat ->
  (match header with None => ~ In "010"%char name | Some h => comment_lines h end) -> ~ In "010"%char now ->
  (forall i, (i + 1 < List.length x)%nat -> nth i x 0 + 5 / 1000000 <= nth (i + 1) x 0) ->
  (lp = Some true -> forall i, (i < List.length x)%nat -> -106650 <= nth i x 0 < 107016) ->
  exists fs' text M' y v f,
    to_shc now fs name M tq cq path lp nmin nmax header = (fs', Ok tt) /\ fs' path = Some text /\
    from_shc lsq text lp source' = Ok M' /\
    m_nmax M' = Some (Z.of_nat b) /\ m_source M' = (match source' with None => "internal"%string | Some s => s end) /\ b_breaks (m_base M') = Some y /\
    List.length y = List.length x /\ good_breaks y /\
    (forall i, (i < List.length x)%nat -> Rabs (nth i y 0 - nth i x 0) <= 2 / 1000000) /\
    takes_values M' (b * (b + 2)) (first_break y) (last_break y) f /\
    (forall p d t, (d < b * (b + 2))%nat -> in_interval y p t -> f d t = linear (nth p y 0) (v d p) (nth (p + 1) y 0) (v d (p + 1)%nat) t) /\
    forall d i p, (d < b * (b + 2))%nat -> (i < List.length x)%nat -> in_interval x p (nth i x 0) ->
      ((d < a * a - 1)%nat -> v d i = 0) /\ ((a * a - 1 <= d)%nat -> Rabs (v d i - piece x 2 c p d (nth i x 0)) <= 1 / 200000000).
Proof.
  intros M F G EX Ha Hb Hab HbD Hh Hn GAP Hlp. pose proof G as [L2 GS].
  assert (HD3 : (3 <= D)%nat) by nia.
  destruct (degree_of_size_spec D) as (N0 & D1 & D2 & D3).
  assert (BN : (b <= N0)%nat) by nia.
  destruct (samples x 2 D c source G ltac:(lia) HD3) as (times' & r0 & ED & LT0 & TN & SD0 & SV). fold M in ED.
  destruct EX as (times & r' & ED' & TQ & C1 & C2 & C3 & C4). rewrite ED in ED'. injection ED' as <- <-.
  assert (LT1 : List.length times' = List.length x) by (rewrite LT0; lia).
  assert (TX : times' = x).
  { apply (nth_ext _ _ 0 0); [exact LT1|]. intros i Hi. rewrite LT1 in Hi. destruct (Nat.eq_dec (i + 1) (List.length x)) as [EI|NI].
    - pose proof (TN (i - 1)%nat 1%nat ltac:(lia) ltac:(lia)) as T. replace ((i - 1) * (2 - 1) + 1)%nat with i in T by lia. rewrite T. replace (i - 1 + 1)%nat with i by lia. cbn. field.
    - pose proof (TN i 0%nat ltac:(lia) ltac:(lia)) as T. replace (i * (2 - 1) + 0)%nat with i in T by lia. rewrite T. cbn. field. }
  clear TN LT0 LT1. rewrite TX in *. clear TX times'.
  assert (SD : (N0 * (N0 + 2) = s_dim r0)%nat).
  { clear - ED D1 D2 D3 G HD3 L2. unfold to_shc_data, M in ED.
    assert (BB : b_breaks (m_base (model_init (Some x) None (Some (mkc3 2 (List.length x - 1) D c)) source)) = Some x) by (clear - L2; destruct x as [|? [|? ?]]; cbn in L2; try lia; reflexivity).
    rewrite BB in ED. cbn [m_base model_init base_init b_coeffs b_order c_k m_nmax b_dim c_d option_map] in ED. rewrite D3, Nat2Z.id in ED.
    destruct (to_shc_times (Z.of_nat 2) x) as [times|] eqn:ET; [|discriminate]. cbn [bind] in ED.
    destruct (model_coeffs _ _ _ _ _) as [r|] eqn:EM; [|discriminate]. cbn [bind] in ED. injection ED as E1 E2. subst times r0.
    unfold model_coeffs in EM. change (m_base _) with (P_PP.model x 2 D c) in EM. cbn [option_map] in EM.
    assert (NE : elems (vec 0 x) <> []).
    { rewrite P_SynthProps3.elems_vec. intros E0. rewrite E0 in L2. cbn in L2. lia. }
    destruct (C39_ok x 2 D c (vec 0 x) (Some (N0 * (N0 + 2))%nat) None XNone G ltac:(lia) ltac:(lia) NE ltac:(discriminate)) as (r2 & ER & S1 & S2).
    rewrite ER in EM. injection EM as <-. rewrite S2. lia. }
  assert (LT : List.length tq = List.length x) by (rewrite <- (map_length Q2R), TQ; reflexivity).
  assert (TV : forall i, Q2R (nth i tq 0%Q) = nth i x 0) by (intros i; rewrite <- TQ, <- RMicromega.Q2R_0, (map_nth Q2R); reflexivity).
  set (hd := match header with None => (txt "# " ++ name ++ nl)%list | Some h => h end).
  set (nmx := match nmax with None => m_nmax M | Some n => Some n end).
  assert (HM : m_nmax M = Some (Z.of_nat N0)) by (unfold M, model_init, base_init; cbn; rewrite D3; destruct x as [|? [|? ?]]; reflexivity).
  assert (LD : last_degree (c_cols cq) nmx b).
  { unfold nmx, last_degree in *. destruct nmax as [n|]; [exact Hb|]. rewrite HM. f_equal. nia. }
  assert (FD : first_degree (Some (match nmin with None => 1%Z | Some n => n end)) a).
  { unfold first_degree in *. destruct nmin; [exact Ha|]. subst a. reflexivity. }
  destruct (C47_round now fs tq cq (Some 2%Z) (Some path) (Some (match nmin with None => 1%Z | Some n => n end)) nmx (Some (leap_flag lp)) (Some hd) a b FD LD Hab)
    as (fs' & text & s & E1 & E2 & E3 & E4 & E5 & E6 & E7).
  { rewrite C3, <- SD. nia. }
  { rewrite C1, C2, LT. reflexivity. }
  { unfold hd. destruct header as [h|]; [exact Hh|apply comment_name; exact Hh]. }
  { exact Hn. }
  cbv zeta in E3, E4, E5.
  assert (E8 : forall j i, (j < (b + 1) * (b + 1) - a * a)%nat -> (i < List.length tq)%nat ->
     exists row, nth_error (l_rows s) j = Some row /\ eight_decimals (c_at cq i (a * a - 1 + j)%nat) (nth i row 0%Q)).
  { intros j i Hj Hi. assert (PC : (a * a - 1 + j < b * (b + 2))%nat) by nia.
    destruct (P_SynthProps2.positions_cover b _ PC) as (n & m & N1 & M1 & [P|[M2 P]]).
    - change (P_SynthProps2.gidx n m) with (g_position n m) in P. assert (N2 : (a <= n)%nat) by (unfold g_position in P; destruct (Nat.eqb_spec m 0); nia).
      destruct (E7 n m i ltac:(lia) M1 Hi) as (row & R1 & _ & R2 & _). exists row. rewrite P. split; [|exact R2]. rewrite <- R1. f_equal. lia.
    - change (P_SynthProps2.hidx n m) with (h_position n m) in P. assert (N2 : (a <= n)%nat) by (unfold h_position in P; nia).
      destruct (E7 n m i ltac:(lia) M1 Hi) as (_ & _ & _ & _ & R). destruct (R M2) as (row & R1 & _ & R2). exists row. rewrite P. split; [|exact R2]. rewrite <- R1. f_equal. lia. }
  assert (LTS : List.length (l_time s) = List.length tq) by (symmetry; exact (Forall2_length _ _ _ E5)).
  assert (TS : to_shc now fs name M tq cq path lp nmin nmax header =
    save_shcfile now fs (TVec tq) cq (Some 2%Z) (Some path) (Some (match nmin with None => 1%Z | Some n => n end)) nmx (Some (leap_flag lp)) (Some hd)) by reflexivity.
  set (y := map Q2R (l_time s)).
  assert (LY : List.length y = List.length x) by (unfold y; rewrite map_length; lia).
  assert (TE : forall i, (i < List.length x)%nat -> Rabs (nth i y 0 - nth i x 0) <= 2 / 1000000).
  { intros i Hi. rewrite <- (TV i). unfold y. rewrite <- RMicromega.Q2R_0, (map_nth Q2R).
    assert (FF : exists y0 q, mjd_to_dyear (nth i tq 0%Q) (Some (leap_flag lp)) = Ok y0 /\ eight_decimals y0 q /\ dyear_to_mjd q (Some (leap_flag lp)) = Ok (nth i (l_time s) 0%Q)).
    { clear - E5 Hi LT. revert i Hi LT E5. generalize (List.length x). generalize (l_time s). intros l n i Hi LT FF. assert (H : (i < List.length tq)%nat) by lia. clear LT Hi.
      revert i H. induction FF as [|u v tq' l' HH FF IH]; intros i H; [cbn in H; lia|]. destruct i as [|i]; [exact HH|]. apply IH. cbn in H. lia. }
    destruct FF as (y0 & q & F1 & F2 & F3).
    replace (2 / 1000000) with (Q2R (2 # 1000000)) by (unfold Q2R; cbn; lra).
    apply Q2R_abs. apply (C47_time (nth i tq 0%Q) (Some (leap_flag lp)) y0 q); [|exact F1|exact F2|exact F3].
    destruct lp as [[]|]; cbn; auto. specialize (Hlp eq_refl i Hi). rewrite <- (TV i) in Hlp.
    replace (-106650) with (Q2R (-106650 # 1)) in Hlp by (unfold Q2R; cbn; lra).
    replace 107016 with (Q2R (107016 # 1)) in Hlp by (unfold Q2R; cbn; lra). destruct Hlp as [X Y]. apply Rle_Qle in X. apply Rlt_Qlt in Y. split; assumption. }
  assert (RI : rising y).
  { intros i Hi. rewrite LY in Hi. pose proof (TE i ltac:(lia)) as T1. pose proof (TE (i + 1)%nat ltac:(lia)) as T2. pose proof (GAP i Hi) as T3.
    apply Rabs_le_between in T1. apply Rabs_le_between in T2. lra. }
  destruct (import_linear lsq text lp source' s (Z.of_nat a) (Z.of_nat b) (Z.of_nat (List.length tq)) [] a b F E3 E4 eq_refl eq_refl Hab E6 ltac:(lia) RI)
    as (M' & f & EM & N1 & N2 & N3 & TVM & V).
  exists fs', text, M', y, (fun d i => if (d <? a * a - 1)%nat then 0 else Q2R (nth i (nth (d - (a * a - 1)) (l_rows s) []) 0%Q)), f.
  rewrite TS, E1. split; [reflexivity|]. split; [exact E2|]. split; [exact EM|]. split; [exact N1|]. split; [exact N2|]. split; [exact N3|]. split; [exact LY|].
  split; [split; [lia|exact RI]|]. split; [exact TE|]. split; [exact TVM|]. split; [exact V|].
  intros d i p Hd Hi I. assert (AA1 : (1 <= a * a)%nat) by nia. split; intros H; (destruct (Nat.ltb_spec d (a * a - 1)); [|]); try lia; [reflexivity|].
  destruct (E8 (d - (a * a - 1))%nat i ltac:(lia) ltac:(lia)) as (row & R1 & (k & _ & R2)). rewrite (nth_error_nth _ _ _ R1).
  replace (a * a - 1 + (d - (a * a - 1)))%nat with d in R2 by lia.
  assert (SO : Some (Q2R (c_at cq i d)) = Some (piece x 2 c p d (nth i x 0))).
  { rewrite <- (SV i p d); [symmetry; apply C4; [lia|nia]|lia|nia|exact I]. }
  injection SO as SO. rewrite <- SO. replace (1 / 200000000) with (Q2R (1 # 200000000)) by (unfold Q2R; cbn; lra). apply Q2R_abs. exact R2.
Qed.
