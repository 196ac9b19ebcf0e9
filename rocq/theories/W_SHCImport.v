(** Concrete exports and imports of order three. *)
From Coq Require Import Reals QArith Qabs Qround Qreals List Arith ZArith String Ascii Bool Lia Lra.
From Coquelicot Require Import Coquelicot.
From Verif Require Import M_Prelude M_ND Spec_Field Spec_PP Spec_Spline Spec_Smooth M_Spectrum M_PP M_Model M_FromSpline M_Time M_Text M_SHC M_SHCModel Spec_SHC Spec_Lsq Spec_Loaders
  P_Time2 P_SHC2 P_Spline4 P_PP P_PP2 P_Model P_SHCModel P_SHCModel2 P_Loaders P_Lsq P_SHCImport P_SHCImport2.
Import ListNotations.
Open Scope R_scope.

Lemma exported_nodes x K D c source (tq : list Q) (cq : nat -> nat -> Q) N0 : good_breaks x -> (2 <= K)%nat -> (3 <= D)%nat ->
  (N0 * (N0 + 2) = D)%nat -> List.length tq = ((List.length x - 1) * (K - 1) + 1)%nat ->
  (forall p i, (p + 1 < List.length x)%nat -> (i < K)%nat -> Q2R (nth (p * (K - 1) + i) tq 0%Q) = nth p x 0 + INR i * ((nth (p + 1) x 0 - nth p x 0) / INR (K - 1))) ->
  (forall i d, (i < List.length tq)%nat -> (d < D)%nat -> exists p, in_interval x p (Q2R (nth i tq 0%Q)) /\ Q2R (cq i d) = piece x K c p d (Q2R (nth i tq 0%Q))) ->
  exported (model_init (Some x) None (Some (mkc3 K (List.length x - 1) D c)) source) tq (mkcoefs false (List.length tq) D cq).
Proof.
  intros G HK HD HN LT TN VA. pose proof G as [L2 GS].
  destruct (samples x K D c source G HK HD) as (times & r & ED & LT0 & TN0 & SD0 & SV).
  assert (TE : map Q2R tq = times).
  { apply (nth_ext _ _ 0 0); [rewrite map_length; lia|]. intros i Hi. rewrite map_length in Hi. rewrite <- RMicromega.Q2R_0, (map_nth Q2R), RMicromega.Q2R_0.
    set (p := (i / (K - 1))%nat). set (m := (i mod (K - 1))%nat).
    pose proof (Nat.div_mod i (K - 1) ltac:(lia)) as DM. pose proof (Nat.mod_upper_bound i (K - 1) ltac:(lia)) as MB. fold p m in DM, MB.
    assert (X : exists p m, (p + 1 < List.length x)%nat /\ (m < K)%nat /\ i = (p * (K - 1) + m)%nat).
    { destruct (Nat.eq_dec p (List.length x - 1)) as [EP|NEP]; [exists (List.length x - 2)%nat, (K - 1)%nat; repeat split; nia|exists p, m; repeat split; nia]. }
    destruct X as (p' & m' & X1 & X2 & X3). rewrite X3, TN, TN0 by assumption. reflexivity. }
  assert (TV : forall i, nth i times 0 = Q2R (nth i tq 0%Q)) by (intros i; rewrite <- TE, <- RMicromega.Q2R_0, (map_nth Q2R); reflexivity).
  exists times, r. split; [exact ED|]. split; [exact TE|]. cbn [c_one_dim c_rows c_cols c_at]. split; [reflexivity|]. split; [lia|]. 
  assert (LT2 : List.length times = List.length tq) by (rewrite <- TE, map_length; reflexivity).
  split.
  { clear - ED HN G HK HD LT2 LT L2. destruct (degree_of_size_spec D) as (N1 & D1 & D2 & D3). assert (N1 = N0) by nia. subst N1. unfold to_shc_data in ED.
    assert (BB : b_breaks (m_base (model_init (Some x) None (Some (mkc3 K (List.length x - 1) D c)) source)) = Some x) by (clear - L2; destruct x as [|? [|? ?]]; cbn in L2; try lia; reflexivity).
    rewrite BB in ED. cbn [m_base model_init base_init b_coeffs b_order c_k m_nmax b_dim c_d option_map] in ED. rewrite D3, Nat2Z.id in ED.
    destruct (to_shc_times (Z.of_nat K) x) as [times0|] eqn:ET; [|discriminate]. cbn [bind] in ED.
    destruct (model_coeffs _ _ _ _ _) as [r0|] eqn:EM; [|discriminate]. cbn [bind] in ED. injection ED as E1 E2. subst times0 r0.
    unfold model_coeffs in EM. change (m_base _) with (P_PP.model x K D c) in EM. cbn [option_map] in EM.
    assert (NE : elems (vec 0 times) <> []).
    { rewrite P_SynthProps3.elems_vec. intros E0. rewrite E0 in LT2. rewrite LT, Nat.add_1_r in LT2. discriminate LT2. }
    destruct (C39_ok x K D c (vec 0 times) (Some (N0 * (N0 + 2))%nat) None XNone G ltac:(lia) ltac:(lia) NE ltac:(discriminate)) as (r2 & ER & S1 & S2).
    rewrite ER in EM. injection EM as <-. rewrite S2. lia. }
  intros i j Hi Hj. destruct (VA i j ltac:(lia) ltac:(lia)) as (p & I & V). rewrite V, <- TV. apply SV; [exact Hi|exact Hj|]. rewrite TV. exact I.
Qed.

Definition w3_x : list R := [0; 1461; 2922].
Definition w3_t : list Q := [0; 1461 # 2; 1461; 4383 # 2; 2922]%Q.
Lemma w3_good : good_breaks w3_x.
Proof. split; [cbn; lia|]. intros [|[|i]] Hi; cbn in *; try lia; lra. Qed.

(** u = t / 1461: u^2 up to u = 1, then 1 + 2 (u - 1) *)
Definition w3_c (m p d : nat) : R := match d, m, p with 0%nat, 0%nat, 0%nat => 1 / (1461 * 1461) | 0%nat, 1%nat, 1%nat => 2 / 1461 | 0%nat, 2%nat, 1%nat => 1 | _, _, _ => 0 end.
Definition w3_v (i d : nat) : Q := match d with O => nth i [0; 1 # 4; 1; 2; 3]%Q 0%Q | _ => 0%Q end.
(** |u - 1| *)
Definition w3_k (m p d : nat) : R := match d, m, p with 0%nat, 1%nat, 0%nat => - 1 / 1461 | 0%nat, 2%nat, 0%nat => 1 | 0%nat, 1%nat, 1%nat => 1 / 1461 | _, _, _ => 0 end.
Definition w3_kv (i d : nat) : Q := match d with O => nth i [1; 1 # 2; 0; 1 # 2; 1]%Q 0%Q | _ => 0%Q end.

Lemma piece3 x c p d t : piece x 3 c p d t = c 0%nat p d * (t - nth p x 0) ^ 2 + c 1%nat p d * (t - nth p x 0) + c 2%nat p d.
Proof. unfold piece. cbn. ring. Qed.

Ltac q2r := unfold Q2R; cbn [Qnum Qden]; try lra.
Lemma w3_q i : Q2R (nth i w3_t 0%Q) = nth i [0; 1461 / 2; 1461; 4383 / 2; 2922] 0.
Proof. do 5 (destruct i as [|i]; [cbn [nth w3_t]; q2r|]). destruct i; cbn [nth w3_t]; q2r. Qed.
Lemma w3_nodes p i : (p + 1 < List.length w3_x)%nat -> (i < 3)%nat ->
  Q2R (nth (p * (3 - 1) + i) w3_t 0%Q) = nth p w3_x 0 + INR i * ((nth (p + 1) w3_x 0 - nth p w3_x 0) / INR (3 - 1)).
Proof. intros Hp Hi. cbn in Hp. rewrite w3_q. destruct p as [|[|p]]; [| |lia]; (destruct i as [|[|[|i]]]; [| | |lia]); cbn; lra. Qed.
Lemma w3_in i : (i < 5)%nat -> in_interval w3_x (if (i <? 2)%nat then 0 else 1) (Q2R (nth i w3_t 0%Q)).
Proof. intros Hi. rewrite w3_q. do 5 (destruct i as [|i]; [unfold in_interval; cbn; split; [lia|split; [lra|(left; lra) || (right; split; [reflexivity|lra])]]|]). lia. Qed.

Lemma w3_exported : exported (model_init (Some w3_x) None (Some (mkc3 3 (List.length w3_x - 1) 3 w3_c)) None) w3_t (mkcoefs false 5 3 w3_v).
Proof.
  apply (exported_nodes w3_x 3 3 w3_c None w3_t w3_v 1 w3_good ltac:(lia) ltac:(lia) eq_refl eq_refl w3_nodes).
  intros i d Hi Hd. cbn in Hi. eexists. split; [apply w3_in; exact Hi|]. rewrite piece3, w3_q.
  destruct d as [|[|[|d]]]; [| | |lia]; unfold w3_c, w3_v; (do 5 (destruct i as [|i]; [cbn; q2r|])); lia.
Qed.
Lemma w3_kink_exported : exported (model_init (Some w3_x) None (Some (mkc3 3 (List.length w3_x - 1) 3 w3_k)) None) w3_t (mkcoefs false 5 3 w3_kv).
Proof.
  apply (exported_nodes w3_x 3 3 w3_k None w3_t w3_kv 1 w3_good ltac:(lia) ltac:(lia) eq_refl eq_refl w3_nodes).
  intros i d Hi Hd. cbn in Hi. eexists. split; [apply w3_in; exact Hi|]. rewrite piece3, w3_q.
  destruct d as [|[|[|d]]]; [| | |lia]; unfold w3_k, w3_kv; (do 5 (destruct i as [|i]; [cbn; q2r|])); lia.
Qed.
Lemma w3_years t : In t w3_t -> exists y, mjd_to_dyear t (Some (leap_flag None)) = Ok y /\ exact8 y.
Proof.
  intros Ht. eexists. split; [reflexivity|].
  cbn in Ht. destruct Ht as [<-|[<-|[<-|[<-|[<-|[]]]]]]; [exists 200000000000%Z|exists 200200000000%Z|exists 200400000000%Z|exists 200600000000%Z|exists 200800000000%Z]; reflexivity.
Qed.
Lemma w3_smooth d : smooth_at_breaks w3_x 3 w3_c d.
Proof.
  intros i m Hi Hm. cbn in Hi. assert (i = 0)%nat by lia. subst i.
  assert (P : forall p t, piece w3_x 3 w3_c p d t = w3_c 0%nat p d * (t - nth p w3_x 0) ^ 2 + w3_c 1%nat p d * (t - nth p w3_x 0) + w3_c 2%nat p d) by (intros; apply piece3).
  destruct m as [|[|m]]; [| |lia].
  - cbn [Derive_n]. rewrite !P. destruct d; cbn; lra.
  - cbn [Derive_n]. rewrite !(Derive_ext _ _ _ (P _)).
    assert (DD : forall A B C x0 t, Derive (fun t => A * (t - x0) ^ 2 + B * (t - x0) + C) t = 2 * A * (t - x0) + B).
    { intros A B C x0 t. apply is_derive_unique. auto_derive; [exact I|]. ring. }
    rewrite !DD. destruct d; cbn; lra.
Qed.

(** The kink: quadratic splines with continuous derivative satisfy
    s(0) - 4 s(1/2) + 6 s(1) - 4 s(3/2) + s(2) = 0. *)
Definition w3_knots : list R := [0; 0; 0; 1461; 2922; 2922; 2922].
Ltac dec := repeat match goal with
  | |- context[Rle_dec ?a ?b] => destruct (Rle_dec a b); try (exfalso; lra)
  | |- context[Rlt_dec ?a ?b] => destruct (Rlt_dec a b); try (exfalso; lra)
  | |- context[Req_EM_T ?a ?b] => destruct (Req_EM_T a b); try (exfalso; lra) end.
Lemma w3_indicator i x : (i < 6)%nat -> 0 <= x <= 2922 ->
  indicator w3_knots i x = match i with 2%nat => if Rlt_dec x 1461 then 1 else 0 | 3%nat => if Rlt_dec x 1461 then 0 else 1 | _ => 0 end.
Proof.
  intros Hi Hx. unfold indicator, w3_knots. do 6 (destruct i as [|i]; [cbn; dec; reflexivity|]). lia.
Qed.
Lemma w3_rel c : let s := spline w3_knots 2 c 4 in s 0 - 4 * s (1461 / 2) + 6 * s 1461 - 4 * s (4383 / 2) + s 2922 = 0.
Proof.
  cbv zeta. unfold spline. cbn [seq map fold_right bspline Nat.add]. rewrite !w3_indicator by (lia || lra).
  unfold ratio, w3_knots. cbn [nth Nat.add]. dec. field.
Qed.

Lemma w3_not_reproduced lsq : exists fs' text,
  to_shc (txt "now") (fun _ => None) (txt "m") (model_init (Some w3_x) None (Some (mkc3 3 (List.length w3_x - 1) 3 w3_k)) None) w3_t (mkcoefs false 5 3 w3_kv) "f.shc" None None None None = (fs', Ok tt) /\
  fs' "f.shc"%string = Some text /\
  forall M', from_shc lsq text None None = Ok M' -> exists f p t, takes_values M' 3 0 2922 f /\ in_interval w3_x p t /\ f 0%nat t <> piece w3_x 3 w3_k p 0 t.
Proof.
  destruct (export_exact (txt "now") (fun _ => None) (txt "m") w3_x 3 3 w3_k None w3_t (mkcoefs false 5 3 w3_kv) "f.shc" None None None None 1 1 w3_good ltac:(lia) w3_kink_exported eq_refl
    ltac:(cbn; lia) ltac:(lia) ltac:(lia)) as (fs' & text & s & times' & E1 & E2 & E3 & E4 & E6 & TE & LT0 & TN & VA).
  { cbn. intuition discriminate. } { cbn. intuition discriminate. } { discriminate. } { exact w3_years. }
  { intros i j Hi Hj. cbn in Hi. assert (j < 3)%nat by (cbn in Hj; lia). destruct j as [|[|[|j]]]; [| | |lia]; unfold exact8; cbn [c_at w3_kv].
    - do 5 (destruct i as [|i]; [cbn [nth]; (exists 100000000%Z; reflexivity) || (exists 50000000%Z; reflexivity) || (exists 0%Z; reflexivity)|]). lia.
    - exists 0%Z. reflexivity.
    - exists 0%Z. reflexivity. }
  exists fs', text. split; [exact E1|]. split; [exact E2|]. intros M' EM. unfold from_shc in EM. unfold leap_flag in E3. cbv zeta in EM. rewrite E3 in EM. cbn [bind] in EM. rewrite E4, TE in EM.
  assert (TS : exists t0 ts, times' = t0 :: ts) by (destruct times' as [|t0 ts]; [discriminate LT0|eauto]). destruct TS as (t0 & ts & TS). rewrite TS in EM at 1. cbv iota beta in EM.
  change (Z.of_nat 3 =? 1)%Z with false in EM. cbv iota in EM. change (Z.to_nat (Z.max (Z.of_nat 3 - 1) 1)) with 2%nat in EM.
  assert (BE : every_step times' 2 = w3_x).
  { unfold every_step. rewrite LT0. cbn [List.length w3_x seq map Nat.sub Nat.mul Nat.add Nat.div Nat.divmod fst]. 
    pose proof (TN 0%nat 0%nat ltac:(cbn; lia) ltac:(lia)) as T0. pose proof (TN 1%nat 0%nat ltac:(cbn; lia) ltac:(lia)) as T1. pose proof (TN 1%nat 2%nat ltac:(cbn; lia) ltac:(lia)) as T2.
    cbn in T0, T1, T2. unfold w3_x. f_equal; [rewrite T0; lra|]. f_equal; [rewrite T1; lra|]. f_equal. rewrite T2. lra. }
  rewrite BE in EM. unfold shc_padded in EM. change (1 <? Z.of_nat 1)%Z with false in EM. cbv iota in EM. rewrite E6 in EM. cbn [bind] in EM.
  assert (KE : augment_breaks w3_x (Z.of_nat 3) = Ok w3_knots) by reflexivity. rewrite KE in EM. cbn [bind] in EM. change (Z.of_nat 3 <? 1)%Z with false in EM. cbv iota in EM.
  change (((1 + 1) * (1 + 1) - 1 * 1))%nat with 3%nat in EM.
  destruct (lsq _ _ _ _ _) as [c|]; [|discriminate]. cbn [bind] in EM. change (Z.to_nat (Z.of_nat 3)) with 3%nat in EM.
  destruct (model_spline w3_x 3 w3_knots (List.length w3_knots - 3) 3 c None w3_good ltac:(lia) ltac:(lia) KE ltac:(lia)) as (M2 & EM2 & _ & _ & _ & TV).
  rewrite EM2 in EM. injection EM as <-. change (first_break w3_x) with 0 in TV. change (last_break w3_x) with 2922 in TV.
  set (f := fun d x => spline w3_knots (3 - 1) (fun i => c i d) (List.length w3_knots - 3) x) in TV.
  assert (REL : f 0%nat 0 - 4 * f 0%nat (1461 / 2) + 6 * f 0%nat 1461 - 4 * f 0%nat (4383 / 2) + f 0%nat 2922 = 0) by apply (w3_rel (fun i => c i 0%nat)).
  exists f. assert (IN : forall i, (i < 5)%nat -> in_interval w3_x (if (i <? 2)%nat then 0 else 1) (nth i [0; 1461 / 2; 1461; 4383 / 2; 2922] 0)) by (intros i Hi; rewrite <- w3_q; apply w3_in; exact Hi).
  assert (PV : forall p t, piece w3_x 3 w3_k p 0 t = w3_k 0%nat p 0%nat * (t - nth p w3_x 0) ^ 2 + w3_k 1%nat p 0%nat * (t - nth p w3_x 0) + w3_k 2%nat p 0%nat) by (intros; apply piece3).
  assert (CASES : f 0%nat 0 <> 1 \/ f 0%nat (1461 / 2) <> 1 / 2 \/ f 0%nat 1461 <> 0 \/ f 0%nat (4383 / 2) <> 1 / 2 \/ f 0%nat 2922 <> 1).
  { destruct (Req_EM_T (f 0%nat 0) 1); [|tauto]. destruct (Req_EM_T (f 0%nat (1461 / 2)) (1 / 2)); [|tauto]. destruct (Req_EM_T (f 0%nat 1461) 0); [|tauto].
    destruct (Req_EM_T (f 0%nat (4383 / 2)) (1 / 2)); [|tauto]. destruct (Req_EM_T (f 0%nat 2922) 1); [|tauto]. exfalso. lra. }
  destruct CASES as [X|[X|[X|[X|X]]]].
  - exists 0%nat, 0. split; [exact TV|]. split; [exact (IN 0%nat ltac:(lia))|]. rewrite PV. intros EE. apply X. rewrite EE. cbn. lra.
  - exists 0%nat, (1461 / 2). split; [exact TV|]. split; [exact (IN 1%nat ltac:(lia))|]. rewrite PV. intros EE. apply X. rewrite EE. cbn. lra.
  - exists 1%nat, 1461. split; [exact TV|]. split; [exact (IN 2%nat ltac:(lia))|]. rewrite PV. intros EE. apply X. rewrite EE. cbn. lra.
  - exists 1%nat, (4383 / 2). split; [exact TV|]. split; [exact (IN 3%nat ltac:(lia))|]. rewrite PV. intros EE. apply X. rewrite EE. cbn. lra.
  - exists 1%nat, 2922. split; [exact TV|]. split; [exact (IN 4%nat ltac:(lia))|]. rewrite PV. intros EE. apply X. rewrite EE. cbn. lra.
Qed.

Lemma w3_kink_continuous d : continuous_at_breaks w3_x 3 w3_k d.
Proof. intros i Hi. cbn in Hi. assert (i = 0)%nat by lia. subst i. rewrite !piece3. destruct d; cbn; lra. Qed.
Lemma w3_values i j : (i < 5)%nat -> (j < 3)%nat -> exact8 (w3_v i j).
Proof.
  intros Hi Hj. destruct j as [|j]; [|exists 0%Z; reflexivity]. unfold exact8, w3_v.
  do 5 (destruct i as [|i]; [cbn [nth]; (exists 0%Z; reflexivity) || (exists 25000000%Z; reflexivity) || (exists 100000000%Z; reflexivity) || (exists 200000000%Z; reflexivity) || (exists 300000000%Z; reflexivity)|]). lia.
Qed.

Lemma w3_file : exists content s knots,
  load_shcfile content (Some (leap_flag None)) None = Ok s /\ l_params s = [1; 1; 5; 3; 2]%Z /\ List.length (l_rows s) = 3%nat /\
  rising (map Q2R (l_time s)) /\ every_step (map Q2R (l_time s)) 2 = w3_x /\ augment_breaks w3_x 3 = Ok knots /\
  exists f : nat -> nat -> R, forall j i, (j < 3)%nat -> (i < List.length (l_time s))%nat ->
     Q2R (nth i (nth j (l_rows s) []) 0%Q) = spline knots 2 (f j) (List.length knots - 3) (Q2R (nth i (l_time s) 0%Q)).
Proof.
  destruct (export_exact (txt "now") (fun _ => None) (txt "m") w3_x 3 3 w3_c None w3_t (mkcoefs false 5 3 w3_v) "f.shc" None None None None 1 1 w3_good ltac:(lia) w3_exported eq_refl
    ltac:(cbn; lia) ltac:(lia) ltac:(lia)) as (fs' & text & s & times' & E1 & E2 & E3 & E4 & E6 & TE & LT0 & TN & VA).
  { cbn. intuition discriminate. } { cbn. intuition discriminate. } { discriminate. } { exact w3_years. } { intros i j Hi Hj. apply w3_values; [exact Hi|exact Hj]. }
  exists text, s, w3_knots. split; [exact E3|]. split; [exact E4|]. split; [exact E6|].
  assert (T : times' = [0; 1461 / 2; 1461; 4383 / 2; 2922]).
  { destruct times' as [|u0 [|u1 [|u2 [|u3 [|u4 [|u5 l]]]]]]; cbn in LT0; try discriminate LT0.
    pose proof (TN 0%nat 0%nat ltac:(cbn; lia) ltac:(lia)) as T0. pose proof (TN 0%nat 1%nat ltac:(cbn; lia) ltac:(lia)) as T1. pose proof (TN 1%nat 0%nat ltac:(cbn; lia) ltac:(lia)) as T2.
    pose proof (TN 1%nat 1%nat ltac:(cbn; lia) ltac:(lia)) as T3. pose proof (TN 1%nat 2%nat ltac:(cbn; lia) ltac:(lia)) as T4. cbn in T0, T1, T2, T3, T4.
    repeat f_equal; lra. }
  rewrite TE, T. split. { intros i Hi. do 4 (destruct i as [|i]; [cbn; lra|]). cbn in Hi. lia. }
  split. { unfold every_step. cbn. unfold w3_x. reflexivity. }
  split; [reflexivity|].
  destruct (P_Smooth.fin_choice (fun j C => forall p y, in_interval w3_x p y -> piece w3_x 3 w3_c p j y = spline w3_knots 2 C (List.length w3_knots - 3) y) (fun _ => 0) 3) as [g Hg].
  { intros j Hj. apply (P_Smooth.pieces_are_spline w3_x 3 w3_knots w3_c j w3_good ltac:(lia) eq_refl (w3_smooth j)). }
  exists g. intros j i Hj Hi.
  assert (LI : (i < 5)%nat) by (rewrite <- (map_length Q2R), TE, T in Hi; exact Hi).
  assert (TI : Q2R (nth i (l_time s) 0%Q) = nth i times' 0) by (rewrite <- TE, <- RMicromega.Q2R_0, (map_nth Q2R); reflexivity).
  rewrite TI. pose proof (w3_in i LI) as I. rewrite w3_q, <- T in I.
  rewrite <- (Hg j Hj _ _ I). rewrite (VA j i _ ltac:(rewrite E6; lia) ltac:(rewrite T; exact LI) I). reflexivity.
Qed.

(** order 2: |u - 1| *)
Definition w2_c (m p d : nat) : R := match d, m, p with 0%nat, 0%nat, 0%nat => - 1 / 1461 | 0%nat, 1%nat, 0%nat => 1 | 0%nat, 0%nat, 1%nat => 1 / 1461 | _, _, _ => 0 end.
Definition w2_v (i d : nat) : Q := match d with O => nth i [1; 0; 1]%Q 0%Q | _ => 0%Q end.
Lemma w2_exported : exported (model_init (Some w3_x) None (Some (mkc3 2 (List.length w3_x - 1) 3 w2_c)) None) [0; 1461; 2922]%Q (mkcoefs false 3 3 w2_v).
Proof.
  assert (QV : forall i, Q2R (nth i [0; 1461; 2922]%Q 0%Q) = nth i [0; 1461; 2922] 0) by (intros i; do 3 (destruct i as [|i]; [cbn [nth]; q2r|]); destruct i; cbn [nth]; q2r).
  apply (exported_nodes w3_x 2 3 w2_c None [0; 1461; 2922]%Q w2_v 1 w3_good ltac:(lia) ltac:(lia) eq_refl eq_refl).
  - intros p i Hp Hi. cbn in Hp. rewrite QV. destruct p as [|[|p]]; [| |lia]; (destruct i as [|[|i]]; [| |lia]); cbn; lra.
  - intros i d Hi Hd. cbn in Hi. rewrite QV. exists (if (i <? 1)%nat then 0%nat else 1%nat). split.
    + do 3 (destruct i as [|i]; [unfold in_interval; cbn; split; [lia|split; [lra|(left; lra) || (right; split; [reflexivity|lra])]]|]). lia.
    + unfold piece. destruct d as [|[|[|d]]]; [| | |lia]; unfold w2_c, w2_v; (do 3 (destruct i as [|i]; [cbn; q2r|])); lia.
Qed.
