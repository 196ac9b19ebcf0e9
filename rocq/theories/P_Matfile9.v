(** Evaluation of reloaded models. *)
From Coq Require Import Reals List Arith ZArith String Bool Lia Lra.
From Verif Require Import M_Prelude M_ND Spec_Field Spec_PP M_SynthArr M_PP M_Spectrum M_Model M_Rotate M_Chaos M_Matfile Spec_Matfile P_ND P_SHC2 P_SHCModel P_Chaos P_Chaos4 P_Matfile P_Matfile2 P_Matfile3 P_Matfile4 P_Matfile5 P_Matfile6 P_Matfile7 P_Matfile8.
Import ListNotations.
Open Scope R_scope.

Lemma degree_pos n : (3 <= n)%nat -> (1 <= degree_of_size n)%Z.
Proof.
  intros H. unfold degree_of_size. assert (2 <= Z.sqrt (Z.of_nat n + 1))%Z; [|lia]. change 2%Z with (Z.sqrt 4). apply Z.sqrt_le_mono. lia.
Qed.

Lemma reloaded_tdep E breaks order ct static sm gsm ds be ce bc cc mt c meta f sats c' n1 n2 :
  chaos_init breaks order (Some ct) static sm gsm ds be ce bc cc mt = Ok c ->
  (2 <= List.length breaks)%nat -> (1 <= c_k ct)%nat -> c_m ct = (List.length breaks - 1)%nat -> (3 <= c_d ct)%nat -> (forall o, order = Some o -> (1 <= o)%Z) ->
  (forall k, static = Some k -> c_k k = 1%nat /\ c_m k = 1%nat) ->
  save_matfile c meta no_file = (f, Ok tt) -> load_CHAOS_matfile f sats = Ok (c', n1, n2) ->
  forall time nmax deriv e,
  same_cres (synth_coeffs_tdep c time nmax deriv e) (synth_coeffs_tdep c' time nmax deriv e) /\
  (nmax <> Some 0%nat -> forall radius theta phi grid,
   same_field (synth_values_tdep E c time radius theta phi nmax deriv grid e) (synth_values_tdep E c' time radius theta phi nmax deriv grid e)).
Proof.
  intros HI HL HK HM HD HO HS HW HR time nmax deriv e.
  destruct (internal_round_trip _ _ _ _ _ _ _ _ _ _ _ _ _ _ _ _ _ _ _ HI HL HK HM HO HS HW HR) as (S1 & _).
  destruct (init_parts _ _ _ _ _ _ _ _ _ _ _ _ _ HI) as (P1 & _). cbn [option_map] in P1. rewrite P1 in S1. unfold same_part in S1.
  destruct (ch_tdep c') as [m'|] eqn:E'; [|contradiction].
  destruct (init_full breaks order ct HL HK HM HO) as (k & FB & DK).
  unfold synth_coeffs_tdep, synth_values_tdep. rewrite P1, E'. split.
  - unfold model_coeffs. apply (same_synth _ _ breaks k); [exact FB|apply S1].
  - intros Hn radius theta phi grid. apply (same_values _ _ _ _ breaks k); [exact FB|lia|exact S1|exact Hn|].
    intros N EN. cbn [m_nmax model_init] in EN. rewrite (fb_dim _ _ _ FB) in EN. injection EN as <-. apply degree_pos. lia.
Qed.

Lemma reloaded_static E breaks order ct D v sm gsm ds be ce bc cc mt c meta f sats c' n1 n2 :
  chaos_init breaks order (Some ct) (Some (mkc3 1 1 D v)) sm gsm ds be ce bc cc mt = Ok c ->
  (2 <= List.length breaks)%nat -> (1 <= c_k ct)%nat -> c_m ct = (List.length breaks - 1)%nat -> (3 <= D)%nat -> (forall o, order = Some o -> (1 <= o)%Z) ->
  save_matfile c meta no_file = (f, Ok tt) -> load_CHAOS_matfile f sats = Ok (c', n1, n2) ->
  forall nmax deriv e,
  same_cres (synth_coeffs_static c nmax deriv e) (synth_coeffs_static c' nmax deriv e) /\
  (nmax <> Some 0%nat -> forall radius theta phi grid,
   same_field (synth_values_static E c radius theta phi nmax deriv grid e) (synth_values_static E c' radius theta phi nmax deriv grid e)).
Proof.
  intros HI HL HK HM HD HO HW HR nmax deriv e.
  assert (HS : forall k, Some (mkc3 1 1 D v) = Some k -> c_k k = 1%nat /\ c_m k = 1%nat) by (intros k E0; injection E0 as <-; split; reflexivity).
  destruct (internal_round_trip _ _ _ _ _ _ _ _ _ _ _ _ _ _ _ _ _ _ _ HI HL HK HM HO HS HW HR) as (_ & S1).
  destruct (init_parts _ _ _ _ _ _ _ _ _ _ _ _ _ HI) as (_ & P1 & _). destruct (P1 _ eq_refl) as (b & PS & NE). rewrite PS in S1. unfold same_part in S1.
  destruct (ch_static c') as [m'|] eqn:E'; [|contradiction].
  set (m := model_init _ _ _ _) in *.
  destruct (init_full [nth 0 breaks 0; last breaks b] (Some 1%Z) (mkc3 1 1 D v)) as (k & FB & DK); try (cbn; lia).
  { intros o Eo. injection Eo as <-. lia. }
  unfold synth_coeffs_static, synth_values_static. rewrite PS, E'.
  assert (T : static_time m' = static_time m). { unfold static_time. destruct S1 as ((S2 & _) & _). rewrite <- S2. reflexivity. }
  rewrite T. split.
  - unfold model_coeffs. apply (same_synth _ _ [nth 0 breaks 0; last breaks b] k); [exact FB|apply S1].
  - intros Hn radius theta phi grid. apply (same_values _ _ _ _ [nth 0 breaks 0; last breaks b] k); [exact FB|cbn in DK; lia|exact S1|exact Hn|].
    intros N EN. unfold m in EN. cbn [m_nmax model_init] in EN. rewrite (fb_dim _ _ _ FB) in EN. injection EN as <-. apply degree_pos. cbn in DK. lia.
Qed.

Lemma reloaded_sm E c meta f0 f sats c' n1 n2 sm gsm q10 q11 s11 :
  ch_sm c = Some sm -> ch_gsm c = Some gsm -> ch_delta c = Some (q10, q11, s11) ->
  (3 <= List.length sm)%nat -> (4 <= List.length gsm)%nat -> d_order q10 = 1%nat -> d_order q11 = 1%nat -> d_order s11 = 1%nat ->
  d_breaks q11 = d_breaks s11 -> (2 <= List.length (d_breaks q10))%nat -> (2 <= List.length (d_breaks q11))%nat ->
  save_matfile c meta f0 = (f, Ok tt) -> load_CHAOS_matfile f sats = Ok (c', n1, n2) ->
  forall time nmax source rc, synth_coeffs_sm E c time nmax source rc = synth_coeffs_sm E c' time nmax source rc.
Proof.
  intros E1 E2 E3 L1 L2 O1 O2 O3 HB B1 B2 HW HR time nmax source rc.
  assert (PQ : pieces_of q11 = pieces_of s11) by (unfold pieces_of; rewrite HB; reflexivity).
  destruct (ext_parts _ _ _ _ _ _ _ _ _ _ _ _ _ E1 E2 E3 L1 L2 O1 O2 O3 PQ HW HR) as (Q1 & _ & a & b & d & Q2 & Q3 & Q4 & Q5 & Q6 & Q7).
  assert (Q8 : same_delta s11 d).
  { split; [congruence|]. split; [congruence|]. rewrite O3. intros r i Hr Hi. replace r with 0%nat by lia. symmetry. apply Q7. exact Hi. }
  apply (sm_same E c c' time nmax source rc (q10, q11, s11) (a, b, d)); [congruence|exact E3|exact Q2|].
  intros j. destruct j as [|[|j]]; cbn [nth_delta]; (split; [apply Q3 || apply Q4 || apply Q8|intros t; apply same_delta_at]); try assumption. rewrite <- HB. exact B2.
Qed.

Section Angles.
Variables (breaks : list R) (order : option Z) (tdep static : option c3) (sm gsm : option (list R)) (ds : option (delta * delta * delta)).
Variables (lb : list (string * list R)) (lc : list (string * c3)) (bc : option (list (string * list R))) (cc : option (list (string * c3))) (mt : metadata).
Variables (c : chaos) (pre : list (list R)) (f0 f : matfile) (arg : option (list string)) (c' : chaos) (n1 n2 : list string).
Hypothesis HI : chaos_init breaks order tdep static sm gsm ds (Some lb) (Some lc) bc cc mt = Ok c.
Hypothesis ND : NoDup (map fst lb).
Hypothesis HA : forall s br, In (s, br) lb -> exists K, lookup s lc = Some K /\ good_angles br K.
Hypothesis HV : exists s1 b1 s2 b2, In (s1, b1) lb /\ In (s2, b2) lb /\ bins b1 <> bins b2.
Hypothesis HP : (List.length lb <= List.length pre)%nat.
Hypothesis HF : fst (name_satellites (List.length lb) (sat_list arg)) = map fst lb.
Hypothesis HW : save_matfile c (SMeta pre (map fst lb)) f0 = (f, Ok tt).
Hypothesis HR : load_CHAOS_matfile f arg = Ok (c', n1, n2).

Lemma reloaded_angles0 :
  n1 = map fst lb /\ exists es es', ch_euler c = Some es /\ ch_euler c' = Some es' /\ map fst es' = map fst lb /\
    forall s, In s (map fst lb) -> exists e e', lookup s es = Some e /\ lookup s es' = Some e' /\ same_base (eu_base e) (eu_base e') /\
      exists x k, full_base (eu_base e) x k.
Proof.
  destruct (init_parts _ _ _ _ _ _ _ _ _ _ _ _ _ HI) as (_ & _ & _ & _ & _ & _ & P7 & _).
  destruct (P7 _ eq_refl) as (es & E1 & E2). clear P7.
  set (sats := map fst lb) in *.
  set (brk s := match lookup s lb with Some b => b | None => [] end).
  set (cof s := match lookup s lc with Some b => b | None => mkc3 0 0 0 (fun _ _ _ => 0) end).
  set (ex s := doubled (brk s)). set (ek s := take_last (cof s) 1).
  assert (GA : forall s, In s sats -> lookup s lb = Some (brk s) /\ lookup s lc = Some (cof s) /\ good_angles (brk s) (cof s)).
  { intros s Hs. apply in_map_iff in Hs as ([s' br] & <- & Hs). cbn [fst]. pose proof (lookup_nodup s' lb br ND Hs) as Lk. unfold brk, cof. rewrite Lk.
    destruct (HA _ _ Hs) as (K & Lc & G). rewrite Lc. repeat split; try reflexivity; apply G. }
  destruct (euler_keys _ _ _ _ _ E2) as [U1 U2].
  assert (HAE : forall s, In s sats -> exists e, lookup s es = Some e /\ angles_ok e (ex s) (ek s)).
  { intros s Hs. destruct (GA s Hs) as (G1 & G2 & G3). destruct (U2 s (brk s) (lookup_in _ _ _ G1)) as (cs' & C & p & A1 & A2 & A3).
    injection A1 as <-. rewrite G2 in A2. injection A2 as <-. eexists. split; [apply lookup_nodup; [rewrite U1; exact ND|exact A3]|]. apply angles_entry. exact G3. }
  assert (V : exists s1 s2, In s1 sats /\ In s2 sats /\ bins (brk s1) <> bins (brk s2)).
  { destruct HV as (s1 & b1 & s2 & b2 & H1 & H2 & N). exists s1, s2. split; [apply (in_map fst _ _ H1)|]. split; [apply (in_map fst _ _ H2)|].
    unfold brk. rewrite (lookup_nodup s1 lb b1 ND H1), (lookup_nodup s2 lb b2 ND H2). exact N. }
  destruct V as (s1 & s2 & I1 & I2 & VN).
  assert (VB : varied (map (fun s => saved_breaks (ex s)) sats)).
  { exists (saved_breaks (ex s1)), (saved_breaks (ex s2)). split; [apply (in_map (fun s => saved_breaks (ex s))), I1|]. split; [apply (in_map (fun s => saved_breaks (ex s))), I2|].
    unfold ex. rewrite (doubled_saved _ _ (proj2 (proj2 (GA s1 I1)))), (doubled_saved _ _ (proj2 (proj2 (GA s2 I2)))). intros E. apply VN. unfold bins. rewrite E. reflexivity. }
  assert (VA : varied (map (fun s => saved_angle (ek s) 0) sats)).
  { exists (saved_angle (ek s1) 0), (saved_angle (ek s2) 0). split; [apply (in_map (fun s => saved_angle (ek s) 0)), I1|]. split; [apply (in_map (fun s => saved_angle (ek s) 0)), I2|].
    unfold saved_angle. rewrite !map_length, !seq_length. unfold ek. cbn [take_last c_m].
    rewrite (proj1 (proj2 (proj2 (proj2 (proj2 (GA s1 I1)))))), (proj1 (proj2 (proj2 (proj2 (proj2 (GA s2 I2)))))). exact VN. }
  assert (HN : (List.length sats <= List.length pre)%nat) by (unfold sats; rewrite map_length; exact HP).
  assert (HF' : fst (name_satellites (List.length sats) (sat_list arg)) = sats) by (unfold sats at 1; rewrite map_length; exact HF).
  destruct (euler_parts c es sats ex ek pre f0 f arg c' n1 n2 E1 ND HAE VB VA HN HF' HW HR) as (Z1 & es' & Z2 & Z3 & Z4).
  split; [exact Z1|]. exists es, es'. split; [exact E1|]. split; [exact Z2|]. split; [exact Z3|].
  intros s Hs. destruct (Z4 s Hs) as (e & e' & Y1 & Y2 & Y3). exists e, e'. split; [exact Y1|]. split; [exact Y2|]. split; [exact Y3|].
  destruct (HAE s Hs) as (e0 & X1 & X2). rewrite Y1 in X1. injection X1 as <-. exists (ex s), (ek s). apply X2.
Qed.

Lemma reloaded_angles :
  n1 = map fst lb /\ exists es es', ch_euler c = Some es /\ ch_euler c' = Some es' /\ map fst es' = map fst lb /\
    forall s, In s (map fst lb) -> exists e e', lookup s es = Some e /\ lookup s es' = Some e' /\ same_base (eu_base e) (eu_base e').
Proof.
  destruct reloaded_angles0 as (A & es & es' & B1 & B2 & B3 & B4). split; [exact A|]. exists es, es'. split; [exact B1|]. split; [exact B2|]. split; [exact B3|].
  intros s Hs. destruct (B4 s Hs) as (e & e' & X1 & X2 & X3 & _). eauto.
Qed.

Lemma reloaded_angles_values time sat dim deriv e : In sat (map fst lb) ->
  same_cres (synth_euler_angles c time sat dim deriv e) (synth_euler_angles c' time sat dim deriv e).
Proof.
  intros Hs. destruct reloaded_angles0 as (_ & es & es' & B1 & B2 & B3 & B4). destruct (B4 sat Hs) as (u & u' & X1 & X2 & X3 & x & k & X4).
  unfold synth_euler_angles. rewrite B1, B2, X1, X2. apply (same_synth _ _ x k); assumption.
Qed.
End Angles.

Lemma reloaded_cal c sat br K f0 f meta arg c' n1 n2 :
  ch_cal c = Some [(sat, base_init (Some br) (Some 1%Z) (Some K))] -> (2 <= List.length br)%nat -> c_k K = 1%nat -> c_m K = (List.length br - 1)%nat -> c_d K = 9%nat ->
  save_matfile c meta f0 = (f, Ok tt) -> load_CHAOS_matfile f arg = Ok (c', n1, n2) ->
  exists b', ch_cal c' = Some [("cryosat-2_1"%string, b')] /\ same_base (base_init (Some br) (Some 1%Z) (Some K)) b'.
Proof.
  intros E1 L K1 KM KD HW HR. eapply (cal_parts c sat _ br (take_last K 1)); [exact E1|apply cal_full; assumption| |exact KD|exact HW|exact HR].
  unfold take_last. cbn [c_k Z.eqb Z.ltb]. rewrite K1. reflexivity.
Qed.

Lemma caller_list f u tb sats c' n1 n2 : mf_euler f = Some u -> u_breaks u = Cells tb -> load_CHAOS_matfile f (Some sats) = Ok (c', n1, n2) ->
  n2 = (sats ++ map generic_name (seq (List.length sats + 1) (List.length tb - List.length sats)))%list.
Proof.
  intros E1 E2 HR. apply load_inv in HR as (pp & a & sm' & gsm' & ds' & be' & ce' & bc' & cc' & _ & _ & _ & R1 & _).
  unfold euler_part, load_euler in R1. rewrite E1, E2 in R1. cbn [sat_list] in R1. rewrite <- names_caller.
  destruct (name_satellites (List.length tb) sats) as [m1 m2]. destruct (u_alpha u), (u_beta u), (u_gamma u); try discriminate. cbn [fst snd] in *.
  match type of R1 with bind (bind ?m _) _ = _ => destruct m as [ks|]; [|discriminate] end. cbn [bind] in R1. injection R1 as _ _ _ <-. reflexivity.
Qed.
