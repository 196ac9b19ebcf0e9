(** Success of saving and loading complete models. *)
From Coq Require Import Reals List Arith ZArith String Bool Lia Lra.
From Verif Require Import M_Prelude M_ND Spec_Field Spec_PP M_SynthArr M_PP M_Spectrum M_Model M_Rotate M_Chaos M_Matfile Spec_Matfile P_ND P_SHC2 P_SHCModel P_Chaos P_Chaos4 P_Matfile P_Matfile2 P_Matfile3 P_Matfile4 P_Matfile5 P_Matfile6 P_Matfile7.
Import ListNotations.
Open Scope R_scope.

Lemma some_inj {A} (x y : A) : Some x = Some y -> x = y.
Proof. congruence. Qed.

(** number of intervals that the breaks [br] of a satellite describe *)
Definition bins (br : list R) : nat := Nat.max 1 (List.length br - 1).

(** well-formed angles of one satellite: a single break stands for one
    interval, otherwise the first and the last break differ *)
Definition good_angles (br : list R) (K : c3) : Prop :=
  c_k K = 1%nat /\ c_d K = 3%nat /\ c_m K = bins br /\
  (List.length br = 1%nat \/ ((2 <= List.length br)%nat /\ hd 0 br <> last br 0)).

Definition doubled (br : list R) : list R := match br with [b] => [b; b] | _ => br end.

Lemma angles_entry br K pre : good_angles br K -> angles_ok (mkeuler (base_init (Some br) (Some 1%Z) (Some K)) pre) (doubled br) (take_last K 1).
Proof.
  intros (K1 & K2 & K3 & KB).
  assert (EB : match br with [b] => Some [b; b] | _ => Some br end = Some (doubled br)) by (destruct br as [|? [|]]; reflexivity).
  assert (LB : (2 <= List.length (doubled br))%nat /\ (List.length (doubled br) - 1)%nat = bins br).
  { destruct KB as [KB|[KB _]]; destruct br as [|? [|? br]]; cbn in KB; try lia; cbn; lia. }
  assert (CK : c_k (take_last K 1) = 1%nat) by (unfold take_last; cbn [c_k Z.eqb Z.ltb]; rewrite K1; reflexivity).
  split; [|exact CK|exact K2|].
  - split; cbn [eu_base]; unfold base_init; rewrite ?EB; cbn [b_breaks b_coeffs b_order b_pieces b_dim option_map]; rewrite ?K1, ?CK; try reflexivity; try lia; try tauto.
    cbn [take_last c_m]. rewrite K3. symmetry. tauto.
  - destruct KB as [KB|[KB NE]]; destruct br as [|? [|? br]]; cbn in KB; try lia; [reflexivity|]. intros E. exfalso. apply NE. exact E.
Qed.

Lemma doubled_saved br K : good_angles br K -> saved_breaks (doubled br) = br.
Proof.
  intros (_ & _ & _ & [KB|[KB NE]]); destruct br as [|b [|b' br]]; cbn in KB; try lia; unfold saved_breaks.
  - cbn. destruct (Req_EM_T b b); [reflexivity|contradiction].
  - change (doubled (b :: b' :: br)) with (b :: b' :: br). destruct (Req_EM_T _ _); [contradiction|reflexivity].
Qed.

Lemma cal_full br K : (2 <= List.length br)%nat -> c_k K = 1%nat -> c_m K = (List.length br - 1)%nat ->
  full_base (base_init (Some br) (Some 1%Z) (Some K)) br (take_last K 1).
Proof.
  intros L K1 KM. assert (EB : match br with [b] => Some [b; b] | _ => Some br end = Some br) by (destruct br as [|? [|]]; cbn in L; try lia; reflexivity).
  assert (CK : c_k (take_last K 1) = 1%nat) by (unfold take_last; cbn [c_k Z.eqb Z.ltb]; rewrite K1; reflexivity).
  split; unfold base_init; rewrite ?EB; cbn [b_breaks b_coeffs b_order b_pieces b_dim option_map]; rewrite ?K1, ?CK; try reflexivity; try lia. exact KM.
Qed.

Section Complete.
Variables (breaks : list R) (order : option Z) (ct : c3) (D : nat) (sv : nat -> nat -> nat -> R) (sm gsm : list R) (q10 q11 s11 : delta).
Variables (lb : list (string * list R)) (lc : list (string * c3)) (sat : string) (bcal : list R) (kcal : c3) (mt : metadata) (pre : list (list R)).
Variable c : chaos.
Hypothesis HI : chaos_init breaks order (Some ct) (Some (mkc3 1 1 D sv)) (Some sm) (Some gsm) (Some (q10, q11, s11)) (Some lb) (Some lc) (Some [(sat, bcal)]) (Some [(sat, kcal)]) mt = Ok c.
Hypothesis HL : (2 <= List.length breaks)%nat.
Hypothesis HK : (1 <= c_k ct)%nat.
Hypothesis HM : c_m ct = (List.length breaks - 1)%nat.
Hypothesis HO : forall o, order = Some o -> (1 <= o)%Z.
Hypothesis L1 : (3 <= List.length sm)%nat.
Hypothesis L2 : (4 <= List.length gsm)%nat.
Hypothesis O1 : d_order q10 = 1%nat.
Hypothesis O2 : d_order q11 = 1%nat.
Hypothesis O3 : d_order s11 = 1%nat.
Hypothesis HB : d_breaks q11 = d_breaks s11.
Hypothesis HQ : (3 <= List.length (d_breaks q11))%nat.
Hypothesis ND : NoDup (map fst lb).
Hypothesis HA : forall s br, In (s, br) lb -> exists K, lookup s lc = Some K /\ good_angles br K.
Hypothesis HV : exists s1 b1 s2 b2, In (s1, b1) lb /\ In (s2, b2) lb /\ bins b1 <> bins b2.
Hypothesis HP : (List.length lb <= List.length pre)%nat.
Hypothesis C1 : (2 <= List.length bcal)%nat.
Hypothesis C2 : c_k kcal = 1%nat.
Hypothesis C3 : c_m kcal = (List.length bcal - 1)%nat.
Hypothesis C4 : c_d kcal = 9%nat.

Lemma complete : exists f c', save_matfile c (SMeta pre (map fst lb)) no_file = (f, Ok tt) /\
  load_CHAOS_matfile f (Some (map fst lb)) = Ok (c', map fst lb, map fst lb).
Proof.
  destruct (init_parts _ _ _ _ _ _ _ _ _ _ _ _ _ HI) as (P1 & P2 & _ & P4 & P5 & P6 & P7 & _ & P9). cbn [option_map] in P1.
  destruct (P2 _ eq_refl) as (b0 & PS & NE). destruct (P7 _ eq_refl) as (es & E1 & E2). destruct (P9 _ eq_refl) as (cs & K1 & K2). clear P2 P7 P9.
  set (sats := map fst lb) in *.
  set (brk s := match lookup s lb with Some b => b | None => [] end).
  set (cof s := match lookup s lc with Some b => b | None => mkc3 0 0 0 (fun _ _ _ => 0) end).
  set (ex s := doubled (brk s)). set (ek s := take_last (cof s) 1).
  assert (GA : forall s, In s sats -> lookup s lb = Some (brk s) /\ lookup s lc = Some (cof s) /\ good_angles (brk s) (cof s)).
  { intros s Hs. apply in_map_iff in Hs as ([s' br] & <- & Hs). cbn [fst]. pose proof (lookup_nodup s' lb br ND Hs) as Lk. unfold brk, cof. rewrite Lk.
    destruct (HA _ _ Hs) as (K & Lc & G). rewrite Lc. repeat split; try reflexivity; apply G. }
  destruct (euler_keys _ _ _ _ _ E2) as [U1 U2].
  assert (HAE : forall s, In s sats -> exists e, lookup s es = Some e /\ angles_ok e (ex s) (ek s)).
  { intros s Hs. destruct (GA s Hs) as (G1 & G2 & G3). destruct (U2 s (brk s) (lookup_in _ _ _ G1)) as (cs' & C & p & A1 & A2 & A3).
    injection A1 as <-. rewrite G2 in A2. injection A2 as <-. eexists. split; [apply lookup_nodup; [rewrite U1; exact ND|exact A3]|]. apply angles_entry. exact G3. }
  assert (V : exists s1 s2, In s1 sats /\ In s2 sats /\ bins (brk s1) <> bins (brk s2)).
  { destruct HV as (s1 & b1 & s2 & b2 & H1 & H2 & N). exists s1, s2. split; [apply (in_map fst _ _ H1)|]. split; [apply (in_map fst _ _ H2)|].
    unfold brk. rewrite (lookup_nodup s1 lb b1 ND H1), (lookup_nodup s2 lb b2 ND H2). exact N. }
  destruct V as (s1 & s2 & I1 & I2 & VN).
  assert (VB : varied (map (fun s => saved_breaks (ex s)) sats)).
  { exists (saved_breaks (ex s1)), (saved_breaks (ex s2)). split; [apply (in_map (fun s => saved_breaks (ex s))), I1|]. split; [apply (in_map (fun s => saved_breaks (ex s))), I2|].
    unfold ex. rewrite (doubled_saved _ _ (proj2 (proj2 (GA s1 I1)))), (doubled_saved _ _ (proj2 (proj2 (GA s2 I2)))). intros E. apply VN. unfold bins. rewrite E. reflexivity. }
  assert (VA : varied (map (fun s => saved_angle (ek s) 0) sats)).
  { exists (saved_angle (ek s1) 0), (saved_angle (ek s2) 0). split; [apply (in_map (fun s => saved_angle (ek s) 0)), I1|]. split; [apply (in_map (fun s => saved_angle (ek s) 0)), I2|].
    unfold saved_angle. rewrite !map_length, !seq_length. unfold ek. cbn [take_last c_m].
    rewrite (proj1 (proj2 (proj2 (proj2 (proj2 (GA s1 I1)))))), (proj1 (proj2 (proj2 (proj2 (proj2 (GA s2 I2)))))). exact VN. }
  assert (HN : (List.length sats <= List.length pre)%nat) by (unfold sats; rewrite map_length; exact HP).
  assert (FN : name_satellites (List.length sats) (sat_list (Some sats)) = (sats, sats)).
  { unfold name_satellites, sat_list. rewrite Nat.ltb_irrefl, Nat.sub_diag. cbn [seq map]. rewrite app_nil_r. reflexivity. }
  assert (HC : cs = [(sat, base_init (Some bcal) (Some 1%Z) (Some kcal))]).
  { cbn [mapM cal_entry lookup] in K2. rewrite String.eqb_refl in K2. cbn [bind] in K2. injection K2 as <-. reflexivity. }
  pose proof (cal_full bcal kcal C1 C2 C3) as FC.
  destruct (ppdict_round_trip _ _ _ FC) as (pc & PC & _).
  destruct (init_full breaks order ct HL HK HM HO) as (k & FB & DK).
  destruct (ppdict_round_trip _ _ _ FB) as (pp & W1 & W2 & W3 & W4 & W5 & a & W6 & W7).
  assert (PQ : pieces_of q11 = pieces_of s11) by (unfold pieces_of; rewrite HB; reflexivity).
  destruct (ext_round_trip sm gsm q10 q11 s11 L1 L2 O1 O2 O3 PQ) as (x & X1 & X2).
  assert (PN : (pieces_of q11 =? 1)%nat = false) by (apply Nat.eqb_neq; unfold pieces_of; lia). rewrite PN in X2. destruct X2 as (da & db & dd & X2 & _).
  destruct (save_ok c (SMeta pre sats) no_file) as (f & HF).
  { rewrite P1. intros m Em. injection Em as <-. exists pp. exact W1. }
  { rewrite P4, P5, P6. intros ds Eds. injection Eds as <-. exists x. exact X1. }
  { rewrite E1. intros e l Ee. injection Ee as ->. eexists. apply (save_euler_ok _ sats ex ek HAE VB VA). }
  { rewrite K1, HC. intros l Ee. apply some_inj in Ee. subst l. cbn [mapM snd]. rewrite PC. cbn [bind]. eauto. }
  { rewrite PS. intros m Em. injection Em as <-. eexists. reflexivity. }
  pose proof (save_inv _ _ _ _ HF) as (Y1 & Y2 & Y3 & Y4 & Y5 & Y6).
  rewrite P1 in Y1. destruct Y1 as (pp' & Y11 & Y1). cbn [m_base model_init] in Y11. rewrite W1 in Y11. injection Y11 as <-.
  rewrite P4, P5, P6 in Y2. destruct Y2 as (x' & Y21 & Y2). rewrite X1 in Y21. injection Y21 as <-.
  rewrite E1 in Y3. assert (NEs : exists e l, es = e :: l).
  { destruct es as [|e l]; [|eauto]. destruct (HAE s1 I1) as (? & ? & _). discriminate. }
  destruct NEs as (e0 & l0 & EE). rewrite EE in Y3. destruct Y3 as (u & Y31 & Y3). rewrite <- EE in Y31. rewrite (save_euler_ok es sats ex ek HAE VB VA pre) in Y31. injection Y31 as <-.
  rewrite K1, HC in Y4. destruct Y4 as (lcal & Y41 & Y4). cbn [mapM snd] in Y41. rewrite PC in Y41. cbn [bind] in Y41. injection Y41 as <-.
  rewrite PS in Y5. destruct Y5 as (g & Y51 & Y5).
  destruct (reload_entries es sats ex ek ND HAE pre HN) as (es' & Z1 & _).
  assert (CP : exists bc cc cals, cal_part f = Ok (Some bc, Some cc) /\ mapM (cal_entry (Some cc)) bc = Ok cals).
  { unfold cal_part. rewrite Y4.
    assert (V : List.length (a_v (squeeze (pp_coefs pc))) = (c_m kcal * 9)%nat).
    { unfold to_ppdict in PC. cbn [base_init b_order b_pieces b_dim b_breaks b_coeffs] in PC. rewrite C2 in PC. 
      destruct (match bcal with [b] => Some [b; b] | _ => Some bcal end); [|discriminate]. cbn [option_map] in PC.
      change (Z.to_nat (Z.min 1 (Z.of_nat 1))) with 1%nat in PC. change (Z.min 1 (Z.of_nat 1)) with 1%Z in PC.
      assert (FL : List.length (a_v (flat3 (take_last kcal 1))) = (c_m kcal * 9)%nat) by (rewrite flat3_length; unfold take_last; cbn [c_k c_m c_d Z.eqb Z.ltb]; rewrite C2, C4; cbn; lia).
      generalize dependent (flat3 (take_last kcal 1)). intros F PC FL. unfold reshape_rows in PC. cbn [Nat.eqb] in PC. rewrite Nat.mod_1_r, Nat.div_1_r in PC. cbn [Nat.eqb bind] in PC. injection PC as <-.
      cbn [pp_coefs]. unfold M_Matfile.transpose, squeeze. cbn [a_sh a_v]. rewrite map_length, seq_length. lia. }
    cbv zeta. rewrite V, Nat.mod_mul by lia. change (0 =? 0)%nat with true. cbv iota. eexists _, _, _. split; [reflexivity|].
    cbn [mapM cal_entry lookup]. rewrite String.eqb_refl. cbn [bind]. reflexivity. }
  destruct CP as (bc & cc & cals & CP & CQ).
  assert (INIT : exists c', chaos_init (a_v (squeeze (pp_breaks pp))) (Some (Z.of_nat (pp_order pp))) (Some (cube (pp_order pp) (pp_pieces pp) (pp_dim pp) (a_v a)))
      (option_map (fun g => cube 1 1 (List.length (a_v g)) (a_v g)) (mf_g f)) (Some sm) (Some (kept_gsm gsm)) (Some (da, db, dd))
      (Some (combine sats (map (fun s => saved_breaks (ex s)) sats))) (Some (combine sats (map (loaded_c3 ek) sats))) (Some bc) (Some cc) (file_meta f) = Ok c').
  { unfold chaos_init. rewrite W5, Y5. cbn [option_map]. destruct breaks as [|b br]; [cbn in HL; lia|]. cbn [bind].
    unfold file_meta. rewrite Y6, Z1. cbn [bind]. rewrite CQ. cbn [bind]. eauto. }
  destruct INIT as (c' & INIT). exists f, c'. split; [exact HF|].
  eapply load_ok; [exact Y1|exact W6| | |exact CP|exact INIT].
  - unfold ext_part. rewrite Y2, X2. reflexivity.
  - unfold euler_part. rewrite Y3, (load_euler_ok sats ex ek ND (sat_list (Some sats))) by (rewrite FN; reflexivity). cbn [bind]. rewrite FN. reflexivity.
Qed.
End Complete.

(** internal models *)
Lemma internal_success breaks order ct static meta sats mt :
  (2 <= List.length breaks)%nat -> (1 <= c_k ct)%nat -> c_m ct = (List.length breaks - 1)%nat -> (forall o, order = Some o -> (1 <= o)%Z) ->
  exists c f c', chaos_init breaks order (Some ct) static None None None None None None None mt = Ok c /\
    save_matfile c meta no_file = (f, Ok tt) /\ load_CHAOS_matfile f sats = Ok (c', sat_list sats, sat_list sats).
Proof.
  intros HL HK HM HO.
  assert (HI : exists c, chaos_init breaks order (Some ct) static None None None None None None None mt = Ok c /\
    ch_tdep c = Some (model_init (Some breaks) order (Some ct) (Some "internal"%string)) /\ ch_delta c = None /\ ch_euler c = None /\ ch_cal c = None /\
    (forall m, ch_static c = Some m -> exists k, b_coeffs (m_base m) = Some k)).
  { unfold chaos_init. cbn [option_map]. destruct static as [s|]; [destruct breaks as [|b br]; [cbn in HL; lia|]|]; cbn [bind];
      eexists; (split; [reflexivity|]); cbn; repeat (split; [reflexivity|]); intros m Em; try discriminate. injection Em as <-. eexists. reflexivity. }
  destruct HI as (c & HI & I1 & I2 & I3 & I4 & I5). exists c.
  destruct (init_full breaks order ct HL HK HM HO) as (k & FB & DK).
  destruct (ppdict_round_trip _ _ _ FB) as (pp & W1 & W2 & W3 & W4 & W5 & a & W6 & W7).
  destruct (save_ok c meta no_file) as (f & HF); try (rewrite ?I1, ?I2, ?I3, ?I4; intros; discriminate); [|exact I5|].
  { rewrite I1. intros m Em. injection Em as <-. exists pp. exact W1. }
  pose proof (save_inv _ _ _ _ HF) as (Y1 & Y2 & Y3 & Y4 & Y5 & Y6). rewrite I2 in Y2. rewrite I3 in Y3. rewrite I4 in Y4.
  rewrite I1 in Y1. destruct Y1 as (pp' & Y11 & Y1). cbn [m_base model_init] in Y11. rewrite W1 in Y11. injection Y11 as <-.
  assert (INIT : exists c', chaos_init (a_v (squeeze (pp_breaks pp))) (Some (Z.of_nat (pp_order pp))) (Some (cube (pp_order pp) (pp_pieces pp) (pp_dim pp) (a_v a)))
      (option_map (fun g => cube 1 1 (List.length (a_v g)) (a_v g)) (mf_g f)) None None None None None None None (file_meta f) = Ok c').
  { unfold chaos_init. rewrite W5. destruct (mf_g f); cbn [option_map]; [destruct breaks as [|b br]; [cbn in HL; lia|]|]; cbn [bind]; eauto. }
  destruct INIT as (c' & INIT). exists f, c'. split; [exact HI|]. split; [exact HF|].
  eapply load_ok; [exact Y1|exact W6| | | |exact INIT].
  - unfold ext_part. rewrite Y2. reflexivity.
  - unfold euler_part. rewrite Y3. reflexivity.
  - unfold cal_part. rewrite Y4. reflexivity.
Qed.

(** ** Writing to a file that exists, and failing *)
Lemma save_keeps c meta f0 f : save_matfile c meta f0 = (f, Ok tt) ->
  (ch_tdep c = None -> mf_pp f = mf_pp f0) /\ (ch_delta c = None -> mf_ext f = mf_ext f0) /\ (ch_euler c = None -> mf_euler f = mf_euler f0) /\
  (ch_cal c = None -> mf_cal f = mf_cal f0) /\ (ch_static c = None -> mf_g f = mf_g f0).
Proof.
  intros H. apply save_inv in H as (Y1 & Y2 & Y3 & Y4 & Y5 & _). repeat split; intros E; rewrite E in *; assumption.
Qed.
