(** Proofs behind Props_Pointwise: a call on arrays is the calls on its
    elements. *)
From Coq Require Import Reals List Arith ZArith String Ascii Bool Lia Lra.
From Coquelicot Require Import Complex.
From Verif Require Import M_Prelude M_ND Spec_Field Spec_PP Spec_Rotate Spec_Chaos M_Synth M_SynthArr M_PP M_Spectrum M_Model M_Rotate M_Chaos Spec_ChaosApi
  P_ND P_Bcast P_Rotate P_PP P_PP2 P_SynthArr P_SynthProps P_SynthProps3 P_Model P_Chaos P_Chaos2 P_Chaos3 P_Chaos4 P_Chaos5 P_Chaos6 P_CoordArr.
Import ListNotations.
Open Scope R_scope.

Lemma sv_same oob a c c' radius theta phi nmin nmax mmax source F F1 x :
  synth_values oob a c radius theta phi nmin nmax mmax source false = Ok F ->
  synth_values oob a c' (scalar (bread radius x)) (scalar (bread theta x)) (scalar (bread phi x)) nmin nmax mmax source false = Ok F1 ->
  (forall t, In t (elems theta) -> 0 <= t <= 180) -> valid (f_sh F) x -> csh c' = [] -> cdim c' = cdim c ->
  (forall k, (k < cdim c)%nat -> cat c' [] k = cat c (bidx (csh c) x) k) ->
  f_sh F1 = [] /\ f_r F1 [] = f_r F x /\ f_t F1 [] = f_t F x /\ f_p F1 [] = f_p F x.
Proof.
  intros HF HF1 Ht V S1 S2 SC.
  destruct (C30_pointwise _ _ _ _ _ _ _ _ _ _ _ HF Ht x V) as (G & G0 & _ & G1 & G2 & G3).
  assert (FT : fits (sh theta) (f_sh F)).
  { pose proof (broadcast_fits _ _ (sv_shape _ _ _ _ _ _ _ _ _ _ _ HF)) as X. inversion X as [|? ? _ X1]; subst. inversion X1; assumption. }
  assert (SH : f_sh F1 = []).
  { pose proof (sv_shape _ _ _ _ _ _ _ _ _ _ _ HF1) as X. rewrite S1 in X. cbn in X. congruence. }
  assert (V1 : valid (f_sh F1) []) by (rewrite SH; constructor).
  assert (Ht1 : forall t, In t (elems (scalar (bread theta x))) -> 0 <= t <= 180).
  { intros t [<-|[]]. apply Ht. cbn. apply (bread_in theta (f_sh F)); assumption. }
  destruct (C30_pointwise _ _ _ _ _ _ _ _ _ _ _ HF1 Ht1 [] V1) as (G' & G0' & _ & G1' & G2' & G3').
  rewrite !bread_scalar in G0'.
  assert (EC : crow c' [] = crow c x).
  { unfold crow. rewrite S1, S2. apply map_ext_in. intros k Hk. apply in_seq in Hk. rewrite bidx_nil. apply SC. lia. }
  rewrite EC, G0 in G0'. injection G0' as <-. split; [exact SH|]. split; [congruence|]. split; congruence.
Qed.

Section Model.
Variables (oob a : R) (s : src) (x : list R) (K D : nat) (c : nat -> nat -> nat -> R).
Local Notation M := (model_init (Some x) None (Some (mkc3 K (List.length x - 1) D c)) (Some (src_name s))).
Hypothesis G : good_breaks x.
Hypothesis HK : (1 <= K)%nat.

Lemma model_shape time radius theta phi nmax e F :
  model_values oob a M time radius theta phi nmax None None e = Ok F ->
  broadcast [sh radius; sh theta; sh phi; sh time] = Ok (o_sh F).
Proof.
  intros H. pose proof H as HD; apply model_values_decode in HD; [|assumption..]; destruct HD as (N & r & F0 & _ & _ & _ & _ & _ & _ & HS & ->).
  apply sv_shape in HS. exact HS.
Qed.

Lemma model_same time radius theta phi nmax e F F1 i :
  model_values oob a M time radius theta phi nmax None None e = Ok F ->
  model_values oob a M (scalar (bread time i)) (scalar (bread radius i)) (scalar (bread theta i)) (scalar (bread phi i)) nmax None None e = Ok F1 ->
  (forall t, In t (elems theta) -> 0 <= t <= 180) -> valid (o_sh F) i ->
  o_sh F1 = [] /\ o_r F1 [] = o_r F i /\ o_t F1 [] = o_t F i /\ o_p F1 [] = o_p F i.
Proof.
  intros H H1 Ht V.
  pose proof (model_shape _ _ _ _ _ _ _ H) as BS.
  pose proof H as HD; apply model_values_decode in HD; [|assumption..]; destruct HD as (N & r & F0 & U & LD & N1 & ER & _ & _ & HS & ->).
  pose proof H1 as HD; apply model_values_decode in HD; [|assumption..]; destruct HD as (N' & r' & F0' & U' & LD' & N1' & ER' & _ & _ & HS' & ->).
  assert (EN : N = N') by (eapply used_unique; eassumption). subst N'.
  cbn [o_sh o_r o_t o_p] in *.
  assert (VT : valid (sh time) (bidx (sh time) i)).
  { assert (FT : fits (sh time) (f_sh F0)).
    { pose proof (broadcast_fits _ _ BS) as X. inversion X as [|? ? _ X1]; subst. inversion X1 as [|? ? _ X2]; subst. inversion X2 as [|? ? _ X3]; subst. inversion X3; assumption. }
    apply FT. exact V. }
  assert (EC : forall d, (d < D)%nat -> s_at r' [] d = s_at r (bidx (sh time) i) d).
  { intros d Hd. symmetry. apply (C43_part x K D c time _ _ _ r r' _ d G HK Hd VT ER); [exact ER'|left; reflexivity]. }
  cbn in HS'.
  destruct (sv_same _ _ _ _ _ _ _ _ _ _ _ F0 F0' i HS HS' Ht V) as (A & B1 & B2 & B3).
  - reflexivity.
  - reflexivity.
  - cbn [cdim cat csh]. intros k Hk. rewrite EC by lia. reflexivity.
  - split; [exact A|]. rewrite bidx_nil, EC by nia. rewrite B1, B2, B3. auto.
Qed.
End Model.

Section Point.
Variables (E : env) (c : chaos) (time radius theta phi : nd R) (g : list nat).
Hypothesis Hg : broadcast [sh time; sh radius; sh theta; sh phi] = Ok g.
Hypothesis Hte : elems time <> [].
Hypothesis Hth : forall t, In t (elems theta) -> 0 <= t <= 180.
Variable i : list nat.
Hypothesis Hi : valid g i.
Local Notation t1 := (scalar (bread time i)).
Local Notation r1 := (scalar (bread radius i)).
Local Notation th1 := (scalar (bread theta i)).
Local Notation p1 := (scalar (bread phi i)).

Lemma time_valid : valid (sh time) (bidx (sh time) i).
Proof. pose proof (broadcast_fits _ _ Hg) as X. inversion X as [|? ? F1 X1]; subst. apply F1, Hi. Qed.

Lemma synth_of_same k k' src F F1 :
  synth_of E k radius theta phi src false = Ok F -> synth_of E k' r1 th1 p1 src false = Ok F1 ->
  csh k = sh time -> csh k' = [] -> cdim k' = cdim k ->
  (forall d, (d < cdim k)%nat -> cat k' [] d = cat k (bidx (sh time) i) d) ->
  f_sh F = g /\ f_sh F1 = [] /\ f_r F1 [] = f_r F i /\ f_t F1 [] = f_t F i /\ f_p F1 [] = f_p F i.
Proof.
  intros HF HF1 C1 C2 C3 C4. unfold synth_of in HF, HF1.
  assert (SF : f_sh F = g).
  { pose proof (sv_shape _ _ _ _ _ _ _ _ _ _ _ HF) as X. rewrite C1 in X. rewrite (bc_last _ _ _ _ _ Hg) in X. congruence. }
  split; [exact SF|]. eapply sv_same; [exact HF|exact HF1|exact Hth|rewrite SF; exact Hi|exact C2|exact C3|]. rewrite C1. exact C4.
Qed.

Lemma add_same F G H F1 G1 H1 :
  f_sh F = g -> f_sh G = g -> f_sh F1 = [] -> f_sh G1 = [] ->
  f_r F1 [] = f_r F i /\ f_t F1 [] = f_t F i /\ f_p F1 [] = f_p F i ->
  f_r G1 [] = f_r G i /\ f_t G1 [] = f_t G i /\ f_p G1 [] = f_p G i ->
  field_add F G = Ok H -> field_add F1 G1 = Ok H1 ->
  f_sh H = g /\ f_sh H1 = [] /\ f_r H1 [] = f_r H i /\ f_t H1 [] = f_t H i /\ f_p H1 [] = f_p H i.
Proof.
  intros S1 S2 S3 S4 (A1 & A2 & A3) (B1 & B2 & B3) HH HH1.
  destruct (P_Chaos3.field_add_same F G H ltac:(congruence) HH) as (X & Y).
  destruct (P_Chaos3.field_add_same F1 G1 H1 ltac:(congruence) HH1) as (X' & Y').
  split; [congruence|]. split; [congruence|].
  destruct (Y i) as (Y1 & Y2 & Y3); [rewrite S1; exact Hi|]. destruct (Y' []) as (Z1 & Z2 & Z3); [rewrite S3; constructor|].
  rewrite Z1, Z2, Z3, Y1, Y2, Y3. split; [congruence|]. split; congruence.
Qed.

Lemma gsm_same f gsm k ki N nmax H H1 :
  ch_gsm c = Some gsm -> ch_static c <> None -> e_gsm E = Some f -> rf_dipole f = e_dipole E ->
  (List.length gsm = N * (N + 2))%nat -> rot_file f k ki (N * (N + 2)) (N * (N + 2)) ->
  synth_values_gsm E c time radius theta phi nmax (Some "all"%string) None = Ok H ->
  synth_values_gsm E c t1 r1 th1 p1 nmax (Some "all"%string) None = Ok H1 ->
  f_sh H = g /\ f_sh H1 = [] /\ f_r H1 [] = f_r H i /\ f_t H1 [] = f_t H i /\ f_p H1 [] = f_p H i.
Proof.
  intros C1 C2 C3 C4 HL HF HH HH1. unfold synth_values_gsm in HH, HH1. rewrite String.eqb_refl in HH, HH1.
  assert (NE1 : elems t1 <> []) by discriminate.
  destruct (gsm_value E c f gsm k ki N time nmax External C1 C2 C3 C4 Hte HL HF) as (K & K1 & K2 & K3 & K4).
  destruct (gsm_value E c f gsm k ki N time nmax Internal C1 C2 C3 C4 Hte HL HF) as (J & J1 & J2 & J3 & J4).
  destruct (gsm_value E c f gsm k ki N t1 nmax External C1 C2 C3 C4 NE1 HL HF) as (K' & K1' & K2' & K3' & K4').
  destruct (gsm_value E c f gsm k ki N t1 nmax Internal C1 C2 C3 C4 NE1 HL HF) as (J' & J1' & J2' & J3' & J4').
  cbn [src_name] in *. rewrite K1, J1 in HH. rewrite K1', J1' in HH1. cbn [bind] in HH, HH1.
  destruct (synth_of E K radius theta phi "external" false) as [F|] eqn:EF; [|discriminate].
  destruct (synth_of E J radius theta phi "internal" false) as [G|] eqn:EG; [|discriminate]. cbn [bind] in HH.
  destruct (synth_of E K' r1 th1 p1 "external" false) as [F1|] eqn:EF1; [|discriminate].
  destruct (synth_of E J' r1 th1 p1 "internal" false) as [G1|] eqn:EG1; [|discriminate]. cbn [bind] in HH1.
  pose proof time_valid as VT.
  destruct (synth_of_same K K' _ F F1 EF EF1 K2 K2' ltac:(congruence)) as (A1 & A2 & A3).
  { intros d Hd. rewrite K4 by assumption. rewrite K4' by (first [constructor | congruence]). reflexivity. }
  destruct (synth_of_same J J' _ G G1 EG EG1 J2 J2' ltac:(congruence)) as (B1 & B2 & B3).
  { intros d Hd. rewrite J4 by assumption. rewrite J4' by (first [constructor | congruence]). reflexivity. }
  exact (add_same F G H F1 G1 H1 A1 B1 A2 B2 A3 B3 HH HH1).
Qed.

Lemma sm_same f sm ds k ki N nmax rc_e rc_i H H1 :
  ch_sm c = Some sm -> ch_delta c = Some ds -> delta_nonempty ds -> e_sm E = Some f -> rf_dipole f = e_dipole E ->
  (1 <= N)%nat -> (List.length sm = N * (N + 2))%nat -> rot_file f k ki (N * (N + 2)) (N * (N + 2)) ->
  bfits (sh rc_e) (sh time) -> bfits (sh rc_i) (sh time) ->
  synth_values_sm E c time radius theta phi (Some rc_e) (Some rc_i) nmax (Some "all"%string) None = Ok H ->
  synth_values_sm E c t1 r1 th1 p1 (Some (scalar (bread rc_e i))) (Some (scalar (bread rc_i i))) nmax (Some "all"%string) None = Ok H1 ->
  f_sh H = g /\ f_sh H1 = [] /\ f_r H1 [] = f_r H i /\ f_t H1 [] = f_t H i /\ f_p H1 [] = f_p H i.
Proof.
  intros C1 C2 C2' C3 C4 HN HL HF B1 B2 HH HH1. unfold synth_values_sm in HH, HH1. rewrite String.eqb_refl in HH, HH1.
  assert (NE1 : elems t1 <> []) by discriminate.
  destruct (sm_external E c f sm ds k ki N time nmax rc_e C1 C2 C2' C3 C4 Hte HN HL HF B1) as (K & K1 & K2 & K3 & K4).
  destruct (sm_internal E c f sm ds k ki N time nmax rc_i C1 C2 C2' C3 C4 Hte HN HL HF B2) as (J & J1 & J2 & J3 & J4).
  destruct (sm_external E c f sm ds k ki N t1 nmax (scalar (bread rc_e i)) C1 C2 C2' C3 C4 NE1 HN HL HF (bfits_nil _)) as (K' & K1' & K2' & K3' & K4').
  destruct (sm_internal E c f sm ds k ki N t1 nmax (scalar (bread rc_i i)) C1 C2 C2' C3 C4 NE1 HN HL HF (bfits_nil _)) as (J' & J1' & J2' & J3' & J4').
  rewrite K1, J1 in HH. rewrite K1', J1' in HH1. cbn [bind] in HH, HH1.
  destruct (synth_of E K radius theta phi "external" false) as [F|] eqn:EF; [|discriminate].
  destruct (synth_of E J radius theta phi "internal" false) as [G|] eqn:EG; [|discriminate]. cbn [bind] in HH.
  destruct (synth_of E K' r1 th1 p1 "external" false) as [F1|] eqn:EF1; [|discriminate].
  destruct (synth_of E J' r1 th1 p1 "internal" false) as [G1|] eqn:EG1; [|discriminate]. cbn [bind] in HH1.
  pose proof time_valid as VT.
  assert (RB : forall rc : nd R, bfits (sh rc) (sh time) -> bread rc (bidx (sh time) i) = bread rc i).
  { intros rc Hrc. unfold bread. rewrite bidx_trans by exact Hrc. reflexivity. }
  destruct (synth_of_same K K' _ F F1 EF EF1 K2 K2' ltac:(congruence)) as (A1 & A2 & A3).
  { intros d Hd. rewrite K4 by assumption. rewrite K4' by (first [constructor | congruence]). rewrite RB by exact B1. reflexivity. }
  destruct (synth_of_same J J' _ G G1 EG EG1 J2 J2' ltac:(congruence)) as (A4 & A5 & A6).
  { intros d Hd. rewrite J4 by assumption. rewrite J4' by (first [constructor | congruence]). rewrite RB by exact B2. reflexivity. }
  exact (add_same F G H F1 G1 H1 A1 A4 A2 A5 A3 A6 HH HH1).
Qed.
End Point.

Lemma elems_nonempty_valid {A} (a : nd A) i : valid (sh a) i -> elems a <> [].
Proof. intros V H. apply indices_valid in V. apply (in_map (at_ a)) in V. unfold elems in H. rewrite H in V. exact V. Qed.

Lemma call_pointwise E breaks K D ct Ds cs sm gsm q10 q11 s11 be ce bc cc meta c fs fg k ki k' ki' N N' time radius theta phi rc_e rc_i nmax_static sources B i :
  chaos_init breaks None (Some (mkc3 K (List.length breaks - 1) D ct)) (Some (mkc3 1 1 Ds cs)) (Some sm) (Some gsm)
    (Some (q10, q11, s11)) be ce bc cc meta = Ok c ->
  good_breaks breaks -> (1 <= K)%nat -> (3 <= D)%nat -> (3 <= Ds)%nat -> nmax_static <> Some 0%nat ->
  good_breaks (d_breaks q10) -> good_breaks (d_breaks q11) -> good_breaks (d_breaks s11) ->
  e_sm E = Some fs -> rf_dipole fs = e_dipole E -> (1 <= N)%nat -> (List.length sm = N * (N + 2))%nat -> rot_file fs k ki (N * (N + 2)) (N * (N + 2)) ->
  e_gsm E = Some fg -> rf_dipole fg = e_dipole E -> (1 <= N')%nat -> (List.length gsm = N' * (N' + 2))%nat -> rot_file fg k' ki' (N' * (N' + 2)) (N' * (N' + 2)) ->
  bfits (sh rc_e) (sh time) -> bfits (sh rc_i) (sh time) ->
  (forall t, In t (elems theta) -> 0 <= t <= 180) ->
  call E c time radius theta phi (Some rc_e) (Some rc_i) sources nmax_static = Ok B -> valid (o_sh B) i ->
  exists S, call E c (scalar (bread time i)) (scalar (bread radius i)) (scalar (bread theta i)) (scalar (bread phi i))
      (Some (scalar (bread rc_e i))) (Some (scalar (bread rc_i i))) sources nmax_static = Ok S /\ o_sh S = [] /\
    o_r S [] = o_r B i /\ o_t S [] = o_t B i /\ o_p S [] = o_p B i.
Proof.
  intros HI G HK HD HDs Hns G0 G1 G2 Es Ds' HN HL HF Eg Dg HN' HL' HF' B1 B2 Hth HB Hi.
  set (t1 := scalar (bread time i)). set (r1 := scalar (bread radius i)). set (th1 := scalar (bread theta i)). set (p1 := scalar (bread phi i)).
  set (re := scalar (bread rc_e i)). set (ri := scalar (bread rc_i i)).
  replace (call E c time radius theta phi (Some rc_e) (Some rc_i) sources nmax_static)
    with (call E c time radius theta phi (Some rc_e) (Some rc_i) (SrcList (source_names sources)) nmax_static) in HB by (rewrite !call_fold; reflexivity).
  destruct (call_sum _ _ _ _ _ _ _ _ _ _ _ HB) as (Hg & HC & HS).
  assert (FT : List.Forall (fun s => fits s (o_sh B)) [sh time; sh radius; sh theta; sh phi]) by (apply broadcast_fits; exact Hg).
  inversion FT as [|? ? F1 FT1]; subst. inversion FT1 as [|? ? F2 FT2]; subst. inversion FT2 as [|? ? F3 FT3]; subst. inversion FT3 as [|? ? F4 _]; subst.
  assert (Hte : elems time <> []) by (eapply elems_nonempty_valid; apply F1; exact Hi).
  assert (Hth1 : forall t, In t (elems th1) -> 0 <= t <= 180).
  { intros t [<-|[]]. apply Hth. cbn. apply (bread_in theta (o_sh B)); [exact F3|exact Hi]. }
  destruct (call_complete E breaks K D ct Ds cs sm gsm q10 q11 s11 be ce bc cc meta c fs fg k ki k' ki' N N' t1 r1 th1 p1 re ri [] nmax_static sources
    HI G HK HD HDs Hns G0 G1 G2 Es Ds' HN HL HF Eg Dg HN' HL' HF' (bfits_nil _) (bfits_nil _) ltac:(discriminate) ltac:(discriminate) Hth1 eq_refl) as (S & ES & SS).
  exists S. split; [exact ES|]. split; [exact SS|].
  replace (call E c t1 r1 th1 p1 (Some re) (Some ri) sources nmax_static)
    with (call E c t1 r1 th1 p1 (Some re) (Some ri) (SrcList (source_names sources)) nmax_static) in ES by (rewrite !call_fold; reflexivity).
  destruct (call_sum _ _ _ _ _ _ _ _ _ _ _ ES) as (_ & HC1 & HS1).
  set (chosen := filter (fun s => listed s (source_names sources)) all_sources).
  assert (CH : forall s, In s chosen <-> In s all_sources /\ In s (source_names sources)).
  { intros s. unfold chosen. rewrite filter_In, listed_in. tauto. }
  assert (ND : NoDup chosen) by (apply NoDup_filter, all_nodup).
  destruct (HS chosen CH ND i) as (X1 & X2 & X3). destruct (HS1 chosen CH ND []) as (Y1 & Y2 & Y3).
  destruct (init_parts _ _ _ _ _ _ _ _ _ _ _ _ _ HI) as (P1 & P2 & _ & P3 & P4 & P5 & _).
  destruct (P2 _ eq_refl) as (b & P6 & NE). cbn [option_map] in P1.
  (* the contribution of each source *)
  assert (MAIN : forall s, In s chosen -> exists F F1, contribution E c time radius theta phi (Some rc_e) (Some rc_i) nmax_static s = Ok F /\
      contribution E c t1 r1 th1 p1 (Some re) (Some ri) nmax_static s = Ok F1 /\ o_sh F1 = [] /\
      o_r F1 [] = o_r F (bidx (o_sh F) i) /\ o_t F1 [] = o_t F (bidx (o_sh F) i) /\ o_p F1 [] = o_p F (bidx (o_sh F) i)).
  { intros s Hs. apply CH in Hs. destruct Hs as [Ha Hl]. destruct (HC s Ha Hl) as (F & EF & BF). destruct (HC1 s Ha Hl) as (F1' & EF1 & BF1).
    exists F, F1'. split; [exact EF|]. split; [exact EF1|].
    destruct Ha as [<-|[<-|[<-|[<-|[]]]]]; unfold contribution in EF, EF1; cbn [String.eqb Ascii.eqb Bool.eqb] in EF, EF1.
    - unfold synth_values_tdep in EF, EF1. rewrite P1 in EF, EF1. change "internal"%string with (src_name Internal) in EF, EF1.
      assert (SF : o_sh F = o_sh B).
      { pose proof EF as Z. apply model_shape in Z; [|assumption..]. rewrite (bc_last _ _ _ _ _ Hg) in Z. congruence. }
      rewrite SF, (bidx_same _ _ Hi).
      refine (model_same _ _ _ _ _ _ _ G HK _ _ _ _ _ _ _ _ _ EF EF1 Hth _). rewrite SF. exact Hi.
    - unfold synth_values_static in EF, EF1. rewrite P6 in EF, EF1.
      rewrite (last_break_last _ b NE) in EF, EF1. pose proof (first_lt_last _ G) as HL2. change (nth 0 breaks 0) with (first_break breaks) in EF, EF1.
      set (x2 := [first_break breaks; last_break breaks]) in *.
      assert (EM : model_init (Some x2) (Some 1%Z) (Some (mkc3 1 1 Ds cs)) (Some "internal"%string)
                 = model_init (Some x2) None (Some (mkc3 1 (List.length x2 - 1) Ds cs)) (Some (src_name Internal))) by reflexivity.
      rewrite EM in EF, EF1.
      set (st := scalar _) in EF, EF1.
      pose proof EF as Z. apply model_shape in Z; [|first [exact (le_n 1) | exact (two_breaks _ _ HL2)]..].
      pose proof (broadcast_bfits _ _ Z) as ZF. inversion ZF as [|? ? Z1 ZF1]; subst. inversion ZF1 as [|? ? Z2 ZF2]; subst. inversion ZF2 as [|? ? Z3 _]; subst.
      set (j := bidx (o_sh F) i).
      assert (Vj : valid (o_sh F) j) by (apply (bfits_fits _ _ BF); exact Hi).
      assert (R1 : r1 = scalar (bread radius j)) by (unfold r1, bread, j; rewrite bidx_trans by exact Z1; reflexivity).
      assert (R2 : th1 = scalar (bread theta j)) by (unfold th1, bread, j; rewrite bidx_trans by exact Z2; reflexivity).
      assert (R3 : p1 = scalar (bread phi j)) by (unfold p1, bread, j; rewrite bidx_trans by exact Z3; reflexivity).
      rewrite R1, R2, R3 in EF1.
      assert (R4 : st = scalar (bread st j)) by reflexivity. rewrite R4 in EF1.
      exact (model_same _ _ _ _ _ _ _ (two_breaks _ _ HL2) (le_n 1) _ _ _ _ _ _ _ _ j EF EF1 Hth Vj).
    - destruct (synth_values_gsm E c time radius theta phi None (Some "all"%string) None) as [H|] eqn:EH; [|discriminate].
      destruct (synth_values_gsm E c t1 r1 th1 p1 None (Some "all"%string) None) as [H1|] eqn:EH1; [|discriminate].
      cbn [bind] in EF, EF1. apply Ok_inj in EF, EF1. subst F F1'. cbn [lift_field o_sh o_r o_t o_p].
      destruct (gsm_same E c time radius theta phi (o_sh B) Hg Hte Hth i Hi fg gsm k' ki' N' None H H1) as (A1 & A2 & A3 & A4 & A5); try assumption.
      { rewrite P6. discriminate. }
      rewrite A1, (bidx_same _ _ Hi), A3, A4, A5. auto.
    - destruct (synth_values_sm E c time radius theta phi (Some rc_e) (Some rc_i) None (Some "all"%string) None) as [H|] eqn:EH; [|discriminate].
      destruct (synth_values_sm E c t1 r1 th1 p1 (Some re) (Some ri) None (Some "all"%string) None) as [H1|] eqn:EH1; [|discriminate].
      cbn [bind] in EF, EF1. apply Ok_inj in EF, EF1. subst F F1'. cbn [lift_field o_sh o_r o_t o_p].
      destruct (sm_same E c time radius theta phi (o_sh B) Hg Hte Hth i Hi fs sm (q10, q11, s11) k ki N None rc_e rc_i H H1) as (A1 & A2 & A3 & A4 & A5); try assumption.
      { intros j Hj. destruct j as [|[|[|]]]; [apply good_nonempty; assumption..|lia]. }
      rewrite A1, (bidx_same _ _ Hi), A3, A4, A5. auto. }
  rewrite X1, X2, X3, Y1, Y2, Y3.
  assert (PART : forall s, In s chosen ->
     part E c t1 r1 th1 p1 (Some re) (Some ri) nmax_static s o_r [] = part E c time radius theta phi (Some rc_e) (Some rc_i) nmax_static s o_r i /\
     part E c t1 r1 th1 p1 (Some re) (Some ri) nmax_static s o_t [] = part E c time radius theta phi (Some rc_e) (Some rc_i) nmax_static s o_t i /\
     part E c t1 r1 th1 p1 (Some re) (Some ri) nmax_static s o_p [] = part E c time radius theta phi (Some rc_e) (Some rc_i) nmax_static s o_p i).
  { intros s Hs. destruct (MAIN s Hs) as (F & F1' & EF & EF1 & S1 & M1 & M2 & M3). unfold part. rewrite EF, EF1, S1, bidx_nil. auto. }
  split; [|split]; f_equal; apply map_ext_in; intros s Hs; destruct (PART s Hs) as (Q1 & Q2 & Q3); assumption.
Qed.

(** ** RC-index given or from the file *)
Definition given (E : env) (s : string) (time : nd R) (rc : option (nd R)) (r : nd R) : Prop :=
  match rc with Some r' => r = r' | None => rc_values E s time = Ok r end.

Lemma rc_values_point E s time rc j : rc_values E s time = Ok rc -> valid (sh time) j ->
  sh rc = sh time /\ rc_values E s (scalar (at_ time j)) = Ok (scalar (at_ rc j)).
Proof.
  unfold rc_values. destruct (load (e_rc E)) as [tab|]; [|discriminate]. cbn [bind]. destruct (rc_column s) as [col|]; [|discriminate]. cbn [bind].
  destruct (sort_rows _) as [|p l]; [discriminate|]. destruct (existsb _ (elems time)) eqn:EX; [discriminate|].
  intros H V. apply Ok_inj in H. subst rc. split; [reflexivity|].
  assert (OB : out_of_bounds (p :: l) (at_ time j) = false).
  { destruct (out_of_bounds (p :: l) (at_ time j)) eqn:OB; [|reflexivity]. exfalso.
    assert (X : existsb (out_of_bounds (p :: l)) (elems time) = true).
    { apply existsb_exists. exists (at_ time j). split; [|exact OB]. unfold elems. apply in_map. apply indices_valid. exact V. }
    congruence. }
  replace (existsb (out_of_bounds (p :: l)) (elems (scalar (at_ time j)))) with false; [reflexivity|].
  change (elems (scalar (at_ time j))) with [at_ time j]. cbn [existsb]. rewrite OB. reflexivity.
Qed.

Lemma given_coeffs E c time nmax s rc r : given E s time rc r ->
  synth_coeffs_sm E c time nmax (Some s) rc = synth_coeffs_sm E c time nmax (Some s) (Some r).
Proof. destruct rc as [r'|]; cbn [given]; [intros ->; reflexivity|]. intros H. unfold synth_coeffs_sm. rewrite H. reflexivity. Qed.

Lemma coeffs_given E c time nmax s rc K : synth_coeffs_sm E c time nmax (Some s) rc = Ok K -> exists r, given E s time rc r.
Proof.
  destruct rc as [r|]; [intros _; exists r; reflexivity|]. unfold synth_coeffs_sm, given.
  destruct (ch_sm c); [|discriminate]. destruct (ch_delta c); [|discriminate]. destruct (existsb _ _); [discriminate|].
  destruct (amin _); [|discriminate]. cbn [bind]. destruct (load (e_sm E)); [|discriminate]. cbn [bind]. destruct (negb _); [discriminate|].
  destruct (rc_values E s time) as [r|]; [|discriminate]. intros _. exists r. reflexivity.
Qed.

Lemma given_values E c time radius theta phi nmax rce rci re ri : given E "external" time rce re -> given E "internal" time rci ri ->
  synth_values_sm E c time radius theta phi rce rci nmax (Some "all"%string) None =
  synth_values_sm E c time radius theta phi (Some re) (Some ri) nmax (Some "all"%string) None.
Proof. intros H1 H2. unfold synth_values_sm. rewrite String.eqb_refl, (given_coeffs _ _ _ _ _ _ _ H1), (given_coeffs _ _ _ _ _ _ _ H2). reflexivity. Qed.

Lemma given_call E c time radius theta phi rce rci re ri sources nmax_static :
  given E "external" time rce re -> given E "internal" time rci ri ->
  call E c time radius theta phi rce rci sources nmax_static = call E c time radius theta phi (Some re) (Some ri) sources nmax_static.
Proof. intros H1 H2. unfold call. rewrite (given_values _ _ _ _ _ _ _ _ _ _ _ H1 H2). reflexivity. Qed.

Lemma call_without_sm E c time radius theta phi rce rci rce' rci' sources nmax_static :
  listed "sm" (source_names sources) = false ->
  call E c time radius theta phi rce rci sources nmax_static = call E c time radius theta phi rce' rci' sources nmax_static.
Proof. intros H. unfold call, add_source. rewrite H. reflexivity. Qed.

Lemma given_point E s time rc r g i : given E s time rc r -> fits (sh time) g -> valid g i -> 
  (forall r', rc = Some r' -> bfits (sh r') (sh time)) ->
  bfits (sh r) (sh time) /\ given E s (scalar (bread time i)) (option_map (fun r' => scalar (bread r' i)) rc) (scalar (bread r i)).
Proof.
  intros H F V B. destruct rc as [r'|]; cbn [given option_map] in *; [subst r; auto|].
  destruct (rc_values_point E s time r (bidx (sh time) i) H (F i V)) as (S & P). split; [rewrite S; apply bfits_refl|].
  unfold bread. rewrite S. exact P.
Qed.

Lemma call_pointwise_rc E breaks K D ct Ds cs sm gsm q10 q11 s11 be ce bc cc meta c fs fg k ki k' ki' N N' time radius theta phi rc_e rc_i nmax_static sources B i :
  chaos_init breaks None (Some (mkc3 K (List.length breaks - 1) D ct)) (Some (mkc3 1 1 Ds cs)) (Some sm) (Some gsm)
    (Some (q10, q11, s11)) be ce bc cc meta = Ok c ->
  good_breaks breaks -> (1 <= K)%nat -> (3 <= D)%nat -> (3 <= Ds)%nat -> nmax_static <> Some 0%nat ->
  good_breaks (d_breaks q10) -> good_breaks (d_breaks q11) -> good_breaks (d_breaks s11) ->
  e_sm E = Some fs -> rf_dipole fs = e_dipole E -> (1 <= N)%nat -> (List.length sm = N * (N + 2))%nat -> rot_file fs k ki (N * (N + 2)) (N * (N + 2)) ->
  e_gsm E = Some fg -> rf_dipole fg = e_dipole E -> (1 <= N')%nat -> (List.length gsm = N' * (N' + 2))%nat -> rot_file fg k' ki' (N' * (N' + 2)) (N' * (N' + 2)) ->
  (forall r, rc_e = Some r -> bfits (sh r) (sh time)) -> (forall r, rc_i = Some r -> bfits (sh r) (sh time)) ->
  (forall t, In t (elems theta) -> 0 <= t <= 180) ->
  call E c time radius theta phi rc_e rc_i sources nmax_static = Ok B -> valid (o_sh B) i ->
  exists S, call E c (scalar (bread time i)) (scalar (bread radius i)) (scalar (bread theta i)) (scalar (bread phi i))
      (option_map (fun r => scalar (bread r i)) rc_e) (option_map (fun r => scalar (bread r i)) rc_i) sources nmax_static = Ok S /\ o_sh S = [] /\
    o_r S [] = o_r B i /\ o_t S [] = o_t B i /\ o_p S [] = o_p B i.
Proof.
  intros HI G HK HD HDs Hns G0 G1 G2 Es Ds' HN HL HF Eg Dg HN' HL' HF' B1 B2 Hth HB Hi.
  pose proof HB as HB0.
  replace (call E c time radius theta phi rc_e rc_i sources nmax_static)
    with (call E c time radius theta phi rc_e rc_i (SrcList (source_names sources)) nmax_static) in HB0 by (rewrite !call_fold; reflexivity).
  destruct (call_sum _ _ _ _ _ _ _ _ _ _ _ HB0) as (Hg & HC & _).
  assert (FT : fits (sh time) (o_sh B)) by (pose proof (broadcast_fits _ _ Hg) as X; inversion X; assumption).
  destruct (listed "sm" (source_names sources)) eqn:LS.
  - destruct (HC "sm"%string) as (F & EF & _); [unfold all_sources; cbn; tauto|apply listed_in; exact LS|].
    unfold contribution in EF. cbn [String.eqb Ascii.eqb Bool.eqb] in EF.
    destruct (synth_values_sm E c time radius theta phi rc_e rc_i None (Some "all"%string) None) as [H|] eqn:EH; [|discriminate].
    unfold synth_values_sm in EH. rewrite String.eqb_refl in EH.
    destruct (synth_coeffs_sm E c time None (Some "external"%string) rc_e) as [K1|] eqn:EK1; [|discriminate]. cbn [bind] in EH.
    destruct (synth_coeffs_sm E c time None (Some "internal"%string) rc_i) as [K2|] eqn:EK2; [|discriminate].
    destruct (coeffs_given _ _ _ _ _ _ _ EK1) as (re & Ge). destruct (coeffs_given _ _ _ _ _ _ _ EK2) as (ri & Gi).
    destruct (given_point _ _ _ _ _ _ i Ge FT Hi B1) as (Be & Ge1). destruct (given_point _ _ _ _ _ _ i Gi FT Hi B2) as (Bi & Gi1).
    rewrite (given_call _ _ _ _ _ _ _ _ _ _ _ _ Ge1 Gi1). rewrite (given_call _ _ _ _ _ _ _ _ _ _ _ _ Ge Gi) in HB.
    eapply (call_pointwise E breaks K D ct Ds cs sm gsm q10 q11 s11 be ce bc cc meta c fs fg k ki k' ki' N N' time radius theta phi re ri); assumption.
  - rewrite (call_without_sm _ _ _ _ _ _ _ _ (Some (scalar (bread (scalar 0) i))) (Some (scalar (bread (scalar 0) i))) _ _ LS).
    rewrite (call_without_sm _ _ _ _ _ _ _ _ (Some (scalar 0)) (Some (scalar 0)) _ _ LS) in HB.
    eapply (call_pointwise E breaks K D ct Ds cs sm gsm q10 q11 s11 be ce bc cc meta c fs fg k ki k' ki' N N' time radius theta phi (scalar 0) (scalar 0)); try assumption; exact (bfits_nil (sh time)).
Qed.

(** ** Shape of a call *)
Lemma call_shape E c time radius theta phi rce rci sources nmax_static B :
  call E c time radius theta phi rce rci sources nmax_static = Ok B -> broadcast [sh time; sh radius; sh theta; sh phi] = Ok (o_sh B).
Proof.
  intros HB. replace (call E c time radius theta phi rce rci sources nmax_static)
    with (call E c time radius theta phi rce rci (SrcList (source_names sources)) nmax_static) in HB by (rewrite !call_fold; reflexivity).
  apply (call_sum _ _ _ _ _ _ _ _ _ _ _ HB).
Qed.
