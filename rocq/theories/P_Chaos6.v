(** A complete model can be evaluated: every source of a well-formed model
    succeeds on inputs that broadcast. *)
From Coq Require Import Reals List Arith ZArith String Ascii Bool Permutation Lia Lra.
From Coquelicot Require Import Complex.
From Verif Require Import M_Prelude M_ND Spec_Field Spec_PP Spec_Rotate Spec_Chaos M_Synth M_SynthArr M_PP M_Spectrum M_Model M_Rotate M_Chaos Spec_ChaosApi
  P_ND P_Bcast P_SHCModel P_PP P_PP2 P_Synth P_Layout P_SynthArr P_SynthProps P_SynthProps2 P_Model P_Chaos P_Chaos2 P_Chaos3 P_Chaos4 P_Chaos5.
Import ListNotations.
Open Scope R_scope.

Lemma infer_square N : infer_nmax (Z.of_nat (N * (N + 2))) 1 None None = (Z.of_nat N, Z.of_nat N).
Proof.
  unfold infer_nmax. replace (Z.of_nat (N * (N + 2)) + 1 ^ 2)%Z with (Z.of_nat (N + 1) * Z.of_nat (N + 1))%Z by nia.
  rewrite Z.sqrt_square by lia. f_equal; lia.
Qed.

(** synth_values without any degree argument *)
Lemma sv_default oob a c radius theta phi s N gsh :
  (1 <= N)%nat -> (cdim c = N * (N + 2))%nat -> elems theta <> [] -> (forall t, In t (elems theta) -> 0 <= t <= 180) ->
  broadcast [sh radius; sh theta; sh phi; csh c] = Ok gsh ->
  exists F, synth_values oob a c radius theta phi None None None (Some (src_name s)) false = Ok F /\ f_sh F = gsh.
Proof.
  intros HN HC Hne Ht HB.
  assert (EQ : synth_values oob a c radius theta phi None None None (Some (src_name s)) false =
    synth_values oob a c radius theta phi (Some (Z.of_nat 1)) (Some (Z.of_nat N)) (Some (Z.of_nat N)) (Some (src_name s)) false).
  { unfold synth_values. cbn [orZ]. rewrite HC. change (Z.of_nat 1) with 1%Z. rewrite infer_square. reflexivity. }
  rewrite EQ. apply sv_success; try assumption; [lia|]. rewrite HC. rewrite count_full by lia. lia.
Qed.

Lemma field_add_ok F G : f_sh F = f_sh G -> exists H, field_add F G = Ok H.
Proof. intros E. unfold field_add. rewrite E. rewrite broadcast_fit2 by apply bfits_refl. cbn [bind]. eauto. Qed.

Section Ok.
Variables (E : env) (c : chaos) (time radius theta phi : nd R) (g : list nat).
Hypothesis Hg : broadcast [sh time; sh radius; sh theta; sh phi] = Ok g.
Hypothesis Hte : elems time <> [].
Hypothesis Hne : elems theta <> [].
Hypothesis Hth : forall t, In t (elems theta) -> 0 <= t <= 180.

Lemma bc_last : broadcast [sh radius; sh theta; sh phi; sh time] = Ok g.
Proof. eapply broadcast_same; [|exact Hg]. intros s. cbn. tauto. Qed.

Lemma gsm_values_ok f gsm k ki N nmax :
  ch_gsm c = Some gsm -> ch_static c <> None -> e_gsm E = Some f -> rf_dipole f = e_dipole E -> (1 <= N)%nat -> nmax <> Some 0%nat ->
  (List.length gsm = N * (N + 2))%nat -> rot_file f k ki (N * (N + 2)) (N * (N + 2)) ->
  exists F, synth_values_gsm E c time radius theta phi nmax (Some "all"%string) None = Ok F.
Proof.
  intros H1 H2 H3 H4 HN Hn HL HF.
  assert (HA : (1 <= asked nmax N)%nat) by (unfold asked; destruct nmax as [[|n]|]; [congruence|lia|lia]).
  destruct (gsm_value E c f gsm k ki N time nmax External H1 H2 H3 H4 Hte HL HF) as (K & K1 & K2 & K3 & _).
  destruct (gsm_value E c f gsm k ki N time nmax Internal H1 H2 H3 H4 Hte HL HF) as (J & J1 & J2 & J3 & _).
  cbn [src_name] in K1, J1. unfold synth_values_gsm. rewrite String.eqb_refl, K1, J1. cbn [bind]. unfold synth_of.
  change "external"%string with (src_name External). change "internal"%string with (src_name Internal).
  destruct (sv_default (e_oob E) (e_rsurf E) K radius theta phi External _ g HA K3 Hne Hth) as (F & EF & SF); [rewrite K2; apply bc_last|].
  destruct (sv_default (e_oob E) (e_rsurf E) J radius theta phi Internal _ g HA J3 Hne Hth) as (G & EG & SG); [rewrite J2; apply bc_last|].
  rewrite EF, EG. cbn [bind]. apply field_add_ok. congruence.
Qed.

Lemma sm_values_ok f sm q10 q11 s11 k ki N nmax rc_e rc_i :
  ch_sm c = Some sm -> ch_delta c = Some (q10, q11, s11) ->
  good_breaks (d_breaks q10) -> good_breaks (d_breaks q11) -> good_breaks (d_breaks s11) ->
  e_sm E = Some f -> rf_dipole f = e_dipole E -> (1 <= N)%nat -> nmax <> Some 0%nat ->
  (List.length sm = N * (N + 2))%nat -> rot_file f k ki (N * (N + 2)) (N * (N + 2)) ->
  bfits (sh rc_e) (sh time) -> bfits (sh rc_i) (sh time) ->
  exists F, synth_values_sm E c time radius theta phi (Some rc_e) (Some rc_i) nmax (Some "all"%string) None = Ok F.
Proof.
  intros H1 H2 G0 G1 G2 H3 H4 HN Hn HL HF B1 B2.
  assert (HA : (1 <= asked nmax N)%nat) by (unfold asked; destruct nmax as [[|n]|]; [congruence|lia|lia]).
  destruct (sm_external_full E c f sm q10 q11 s11 k ki N time nmax rc_e H1 H2 G0 G1 G2 H3 H4 Hte HN HL HF B1) as (K & K1 & K2 & K3 & _).
  destruct (sm_internal_full E c f sm q10 q11 s11 k ki N time nmax rc_i H1 H2 G0 G1 G2 H3 H4 Hte HN HL HF B2) as (J & J1 & J2 & J3 & _).
  unfold synth_values_sm. rewrite String.eqb_refl, K1, J1. cbn [bind]. unfold synth_of.
  change "external"%string with (src_name External). change "internal"%string with (src_name Internal).
  destruct (sv_default (e_oob E) (e_rsurf E) K radius theta phi External _ g HA K3 Hne Hth) as (F & EF & SF); [rewrite K2; apply bc_last|].
  destruct (sv_default (e_oob E) (e_rsurf E) J radius theta phi Internal _ g HA J3 Hne Hth) as (G & EG & SG); [rewrite J2; apply bc_last|].
  rewrite EF, EG. cbn [bind]. apply field_add_ok. congruence.
Qed.
End Ok.

Lemma last_break_last x b : x <> [] -> last x b = last_break x.
Proof. intros NE. unfold last_break. rewrite <- (last_is_nth x 0 0 NE). apply last_default, NE. Qed.

Lemma first_lt_last x : good_breaks x -> first_break x < last_break x.
Proof. intros G. unfold first_break, last_break. destruct G as [H G'] eqn:EG. apply Rlt_le_trans with (nth (0 + 1) x 0); [apply G'; lia|]. apply (good_mono x G). lia. Qed.

(** The call on a complete, well-formed model *)
Lemma call_complete E breaks K D ct Ds cs sm gsm q10 q11 s11 be ce bc cc meta c fs fg k ki k' ki' N N' time radius theta phi rc_e rc_i g nmax_static sources :
  chaos_init breaks None (Some (mkc3 K (List.length breaks - 1) D ct)) (Some (mkc3 1 1 Ds cs)) (Some sm) (Some gsm)
    (Some (q10, q11, s11)) be ce bc cc meta = Ok c ->
  good_breaks breaks -> (1 <= K)%nat -> (3 <= D)%nat -> (3 <= Ds)%nat -> nmax_static <> Some 0%nat ->
  good_breaks (d_breaks q10) -> good_breaks (d_breaks q11) -> good_breaks (d_breaks s11) ->
  e_sm E = Some fs -> rf_dipole fs = e_dipole E -> (1 <= N)%nat -> (List.length sm = N * (N + 2))%nat -> rot_file fs k ki (N * (N + 2)) (N * (N + 2)) ->
  e_gsm E = Some fg -> rf_dipole fg = e_dipole E -> (1 <= N')%nat -> (List.length gsm = N' * (N' + 2))%nat -> rot_file fg k' ki' (N' * (N' + 2)) (N' * (N' + 2)) ->
  bfits (sh rc_e) (sh time) -> bfits (sh rc_i) (sh time) ->
  elems time <> [] -> elems theta <> [] -> (forall t, In t (elems theta) -> 0 <= t <= 180) ->
  broadcast [sh time; sh radius; sh theta; sh phi] = Ok g ->
  exists B, call E c time radius theta phi (Some rc_e) (Some rc_i) sources nmax_static = Ok B /\ o_sh B = g.
Proof.
  intros HI G HK HD HDs Hns G0 G1 G2 Es Ds' HN HL HF Eg Dg HN' HL' HF' B1 B2 Hte Hne Hth Hg.
  destruct (init_parts _ _ _ _ _ _ _ _ _ _ _ _ _ HI) as (P1 & P2 & _ & P3 & P4 & P5 & _).
  destruct (P2 _ eq_refl) as (b & P6 & NE). cbn [option_map] in P1.
  assert (S3 : forall f k ki m n, rot_file f k ki m n -> spectra3 f).
  { intros f k0 ki0 m n [X1 X2 X3 X4 _]. exists k0, ki0, m, n. auto. }
  replace (call E c time radius theta phi (Some rc_e) (Some rc_i) sources nmax_static)
    with (call E c time radius theta phi (Some rc_e) (Some rc_i) (SrcList (source_names sources)) nmax_static) by (rewrite !call_fold; reflexivity).
  apply call_succeeds.
  - intros f Hf. rewrite Eg in Hf. injection Hf as <-. eapply S3, HF'.
  - intros f Hf. rewrite Es in Hf. injection Hf as <-. eapply S3, HF.
  - exact Hg.
  - intros s Hs _. destruct Hs as [<-|[<-|[<-|[<-|[]]]]]; unfold contribution; cbn [String.eqb Ascii.eqb Bool.eqb].
    + unfold synth_values_tdep. rewrite P1.
      destruct (model_values_ok (e_oob E) (e_rsurf E) Internal breaks K D ct G HK time radius theta phi None None XNone g) as (F & EF & _);
        try assumption; try discriminate; [apply bc_last; assumption|]. exists F. exact EF.
    + unfold synth_values_static. rewrite P6.
      rewrite (last_break_last _ b NE). pose proof (first_lt_last _ G) as HL2. change (nth 0 breaks 0) with (first_break breaks).
      assert (BS : exists gs, broadcast [sh radius; sh theta; sh phi; sh (scalar (first_break breaks))] = Ok gs).
      { pose proof (broadcast_bfits _ _ Hg) as X. inversion X as [|? ? A1 X1]; subst. assert (Y : forall l, Forall (fun s => bfits s g) l -> exists d, broadcast l = Ok d) by (intros l Y; destruct (broadcast_lub l g Y) as (d & Z & _); eauto). apply Y.
        inversion X1 as [|? ? A2 X2]; subst. inversion X2 as [|? ? A3 X3]; subst. inversion X3 as [|? ? A4 _]; subst.
        apply Forall_cons; [exact A2|]. apply Forall_cons; [exact A3|]. apply Forall_cons; [exact A4|]. apply Forall_cons; [apply bfits_nil|apply Forall_nil]. }
      destruct BS as (gs & BS).
      destruct (model_values_ok (e_oob E) (e_rsurf E) Internal [first_break breaks; last_break breaks] 1 Ds cs (two_breaks _ _ HL2) ltac:(lia)
        (scalar (first_break breaks)) radius theta phi (Some (match nmax_static with Some n => n | None => 85%nat end)) None XNone gs) as (F & EF & _);
        try assumption; try discriminate.
      * destruct nmax_static as [n|]; congruence.
      * exists F. rewrite <- EF. reflexivity.
    + destruct (gsm_values_ok E c time radius theta phi g Hg Hte Hne Hth fg gsm k' ki' N' None) as (F & EF); try assumption; try discriminate.
      { rewrite P6. discriminate. } rewrite EF. cbn [bind]. eauto.
    + destruct (sm_values_ok E c time radius theta phi g Hg Hte Hne Hth fs sm q10 q11 s11 k ki N None rc_e rc_i) as (F & EF); try assumption; try discriminate.
      rewrite EF. cbn [bind]. eauto.
Qed.
