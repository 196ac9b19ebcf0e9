(** The sum over sources. *)
From Coq Require Import Reals List Arith ZArith String Ascii Bool Lia Lra.
From Coquelicot Require Import Complex.
From Verif Require Import M_Prelude M_ND Spec_Field Spec_PP Spec_Rotate Spec_Chaos M_Synth M_SynthArr M_PP M_Spectrum M_Model M_Rotate M_Chaos Spec_ChaosApi
  P_ND P_Bcast P_Rotate P_PP P_SynthArr P_SynthProps P_Model P_Chaos P_Chaos2.
Import ListNotations.
Open Scope R_scope.

(** ** Default RC-index *)
Lemma default_rc E c time nmax s tab : e_rc E = Some tab -> distinct_times (rc_rows s tab) -> elems time <> [] ->
  (forall i, valid (sh time) i -> covered (rc_rows s tab) (at_ time i)) ->
  exists rc, sh rc = sh time /\
    (forall i, valid (sh time) i -> interpolates (rc_rows s tab) (at_ time i) (at_ rc i)) /\
    synth_coeffs_sm E c time nmax (Some (src_name s)) None = synth_coeffs_sm E c time nmax (Some (src_name s)) (Some rc).
Proof.
  intros Et D Hne Hc. destruct (rc_values_ok E s time tab Et D Hne Hc) as (rc & E1 & E2 & E3).
  exists rc. split; [exact E2|]. split; [exact E3|]. unfold synth_coeffs_sm. rewrite E1. reflexivity.
Qed.

Lemma default_rc_uncovered E c time nmax s tab i rc K : e_rc E = Some tab -> valid (sh time) i ->
  ~ covered (rc_rows s tab) (at_ time i) ->
  synth_coeffs_sm E c time nmax (Some (src_name s)) (Some rc) = Ok K ->
  synth_coeffs_sm E c time nmax (Some (src_name s)) None = Err ValueError.
Proof.
  intros Et Hi Hn. unfold synth_coeffs_sm. rewrite (rc_values_uncovered E s time tab i Et Hi Hn).
  destruct (ch_sm c); [|discriminate]. destruct (ch_delta c); [|discriminate]. destruct (existsb _ _); [discriminate|].
  destruct (amin _); [|discriminate]. cbn [bind]. destruct (e_sm E); [|discriminate]. cbn [load bind]. destruct (negb _); [discriminate|]. reflexivity.
Qed.

(** ** Shapes *)
Lemma sv_shape oob a c radius theta phi nmin nmax mmax source F :
  synth_values oob a c radius theta phi nmin nmax mmax source false = Ok F ->
  broadcast [sh radius; sh theta; sh phi; csh c] = Ok (f_sh F).
Proof. intros E. destruct (sv_at _ _ _ _ _ _ _ _ _ _ _ _ E) as (d & D & S & _). apply decode_nogrid in D. rewrite S. apply D. Qed.

Lemma coeffs_sh b time dim deriv e r : synth_coeffs b time dim deriv e = Ok r -> s_sh r = sh time.
Proof.
  destruct (b_dim b) as [D|] eqn:HD.
  - intros H. apply (coeffs_shape _ _ _ _ _ _ D HD H).
  - unfold synth_coeffs. rewrite HD. destruct (b_coeffs b); [|discriminate]. destruct (b_breaks b); discriminate.
Qed.

Lemma model_values_shape oob a m time radius theta phi nmax deriv e F :
  model_values oob a m time radius theta phi nmax deriv None e = Ok F ->
  broadcast [sh radius; sh theta; sh phi; sh time] = Ok (o_sh F).
Proof.
  unfold model_values. destruct (m_nmax m) as [N|]; [|destruct nmax; discriminate].
  destruct (model_coeffs _ _ _ _ _) as [r|] eqn:E; [|discriminate]. cbn [bind]. unfold nan_synth.
  match goal with |- context [synth_values ?o ?a ?c ?r ?t ?p ?n ?m ?k ?s ?g] => destruct (synth_values o a c r t p n m k s g) as [F0|] eqn:EF; [|discriminate] end.
  cbn [bind]. intros H; injection H as <-. cbn [o_sh]. apply sv_shape in EF. cbn [csh] in EF. unfold model_coeffs in E. rewrite (coeffs_sh _ _ _ _ _ _ E) in EF. exact EF.
Qed.

Lemma matvec_shape M vsh n v k ts m n' : sh M = ts ++ [m; n'] -> vsh = [] \/ vsh = ts -> matvec M vsh n v = Ok k -> csh k = ts.
Proof.
  intros E Hv. destruct (Nat.eq_dec n' n) as [->|Nn].
  - destruct (matvec_value M ts m n vsh v E Hv) as (k' & -> & Hk & _). congruence.
  - unfold matvec. rewrite E. replace (List.length (ts ++ [m; n']) - 2)%nat with (List.length ts) by (rewrite app_length; cbn; lia).
    rewrite app_nth2 by lia. replace (S (List.length ts) - List.length ts)%nat with 1%nat by lia. cbn [nth].
    rewrite (proj2 (Nat.eqb_neq n' n) Nn). discriminate.
Qed.

(** Both spectra of the file have three axes. *)
Definition spectra3 (f : rotfile) : Prop := exists k ki m n, sh (rf_freq f) = [k; m; n] /\ sh (rf_spec f) = [k; m; n] /\
  sh (rf_freq_ind f) = [ki; m; n] /\ sh (rf_spec_ind f) = [ki; m; n].

Lemma gsm_shape E c f time nmax s K : e_gsm E = Some f -> spectra3 f ->
  synth_coeffs_gsm E c time nmax s = Ok K -> csh K = sh time.
Proof.
  intros He (k & ki & m & n & F1 & F2 & F3 & F4). unfold synth_coeffs_gsm. destruct (ch_gsm c) as [gsm|]; [|discriminate].
  destruct (ch_static c); [|discriminate]. destruct (amin _); [|discriminate]. cbn [bind]. rewrite He. cbn [load bind].
  destruct (negb _); [discriminate|].
  destruct (synth_rotate_value time _ _ (rf_scaled f) k m n F1 F2) as (M1 & R1 & S1 & _).
  destruct (synth_rotate_value time _ _ (rf_scaled f) ki m n F3 F4) as (M2 & R2 & S2 & _). rewrite R1, R2. cbn [bind].
  destruct (_ =? _)%string.
  - destruct (matvec M1 _ _ _) as [K1|] eqn:EM; [|discriminate]. cbn [bind]. intros H; injection H as <-. cbn [take_coeffs csh].
    apply (matvec_shape _ _ _ _ _ _ _ _ S1 (or_introl eq_refl) EM).
  - destruct (_ =? _)%string; [|discriminate].
    destruct (matvec M2 _ _ _) as [K1|] eqn:EM; [|discriminate]. cbn [bind]. intros H; injection H as <-. cbn [take_coeffs csh].
    apply (matvec_shape _ _ _ _ _ _ _ _ S2 (or_introl eq_refl) EM).
Qed.

Lemma sm_shape E c f time nmax s rc K : e_sm E = Some f -> spectra3 f ->
  synth_coeffs_sm E c time nmax s rc = Ok K -> csh K = sh time.
Proof.
  intros He (k & ki & m & n & F1 & F2 & F3 & F4). unfold synth_coeffs_sm. destruct (ch_sm c) as [sm|]; [|discriminate].
  destruct (ch_delta c) as [ds|]; [|discriminate]. destruct (existsb _ _); [discriminate|]. destruct (amin _); [|discriminate]. cbn [bind].
  rewrite He. cbn [load bind]. destruct (negb _); [discriminate|].
  match goal with |- bind ?u _ = _ -> _ => destruct u as [rcv|]; [|discriminate] end. cbn [bind].
  destruct (synth_rotate_value time _ _ (rf_scaled f) k m n F1 F2) as (M1 & R1 & S1 & _). rewrite R1. cbn [bind].
  destruct (sm_coeffs _ _ _ _ _ _ _) as [K0|] eqn:EK; [|discriminate]. cbn [bind]. intros H; injection H as <-. cbn [take_coeffs csh].
  unfold sm_coeffs in EK. destruct (_ =? _)%string.
  - destruct (_ <? _)%nat; [discriminate|]. destruct (broadcast _); [|discriminate]. cbn [bind] in EK. destruct (assign _ _); [|discriminate]. cbn [bind] in EK.
    destruct (negb _); [discriminate|]. apply (matvec_shape _ _ _ _ _ _ _ _ S1 (or_intror eq_refl) EK).
  - destruct (_ =? _)%string; [|discriminate].
    destruct (synth_rotate_value time _ _ (rf_scaled f) ki m n F3 F4) as (M2 & R2 & S2 & _). rewrite R2 in EK. cbn [bind] in EK.
    destruct (_ <? _)%nat; [discriminate|]. destruct (assign _ _); [|discriminate]. cbn [bind] in EK. destruct (negb _); [discriminate|].
    destruct (matvec M2 _ _ _) as [K1|] eqn:EM; [|discriminate]. cbn [bind] in EK.
    destruct (matvec (corner M1) _ _ _) as [K2|] eqn:EM'; [|discriminate]. cbn [bind] in EK.
    match type of EK with bind ?u _ = _ => destruct u; [|discriminate] end. cbn [bind] in EK. destruct (_ =? _)%nat; [|discriminate].
    injection EK as <-. cbn [csh]. apply (matvec_shape _ _ _ _ _ _ _ _ S2 (or_intror eq_refl) EM).
Qed.

Lemma field_add_same F G H : f_sh F = f_sh G -> field_add F G = Ok H ->
  f_sh H = f_sh F /\ forall x, valid (f_sh F) x -> f_r H x = f_r F x + f_r G x /\ f_t H x = f_t F x + f_t G x /\ f_p H x = f_p F x + f_p G x.
Proof.
  intros E. unfold field_add. rewrite <- E, broadcast_pair. cbn [bind]. intros X; injection X as <-. cbn [f_sh f_r f_t f_p].
  split; [reflexivity|]. intros x V. rewrite !(bidx_same _ _ V). auto.
Qed.
Lemma field_add_ok F G : f_sh F = f_sh G -> exists H, field_add F G = Ok H.
Proof. intros E. unfold field_add. rewrite <- E, broadcast_pair. cbn [bind]. eauto. Qed.

Lemma gsm_all E c f time radius theta phi nmax H : e_gsm E = Some f -> spectra3 f ->
  synth_values_gsm E c time radius theta phi nmax (Some "all"%string) None = Ok H ->
  exists F G, synth_values_gsm E c time radius theta phi nmax (Some "external"%string) None = Ok F /\
    synth_values_gsm E c time radius theta phi nmax (Some "internal"%string) None = Ok G /\
    f_sh F = f_sh H /\ f_sh G = f_sh H /\ broadcast [sh radius; sh theta; sh phi; sh time] = Ok (f_sh H) /\
    forall x, valid (f_sh H) x -> f_r H x = f_r F x + f_r G x /\ f_t H x = f_t F x + f_t G x /\ f_p H x = f_p F x + f_p G x.
Proof.
  intros He H3. unfold synth_values_gsm.
  change ("all" =? "all")%string with true. change ("external" =? "all")%string with false. change ("internal" =? "all")%string with false.
  change (("external" =? "external")%string || ("external" =? "internal")%string)%bool with true.
  change (("internal" =? "external")%string || ("internal" =? "internal")%string)%bool with true. cbv iota.
  destruct (synth_coeffs_gsm E c time nmax (Some "external"%string)) as [K|] eqn:EK; [|discriminate].
  destruct (synth_coeffs_gsm E c time nmax (Some "internal"%string)) as [L|] eqn:EL; [|discriminate]. cbn [bind].
  apply (gsm_shape _ _ _ _ _ _ _ He H3) in EK, EL.
  destruct (synth_of E K radius theta phi "external" false) as [F|] eqn:EF; [|discriminate]. cbn [bind].
  destruct (synth_of E L radius theta phi "internal" false) as [G|] eqn:EG; [|discriminate]. cbn [bind]. intros EH.
  apply sv_shape in EF, EG. rewrite EK in EF. rewrite EL in EG. rewrite EF in EG. injection EG as EG.
  destruct (field_add_same _ _ _ EG EH) as [S V]. exists F, G. split; [reflexivity|]. split; [reflexivity|].
  split; [congruence|]. split; [congruence|]. split; [rewrite S; exact EF|]. rewrite S. exact V.
Qed.

Lemma sm_all E c f time radius theta phi rc_e rc_i nmax H : e_sm E = Some f -> spectra3 f ->
  synth_values_sm E c time radius theta phi rc_e rc_i nmax (Some "all"%string) None = Ok H ->
  exists F G, (forall other, synth_values_sm E c time radius theta phi rc_e other nmax (Some "external"%string) None = Ok F) /\
    (forall other, synth_values_sm E c time radius theta phi other rc_i nmax (Some "internal"%string) None = Ok G) /\
    f_sh F = f_sh H /\ f_sh G = f_sh H /\ broadcast [sh radius; sh theta; sh phi; sh time] = Ok (f_sh H) /\
    forall x, valid (f_sh H) x -> f_r H x = f_r F x + f_r G x /\ f_t H x = f_t F x + f_t G x /\ f_p H x = f_p F x + f_p G x.
Proof.
  intros He H3. unfold synth_values_sm.
  change ("all" =? "all")%string with true. change ("external" =? "all")%string with false. change ("internal" =? "all")%string with false.
  change (("external" =? "external")%string || ("external" =? "internal")%string)%bool with true.
  change (("internal" =? "external")%string || ("internal" =? "internal")%string)%bool with true.
  change ("external" =? "external")%string with true. change ("internal" =? "external")%string with false. cbv iota.
  destruct (synth_coeffs_sm E c time nmax (Some "external"%string) rc_e) as [K|] eqn:EK; [|discriminate].
  destruct (synth_coeffs_sm E c time nmax (Some "internal"%string) rc_i) as [L|] eqn:EL; [|discriminate]. cbn [bind].
  apply (sm_shape _ _ _ _ _ _ _ _ He H3) in EK, EL.
  destruct (synth_of E K radius theta phi "external" false) as [F|] eqn:EF; [|discriminate]. cbn [bind].
  destruct (synth_of E L radius theta phi "internal" false) as [G|] eqn:EG; [|discriminate]. cbn [bind]. intros EH.
  apply sv_shape in EF, EG. rewrite EK in EF. rewrite EL in EG. rewrite EF in EG. injection EG as EG.
  destruct (field_add_same _ _ _ EG EH) as [S V]. exists F, G. split; [reflexivity|]. split; [reflexivity|].
  split; [congruence|]. split; [congruence|]. split; [rewrite S; exact EF|]. rewrite S. exact V.
Qed.

(** ** The call *)
Section Call.
Variables (E : env) (c : chaos) (time radius theta phi : nd R) (rc_e rc_i : option (nd R)) (nmax_static : option nat).

Local Notation contribution := (Spec_ChaosApi.contribution E c time radius theta phi rc_e rc_i nmax_static).
Local Notation part := (Spec_ChaosApi.part E c time radius theta phi rc_e rc_i nmax_static).

Definition add_all (l names : list string) (B : ofield) : result ofield :=
  fold_left (fun B name => add_source l name (contribution name) B) names (Ok B).

Lemma call_fold S : call E c time radius theta phi rc_e rc_i S nmax_static =
  bind (broadcast [sh time; sh radius; sh theta; sh phi]) (fun g =>
  add_all (source_names S) all_sources (mkofield g (fun _ => Some 0) (fun _ => Some 0) (fun _ => Some 0))).
Proof. reflexivity. Qed.

Lemma fold_err l names e : fold_left (fun B name => add_source l name (contribution name) B) names (Err e) = Err e.
Proof. induction names as [|n names IH]; [reflexivity|]. cbn. exact IH. Qed.

Lemma oadd_assoc u v w : oadd (oadd u v) w = oadd u (oadd v w).
Proof. destruct u, v, w; cbn; try reflexivity. f_equal. ring. Qed.
Lemma oadd_0 u : oadd u (Some 0) = u.
Proof. destruct u; cbn; [f_equal; ring|reflexivity]. Qed.
Lemma nan_sum_cons u l : nan_sum (u :: l) = oadd u (nan_sum l). Proof. reflexivity. Qed.

Lemma iadd_ok B F : bfits (o_sh F) (o_sh B) -> exists B', iadd B F = Ok B'.
Proof. intros H. unfold iadd. rewrite (bshape_fit _ _ H), shape_eqb_refl. eauto. Qed.
Lemma iadd_inv B F B' : iadd B F = Ok B' -> o_sh B' = o_sh B /\ bfits (o_sh F) (o_sh B) /\
  (forall x, o_r B' x = oadd (o_r B x) (o_r F (bidx (o_sh F) x))) /\
  (forall x, o_t B' x = oadd (o_t B x) (o_t F (bidx (o_sh F) x))) /\
  (forall x, o_p B' x = oadd (o_p B x) (o_p F (bidx (o_sh F) x))).
Proof.
  unfold iadd. destruct (bshape _ _) as [u|] eqn:U; [|discriminate]. destruct (shape_eqb u _) eqn:S; [|discriminate].
  apply shape_eqb_eq in S. subst u. intros H; injection H as <-. cbn. split; [reflexivity|]. split; [apply bfits_bshape, U|]. auto.
Qed.

Lemma add_all_inv l names : forall B0 B, add_all l names B0 = Ok B ->
  o_sh B = o_sh B0 /\
  (forall s, In s names -> listed s l = true -> exists F, contribution s = Ok F /\ bfits (o_sh F) (o_sh B0)) /\
  (forall x, o_r B x = oadd (o_r B0 x) (nan_sum (map (fun s => part s o_r x) (filter (fun s => listed s l) names)))) /\
  (forall x, o_t B x = oadd (o_t B0 x) (nan_sum (map (fun s => part s o_t x) (filter (fun s => listed s l) names)))) /\
  (forall x, o_p B x = oadd (o_p B0 x) (nan_sum (map (fun s => part s o_p x) (filter (fun s => listed s l) names)))).
Proof.
  induction names as [|n names IH]; intros B0 B H.
  - cbn in H. injection H as <-. cbn [filter map nan_sum fold_right]. split; [reflexivity|]. split; [contradiction|]. split; [|split]; intros x; symmetry; apply oadd_0.
  - unfold add_all in H. cbn [fold_left] in H. unfold add_source at 2 in H. cbn [bind] in H. cbn [filter].
    destruct (listed n l) eqn:Ln.
    + destruct (contribution n) as [F|e] eqn:EF; cbn [bind] in H; [|rewrite fold_err in H; discriminate].
      destruct (iadd B0 F) as [B1|e] eqn:EI; [|rewrite fold_err in H; discriminate].
      destruct (iadd_inv _ _ _ EI) as (S & Ft & Vr & Vt & Vp). destruct (IH B1 B H) as (S1 & A & R1 & R2 & R3).
      split; [congruence|]. split.
      * intros s [<-|Hs] Hl; [exists F; auto|]. destruct (A s Hs Hl) as (G & G1 & G2). exists G. rewrite S in G2. auto.
      * cbn [map]. split; [|split]; intros x; rewrite nan_sum_cons, <- oadd_assoc;
          [rewrite R1, Vr|rewrite R2, Vt|rewrite R3, Vp]; f_equal; unfold Spec_ChaosApi.part; rewrite EF; reflexivity.
    + destruct (IH B0 B H) as (S1 & A & R). split; [exact S1|]. split; [|exact R].
      intros s [<-|Hs] Hl; [congruence|]. apply A; assumption.
Qed.

Lemma add_all_ok l names : forall B0, 
  (forall s, In s names -> listed s l = true -> exists F, contribution s = Ok F /\ bfits (o_sh F) (o_sh B0)) ->
  exists B, add_all l names B0 = Ok B.
Proof.
  induction names as [|n names IH]; intros B0 H; [eexists; reflexivity|].
  unfold add_all. cbn [fold_left]. unfold add_source at 2. cbn [bind]. destruct (listed n l) eqn:Ln.
  - destruct (H n (or_introl eq_refl) Ln) as (F & EF & Ft). rewrite EF. cbn [bind]. destruct (iadd_ok B0 F Ft) as (B1 & E1). rewrite E1.
    apply IH. intros s Hs Hl. destruct (iadd_inv _ _ _ E1) as (S & _). rewrite S. apply H; [right; exact Hs|exact Hl].
  - apply IH. intros s Hs Hl. apply H; [right; exact Hs|exact Hl].
Qed.

(** An exception of a listed source is passed on. *)
Lemma add_all_err l names : forall B0, (exists s, In s names /\ listed s l = true /\ is_err (contribution s)) -> is_err (add_all l names B0).
Proof.
  intros B0 (s & Hs & Hl & (e & He)). destruct (add_all l names B0) as [B|e'] eqn:EB; [|exists e'; reflexivity].
  apply add_all_inv in EB. destruct EB as (_ & A & _). destruct (A s Hs Hl) as (F & EF & _). congruence.
Qed.

Lemma listed_in s l : listed s l = true <-> In s l.
Proof.
  unfold listed. rewrite existsb_exists. split.
  - intros (x & Hx & Ex). apply String.eqb_eq in Ex. subst. exact Hx.
  - intros H. exists s. split; [exact H|apply String.eqb_refl].
Qed.

Lemma static_fits F g : broadcast [sh time; sh radius; sh theta; sh phi] = Ok g ->
  contribution "static" = Ok F -> bfits (o_sh F) g.
Proof.
  intros Eg. unfold Spec_ChaosApi.contribution. change ("static" =? "tdep")%string with false. change ("static" =? "static")%string with true. cbv iota.
  unfold synth_values_static. destruct (ch_static c); [|discriminate]. intros H. apply model_values_shape in H.
  apply (broadcast_least _ _ _ H). apply broadcast_bfits in Eg.
  inversion Eg as [|? ? A1 Eg1]; subst. inversion Eg1 as [|? ? A2 Eg2]; subst. inversion Eg2 as [|? ? A3 Eg3]; subst. inversion Eg3 as [|? ? A4 _]; subst.
  apply Forall_cons; [exact A2|]. apply Forall_cons; [exact A3|]. apply Forall_cons; [exact A4|]. apply Forall_cons; [apply bfits_nil|apply Forall_nil].
Qed.

Lemma rotate_broadcast a b d t g : broadcast [a; b; d; t] = Ok g -> broadcast [t; a; b; d] = Ok g.
Proof. intros H. eapply broadcast_same; [|exact H]. intros s. cbn. tauto. Qed.

Lemma shape_full F g s : s <> "static"%string -> In s all_sources ->
  (forall f, e_gsm E = Some f -> spectra3 f) -> (forall f, e_sm E = Some f -> spectra3 f) ->
  broadcast [sh time; sh radius; sh theta; sh phi] = Ok g -> contribution s = Ok F -> o_sh F = g.
Proof.
  intros Ns Hs H1 H2 Eg. destruct Hs as [<-|[<-|[<-|[<-|[]]]]]; [| congruence | |].
  - unfold Spec_ChaosApi.contribution. change ("tdep" =? "tdep")%string with true. cbv iota. unfold synth_values_tdep. destruct (ch_tdep c); [|discriminate].
    intros H. apply model_values_shape in H. apply rotate_broadcast in H. congruence.
  - unfold Spec_ChaosApi.contribution. change ("gsm" =? "tdep")%string with false. change ("gsm" =? "static")%string with false. change ("gsm" =? "gsm")%string with true. cbv iota.
    destruct (synth_values_gsm _ _ _ _ _ _ _ _ _) as [H|] eqn:EH; [|discriminate]. cbn [bind]. intros X; injection X as <-. cbn [lift_field o_sh].
    destruct (e_gsm E) as [f|] eqn:Ef.
    + destruct (gsm_all _ _ _ _ _ _ _ _ _ Ef (H1 f eq_refl) EH) as (? & ? & _ & _ & _ & _ & S & _). apply rotate_broadcast in S. congruence.
    + exfalso. unfold synth_values_gsm in EH. change ("all" =? "all")%string with true in EH. cbv iota in EH.
      unfold synth_coeffs_gsm at 1 in EH. rewrite Ef in EH. destruct (ch_gsm c); [|discriminate]. destruct (ch_static c); [|discriminate]. destruct (amin _); discriminate.
  - unfold Spec_ChaosApi.contribution. change ("sm" =? "tdep")%string with false. change ("sm" =? "static")%string with false. change ("sm" =? "gsm")%string with false. cbv iota.
    destruct (synth_values_sm _ _ _ _ _ _ _ _ _ _ _) as [H|] eqn:EH; [|discriminate]. cbn [bind]. intros X; injection X as <-. cbn [lift_field o_sh].
    destruct (e_sm E) as [f|] eqn:Ef.
    + destruct (sm_all _ _ _ _ _ _ _ _ _ _ _ Ef (H2 f eq_refl) EH) as (? & ? & _ & _ & _ & _ & S & _). apply rotate_broadcast in S. congruence.
    + exfalso. unfold synth_values_sm in EH. change ("all" =? "all")%string with true in EH. cbv iota in EH.
      unfold synth_coeffs_sm at 1 in EH. rewrite Ef in EH. destruct (ch_sm c); [|discriminate]. destruct (ch_delta c); [|discriminate].
      destruct (existsb _ _); [discriminate|]. destruct (amin _); discriminate.
Qed.
End Call.
