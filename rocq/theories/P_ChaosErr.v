(** Which exceptions the CHAOS methods, power_spectrum and design_matrix raise *)
From Coq Require Import Reals List Arith ZArith String Bool Lia Lra.
From Verif Require Import M_Prelude M_ND Spec_Field M_Legendre M_Synth M_SynthArr M_Spectrum M_Spline M_PP M_Rotate M_Chaos P_Chaos P_Chaos4 P_SynthArr P_SynthErr.
Import ListNotations.
Open Scope R_scope.

(** The SM and GSM parts of a model with everything the methods need *)
Lemma gsm_assert E c g st f time nmax s : ch_gsm c = Some g -> ch_static c = Some st -> elems time <> [] ->
  e_gsm E = Some f -> rf_dipole f <> e_dipole E -> synth_coeffs_gsm E c time nmax s = Err AssertionError.
Proof.
  intros Hg Hs Ht He Hd. unfold synth_coeffs_gsm. rewrite Hg, Hs. destruct (elems time) as [|t l]; [congruence|]. cbn [amin bind].
  rewrite He. cbn [load bind]. rewrite (lists_equal_ne _ _ Hd). reflexivity.
Qed.
Lemma sm_assert E c m q10 q11 s11 f time nmax s rc : ch_sm c = Some m -> ch_delta c = Some (q10, q11, s11) ->
  d_breaks q10 <> [] -> d_breaks q11 <> [] -> d_breaks s11 <> [] -> elems time <> [] ->
  e_sm E = Some f -> rf_dipole f <> e_dipole E -> synth_coeffs_sm E c time nmax s rc = Err AssertionError.
Proof.
  intros Hm Hdl B1 B2 B3 Ht He Hd. unfold synth_coeffs_sm. rewrite Hm, Hdl.
  destruct (existsb _ _) eqn:Ex.
  - exfalso. apply existsb_exists in Ex. destruct Ex as (j & Hj & Hl). cbn [In] in Hj. apply Nat.eqb_eq in Hl.
    destruct Hj as [<- | [<- | [<- | []]]]; cbn in Hl; [destruct (d_breaks q10)|destruct (d_breaks q11)|destruct (d_breaks s11)]; cbn in Hl; congruence.
  - destruct (elems time) as [|t l]; [congruence|]. cbn [amin bind]. rewrite He. cbn [load bind]. rewrite (lists_equal_ne _ _ Hd). reflexivity.
Qed.
Lemma dipole_assert E c f time radius theta phi rc_e rc_i rc nmax source grid : elems time <> [] -> rf_dipole f <> e_dipole E ->
  (forall s, source = Some s -> In s ["all"; "external"; "internal"]%string) ->
  (e_gsm E = Some f -> ch_gsm c <> None -> ch_static c <> None ->
     synth_coeffs_gsm E c time nmax source = Err AssertionError /\ synth_values_gsm E c time radius theta phi nmax source grid = Err AssertionError) /\
  (forall q10 q11 s11, e_sm E = Some f -> ch_sm c <> None -> ch_delta c = Some (q10, q11, s11) ->
     d_breaks q10 <> [] -> d_breaks q11 <> [] -> d_breaks s11 <> [] ->
     synth_coeffs_sm E c time nmax source rc = Err AssertionError /\
     synth_values_sm E c time radius theta phi rc_e rc_i nmax source grid = Err AssertionError).
Proof.
  intros Ht Hd Hs. split.
  - intros He Hg Hst. destruct (ch_gsm c) as [g|] eqn:Eg; [|congruence]. destruct (ch_static c) as [st|] eqn:Es; [|congruence].
    split; [apply (gsm_assert E c g st f); assumption|]. unfold synth_values_gsm. rewrite !(gsm_assert E c g st f) by assumption. cbn [bind].
    destruct source as [s|]; [|reflexivity]. destruct (Hs s eq_refl) as [<- | [<- | [<- | []]]]; reflexivity.
  - intros q10 q11 s11 He Hm Hdl B1 B2 B3. destruct (ch_sm c) as [m|] eqn:Em; [|congruence].
    split; [apply (sm_assert E c m q10 q11 s11 f); assumption|]. unfold synth_values_sm.
    rewrite !(fun s q => sm_assert E c m q10 q11 s11 f time nmax s q Em Hdl B1 B2 B3 Ht He Hd). cbn [bind].
    destruct source as [s|]; [|reflexivity]. destruct (Hs s eq_refl) as [<- | [<- | [<- | []]]]; reflexivity.
Qed.

Lemma unknown_value_error E c time nmax s rc K K' : ~ In s ["external"; "internal"]%string ->
  (synth_coeffs_gsm E c time nmax (Some "external"%string) = Ok K -> synth_coeffs_gsm E c time nmax (Some s) = Err ValueError) /\
  (synth_coeffs_sm E c time nmax (Some "external"%string) (Some rc) = Ok K' -> synth_coeffs_sm E c time nmax (Some s) (Some rc) = Err ValueError).
Proof.
  intros N. assert (N2 : (s =? "external")%string = false) by (apply String.eqb_neq; intros ->; apply N; cbn; tauto).
  assert (N3 : (s =? "internal")%string = false) by (apply String.eqb_neq; intros ->; apply N; cbn; tauto). split; intros H.
  - unfold synth_coeffs_gsm in *. cbv zeta in *. rewrite N2, N3. destruct (ch_gsm c); [|discriminate]. destruct (ch_static c); [|discriminate].
    destruct (amin _); [|discriminate]. cbn [bind] in *. destruct (load _); [|discriminate]. cbn [bind] in *. destruct (negb _); [discriminate|reflexivity].
  - unfold synth_coeffs_sm in *. cbv zeta in *. destruct (ch_sm c); [|discriminate]. destruct (ch_delta c); [|discriminate].
    destruct (existsb _ _); [discriminate|]. destruct (amin _); [|discriminate]. cbn [bind] in *. destruct (load _); [|discriminate]. cbn [bind] in *.
    destruct (negb _); [discriminate|]. destruct (synth_rotate_gauss _ _ _ _); [|discriminate]. cbn [bind]. unfold sm_coeffs. rewrite N2, N3. reflexivity.
Qed.

Lemma missing_parts_exact E c time radius theta phi nmax source grid rc_e rc_i :
  (ch_gsm c = None -> synth_values_gsm E c time radius theta phi nmax source grid = Err ValueError) /\
  (ch_sm c = None -> synth_values_sm E c time radius theta phi rc_e rc_i nmax source grid = Err ValueError).
Proof.
  split; intros H.
  - assert (A : forall s, synth_coeffs_gsm E c time nmax s = Err ValueError) by (intros s; unfold synth_coeffs_gsm; rewrite H; reflexivity).
    unfold synth_values_gsm. rewrite !A. cbn [bind]. destruct (_ =? _)%string; [reflexivity|]. destruct (_ || _)%bool; reflexivity.
  - assert (A : forall s rc, synth_coeffs_sm E c time nmax s rc = Err ValueError) by (intros s q; unfold synth_coeffs_sm; rewrite H; reflexivity).
    unfold synth_values_sm. rewrite !A. cbn [bind]. destruct (_ =? _)%string; [reflexivity|]. destruct (_ || _)%bool; reflexivity.
Qed.
Lemma missing_files E c g st m q10 q11 s11 time nmax s rc : elems time <> [] ->
  (ch_gsm c = Some g -> ch_static c = Some st -> e_gsm E = None -> synth_coeffs_gsm E c time nmax s = Err FileNotFoundError) /\
  (ch_sm c = Some m -> ch_delta c = Some (q10, q11, s11) -> d_breaks q10 <> [] -> d_breaks q11 <> [] -> d_breaks s11 <> [] -> e_sm E = None ->
     synth_coeffs_sm E c time nmax s rc = Err FileNotFoundError).
Proof.
  intros Ht. split.
  - intros Hg Hs He. unfold synth_coeffs_gsm. rewrite Hg, Hs. destruct (elems time) as [|t l]; [congruence|]. cbn [amin bind]. rewrite He. reflexivity.
  - intros Hm Hdl B1 B2 B3 He. unfold synth_coeffs_sm. rewrite Hm, Hdl.
    destruct (existsb _ _) eqn:Ex.
    + exfalso. apply existsb_exists in Ex. destruct Ex as (j & Hj & Hl). cbn [In] in Hj. apply Nat.eqb_eq in Hl.
      destruct Hj as [<- | [<- | [<- | []]]]; cbn in Hl; [destruct (d_breaks q10)|destruct (d_breaks q11)|destruct (d_breaks s11)]; cbn in Hl; congruence.
    + destruct (elems time) as [|t l]; [congruence|]. cbn [amin bind]. rewrite He. reflexivity.
Qed.

(** power_spectrum and design_matrix *)
Lemma spectrum_value_error a c radius nmax name axis W : power_spectrum a c radius nmax (Some "internal"%string) axis = Ok W ->
  name <> "internal"%string -> name <> "external"%string -> name <> "toroidal"%string ->
  power_spectrum a c radius nmax (Some name) axis = Err ValueError.
Proof.
  intros H H1 H2 H3. unfold power_spectrum in *. cbv zeta in *. destruct (norm_axis _ _); [|discriminate]. cbn [bind]. unfold factor.
  destruct (String.eqb_spec name "internal"); [contradiction|]. destruct (String.eqb_spec name "external"); [contradiction|].
  destruct (String.eqb_spec name "toroidal"); [contradiction|]. reflexivity.
Qed.
Lemma static_degree_errors junk oob a knots order n_tdep time radius theta phi z0 source D z :
  design_matrix junk oob a knots order n_tdep time radius theta phi z0 source = Ok D -> (z < Z.of_nat n_tdep)%Z ->
  design_matrix junk oob a knots order n_tdep time radius theta phi (Some z) source = Err (if (z =? 0)%Z then AssertionError else ValueError).
Proof.
  intros H Hz. unfold design_matrix in *. destruct (negb _); [discriminate|]. destruct (negb _); [discriminate|].
  destruct (thetas_inside _) as [b|]; [|discriminate]. cbn [bind] in *. destruct (negb b); [discriminate|].
  destruct (Z.eqb_spec z 0) as [->|Nz]; cbn [negb andb].
  - cbn [bind]. match type of H with bind ?u _ = _ => destruct u as [zz|]; [|discriminate] end. cbn [bind] in H. cbv zeta in H |- *.
    match type of H with bind ?u _ = _ => destruct u as [A|] eqn:EA; [|discriminate] end.
    assert (X : design_gauss oob a radius theta phi 0 None None (Some match source with Some s => s | None => "internal"%string end) = Err AssertionError).
    { unfold design_gauss in *. cbv zeta in *. destruct (broadcast _); [|discriminate]. cbn [bind] in *. destruct (check_poles _); [|discriminate]. reflexivity. }
    destruct source; rewrite X; reflexivity.
  - destruct (Z.ltb_spec z (Z.of_nat n_tdep)); [reflexivity|lia].
Qed.
