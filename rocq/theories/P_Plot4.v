(** Power spectra and maps of the external field. *)
From Coq Require Import Reals List Arith ZArith String Ascii Bool Lia Lra.
From Verif Require Import M_Prelude Spec_Field Spec_PP M_ND M_SynthArr M_PP M_Spectrum M_Model M_Text M_Coord M_Chaos M_Plot Spec_Plot P_ND P_Plot P_Plot2.
Import ListNotations.
Open Scope R_scope.

(** ** Power spectra *)
Definition sp_defaults : dict pv := [("figsize", Some (VOther 0)); ("titles", Some (VStr "")); ("ylabel", Some (VStr ""))]%string.
Lemma sp_defaults_dict : is_dict sp_defaults.
Proof. unfold is_dict, keys, sp_defaults. cbn. repeat constructor; cbn; intuition discriminate. Qed.

Lemma spectrum_after S kw : is_dict kw -> sh S <> [] ->
  let S' := fst (plot_power_spectrum S kw) in sh S' = sh S /\ forall i, at_ S' i = match at_ S i with Some v => if Req_EM_T v 0 then None else Some v | None => None end.
Proof.
  intros D NE. unfold plot_power_spectrum. change (defaultkeys _ kw) with (defaultkeys sp_defaults kw). assert (Dd := sp_defaults_dict).
  destruct (default_present sp_defaults kw "figsize"%string Dd) as [vf Hf]; [discriminate|].
  destruct (default_present sp_defaults kw "titles"%string Dd) as [vt Ht]; [discriminate|].
  destruct (default_present sp_defaults kw "ylabel"%string Dd) as [vy Hy]; [discriminate|].
  rewrite (pop_some _ _ _ Hf). cbn [bind].
  rewrite (pop_some _ "titles"%string vt) by (rewrite !get_remove_other by discriminate; exact Ht). cbn [bind].
  rewrite (pop_some _ "ylabel"%string vy) by (rewrite !get_remove_other by discriminate; exact Hy). cbn [bind].
  destruct (sh S) as [|N l] eqn:ES; [congruence|]. cbn [fst sh at_]. auto.
Qed.

Lemma spectrum_ok S kw title lab N l : is_dict kw -> sh S = N :: l -> passed_or kw "titles" (VStr "") (VStr title) -> passed_or kw "ylabel" (VStr "") lab ->
  exists p, snd (plot_power_spectrum S kw) = Ok (mkfigure 1 [p]) /\ pn_data p = fst (plot_power_spectrum S kw) /\ pn_title p = title /\ pn_label p = Some lab /\
  exists g, pn_axes p = [g] /\ sh g = [N] /\ (forall n, (n < N)%nat -> at_ g [n] = INR (n + 1)) /\
  forall k, get (pn_kw p) k = if in_dec string_dec k ["figsize"; "titles"; "ylabel"]%string then None else get kw k.
Proof.
  intros D ES PT PY. unfold plot_power_spectrum. change (defaultkeys _ kw) with (defaultkeys sp_defaults kw). assert (Dd := sp_defaults_dict).
  destruct (default_present sp_defaults kw "figsize"%string Dd) as [vf Hf]; [discriminate|].
  assert (Ht := passed_or_get sp_defaults kw "titles"%string _ _ Dd eq_refl PT).
  assert (Hy := passed_or_get sp_defaults kw "ylabel"%string _ _ Dd eq_refl PY).
  rewrite (pop_some _ _ _ Hf). cbn [bind].
  rewrite (pop_some _ "titles"%string _) by (rewrite !get_remove_other by discriminate; exact Ht). cbn [bind].
  rewrite (pop_some _ "ylabel"%string _) by (rewrite !get_remove_other by discriminate; exact Hy). cbn [bind].
  rewrite ES. cbn [fst snd]. eexists. split; [reflexivity|]. cbn [pn_data pn_title pn_label pn_axes pn_kw]. split; [reflexivity|]. split; [reflexivity|]. split; [reflexivity|].
  eexists. split; [reflexivity|]. split; [unfold vec; cbn [sh]; rewrite map_length, seq_length; reflexivity|]. split.
  - intros n Hn. unfold vec. cbn [at_]. rewrite (nth_indep _ 0 ((fun i => INR (i + 1)) 0%nat)) by (rewrite map_length, seq_length; exact Hn). rewrite (map_nth (fun i => INR (i + 1))), seq_nth by exact Hn. reflexivity.
  - intros k. change (remove (remove (remove (defaultkeys sp_defaults kw) "figsize") "titles") "ylabel") with (without (defaultkeys sp_defaults kw) ["figsize"; "titles"; "ylabel"]%string).
    rewrite without_get by (apply defaultkeys_dict; exact D). destruct (in_dec string_dec k _) as [I|I]; [reflexivity|]. rewrite (defaultkeys_get sp_defaults kw k Dd).
    assert (GN : get sp_defaults k = None). { apply get_none. cbn. cbn in I. intuition. } rewrite GN. destruct (get kw k) as [[|]|]; reflexivity.
Qed.

Lemma spectrum_model a m time kw N nm d radius title S n l : is_dict kw -> m_nmax m = Some N ->
  passed_or kw "nmax" (VInt N) (VInt nm) -> passed_or kw "deriv" (VInt 0) (VInt d) -> passed_or kw "titles" (VStr "spatial power spectrum") (VStr title) ->
  unset kw "radius" /\ radius = None \/ (exists r, passed kw "radius" (VNum (Some r)) /\ radius = Some r) ->
  get kw "ylabel"%string = None ->
  model_spectrum a m time radius (Some (Z.to_nat nm)) (Some (Z.to_nat d)) XNone = Ok S -> sh S = n :: l ->
  exists p g, model_plot_power_spectrum a m time kw = Ok (mkfigure 1 [p]) /\ pn_axes p = [g] /\ sh g = [n] /\ (forall i, (i < n)%nat -> at_ g [i] = INR (i + 1)) /\
    sh (pn_data p) = sh S /\ (forall i, at_ (pn_data p) i = match at_ S i with Some v => if Req_EM_T v 0 then None else Some v | None => None end) /\
    pn_title p = title /\ pn_label p = Some (VStr ("(" ++ gauss_units (Some d) ++ ")$^2$")%string).
Proof.
  intros D HN P1 P2 P3 PR PY HS ES. unfold model_plot_power_spectrum. rewrite HN. cbn [int_value option_map].
  set (df := [("radius", None); ("deriv", Some (VInt 0)); ("nmax", Some (VInt N)); ("titles", Some (VStr "spatial power spectrum"))]%string).
  assert (Dd : is_dict df). { unfold is_dict, keys, df. cbn. repeat constructor; cbn; intuition discriminate. }
  assert (G1 := passed_or_get df kw "nmax"%string _ _ Dd eq_refl P1).
  assert (G2 := passed_or_get df kw "deriv"%string _ _ Dd eq_refl P2).
  assert (G3 := passed_or_get df kw "titles"%string _ _ Dd eq_refl P3).
  assert (G4 : exists v, get (defaultkeys df kw) "radius"%string = Some v /\ match v with None => Ok None | Some (VNum (Some r)) => Ok (Some r) | _ => Err TypeError end = Ok radius).
  { rewrite (defaultkeys_get df kw _ Dd). destruct PR as [[[U|U] ->]|(r & P & ->)]; [rewrite U|rewrite U|rewrite P]; eexists; split; reflexivity. }
  destruct G4 as (v & G4 & EV).
  rewrite (pop_some _ _ _ G4). cbn [bind].
  rewrite (pop_some _ "nmax"%string (Some (VInt nm))) by (rewrite get_remove_other by discriminate; exact G1). cbn [bind].
  rewrite (pop_some _ "deriv"%string (Some (VInt d))) by (rewrite !get_remove_other by discriminate; exact G2). cbn [bind int_arg]. rewrite EV. cbn [bind to_nat_opt option_map].
  rewrite HS. cbn [bind]. set (kw3 := fst (setdefault _ _ _)).
  assert (D1 : is_dict (without (defaultkeys df kw) ["radius"; "nmax"; "deriv"]%string)). { unfold without. cbn [fold_left]. repeat apply remove_dict. apply defaultkeys_dict. exact D. }
  assert (D3 : is_dict kw3) by (apply setdefault_dict; exact D1).
  assert (GY : get kw3 "ylabel"%string = Some (Some (VStr ("(" ++ gauss_units (Some d) ++ ")$^2$")%string))).
  { unfold kw3. rewrite setdefault_get. cbn [String.eqb Ascii.eqb Bool.eqb]. rewrite !get_remove_other by discriminate. rewrite (defaultkeys_get df kw _ Dd), PY. reflexivity. }
  assert (GT : get kw3 "titles"%string = Some (Some (VStr title))).
  { unfold kw3. rewrite setdefault_get. cbn [String.eqb Ascii.eqb Bool.eqb]. rewrite !get_remove_other by discriminate. exact G3. }
  destruct (spectrum_ok S kw3 title _ n l D3 ES (or_introl GT) (or_introl GY)) as (p & EP & E1 & E2 & E3 & g & E4 & E5 & E6 & _).
  destruct (spectrum_after S kw3 D3) as (F1 & F2); [rewrite ES; discriminate|].
  exists p, g. split; [exact EP|]. split; [exact E4|]. split; [exact E5|]. split; [exact E6|]. rewrite E1. split; [exact F1|]. split; [exact F2|]. split; [exact E2|exact E3].
Qed.

(** ** Maps of the external field *)
Definition source_name (o : option string) : string := match o with None => "all"%string | Some s => lower s end.

Section External.
Variables (E : env) (c : chaos) (time radius : nd R) (nmax : option nat) (source : option string).
Let th := linspace 1 179 320.
Let ph := linspace (-180) 180 721.
Let gsm := synth_values_gsm E c time radius th ph nmax (Some (source_name source)) (Some true).
Let sm := synth_values_sm E c time radius th ph None None nmax (Some (source_name source)) (Some true).

Lemma external_titles F ts : (exists i, valid (f_sh F) i) -> List.length ts = 3%nat ->
  exists fig, plot_maps th ph (components (lift_field F)) [("titles", Some (VStrs ts)); ("label", Some (VStr (gauss_units (Some 0%Z))))]%string = Ok fig /\
    shows fig [th; ph] (lift_field F) ts (VStr "nT").
Proof.
  intros V L. set (kw := [("titles", Some (VStrs ts)); ("label", Some (VStr (gauss_units (Some 0%Z))))]%string).
  assert (D : is_dict kw). { unfold is_dict, keys, kw. cbn. repeat constructor; cbn; intuition discriminate. }
  assert (LM : forall C, In C (components (lift_field F)) -> exists m, amax_abs C = Ok m).
  { intros C IC. destruct (default_limit C) as (m & Em & _); [| |eauto].
    - destruct IC as [<-|[<-|[<-|[]]]]; exact V.
    - intros i _. destruct IC as [<-|[<-|[<-|[]]]]; discriminate. }
  destruct (LM _ (or_introl eq_refl)) as (m0 & Em0).
  destruct (maps_ok th ph (components (lift_field F)) kw ts D) with (lab := VStr "nT") (lim := amax_abs) (a0 := mknd (o_sh (lift_field F)) (o_r (lift_field F))) (v0 := m0) as (fig & P & A1 & A2 & A3).
  - split; [cbn; lia|]. left. left. reflexivity.
  - left. split; [reflexivity|cbn; lia].
  - left. reflexivity.
  - right. split; [left; reflexivity|reflexivity].
  - exact LM.
  - reflexivity.
  - exact Em0.
  - exists fig. split; [exact P|]. split; [exact A1|]. split; [exact A2|]. intros i p Hp.
    assert (Hi : (i < 3)%nat). { change (List.length (components (lift_field F))) with 3%nat in A2. rewrite <- A2. apply nth_error_Some. rewrite Hp. discriminate. }
    destruct (A3 i Hi) as (q & Q1 & Q2 & Q3 & Q4 & Q5 & _). rewrite Hp in Q1. injection Q1 as <-. auto.
Qed.

Lemma external_one reference F name : (reference = "gsm"%string /\ name = "GSM"%string /\ gsm = Ok F) \/ (reference = "sm"%string /\ name = "SM"%string /\ sm = Ok F) ->
  forall r, lower r = reference -> (exists i, valid (f_sh F) i) ->
  exists fig, plot_maps_external E c time radius nmax (Some r) source = Ok fig /\
    shows fig [th; ph] (lift_field F) (map (fun comp => comp ++ " (" ++ name ++ " " ++ source_name source ++ " sources)")%string ["$B_r$"; "$B_\theta$"; "$B_\phi$"]%string) (VStr "nT").
Proof.
  intros H r Hr V. unfold plot_maps_external. rewrite Hr. fold (source_name source). fold th ph. fold gsm sm.
  destruct H as [(-> & -> & H)|(-> & -> & H)]; cbn [String.eqb Ascii.eqb Bool.eqb]; rewrite H; cbn [bind]; apply external_titles; auto.
Qed.

Lemma external_all G S F r : gsm = Ok G -> sm = Ok S -> field_add G S = Ok F -> match r with None => True | Some r => lower r = "all"%string end -> (exists i, valid (f_sh F) i) ->
  exists fig, plot_maps_external E c time radius nmax r source = Ok fig /\
    shows fig [th; ph] (lift_field F) (map (fun comp => comp ++ " (" ++ source_name source ++ " sources)")%string ["$B_r$"; "$B_\theta$"; "$B_\phi$"]%string) (VStr "nT").
Proof.
  intros HG HS HF Hr V. unfold plot_maps_external. fold (source_name source). fold th ph. fold gsm sm.
  assert (ER : match r with None => "all"%string | Some s => lower s end = "all"%string) by (destruct r; [exact Hr|reflexivity]). rewrite ER.
  cbn [String.eqb Ascii.eqb Bool.eqb]. rewrite HG, HS. cbn [bind]. rewrite HF. cbn [bind]. apply external_titles; auto.
Qed.

Lemma external_unknown r : lower r <> "all"%string -> lower r <> "gsm"%string -> lower r <> "sm"%string ->
  plot_maps_external E c time radius nmax (Some r) source = Err ValueError.
Proof. intros H1 H2 H3. apply String.eqb_neq in H1, H2, H3. unfold plot_maps_external. rewrite H1, H2, H3. reflexivity. Qed.
End External.

(** the sum of two fields on the same points *)
Lemma field_add_same G S : f_sh G = f_sh S -> exists F, field_add G S = Ok F /\ f_sh F = f_sh G /\
  forall i, valid (f_sh G) i -> f_r F i = f_r G i + f_r S i /\ f_t F i = f_t G i + f_t S i /\ f_p F i = f_p G i + f_p S i.
Proof.
  intros H. unfold field_add. rewrite <- H.
  assert (B : broadcast [f_sh G; f_sh G] = Ok (f_sh G)).
  { unfold broadcast. cbn [fold_left bind]. assert (E1 : bshape [] (f_sh G) = Some (f_sh G)). { unfold bshape. cbn. rewrite rev_involutive. reflexivity. }
    rewrite E1. cbn [bind]. assert (E2 : bshape (f_sh G) (f_sh G) = Some (f_sh G)).
    { unfold bshape. assert (Q : forall l, bc_rev l l = Some l). { induction l as [|u l IH]; [reflexivity|]. cbn. rewrite IH, Nat.eqb_refl. reflexivity. } rewrite Q. cbn. rewrite rev_involutive. reflexivity. }
    rewrite E2. reflexivity. }
  rewrite B. cbn [bind]. eexists. split; [reflexivity|]. split; [reflexivity|]. intros i V. cbn [f_r f_t f_p]. rewrite (bidx_same (f_sh G) i V). auto.
Qed.
