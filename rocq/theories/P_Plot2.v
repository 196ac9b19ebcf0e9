(** Proofs about the plotting methods. *)
From Coq Require Import Reals List Arith ZArith String Ascii Bool Lia Lra.
From Verif Require Import M_Prelude M_ND M_SynthArr M_PP M_Spectrum M_Model M_Text M_Coord M_Chaos M_Plot Spec_Plot P_Plot.
Import ListNotations.
Open Scope R_scope.

(** keyword dictionaries with the same choices *)
Lemma layout_ok_get kw kw' n : get kw' "layout"%string = get kw "layout"%string -> layout_ok kw n -> layout_ok kw' n.
Proof. unfold layout_ok, unset, passed. intros ->. auto. Qed.

Section Timeseries.
Variables (oob a : R) (m : field_model) (radius theta phi : nd R) (kw : dict pv) (N nm d : Z) (x : list R) (e : extrap) (ts : list string).
Hypotheses (D : is_dict kw) (HN : m_nmax m = Some N) (HB : b_breaks (m_base m) = Some x) (NE : x <> [])
  (Hnm : passed_or kw "nmax" (VInt N) (VInt nm)) (Hd : passed_or kw "deriv" (VInt 0) (VInt d))
  (He : unset kw "extrapolate" /\ e = XNone \/ (exists s, passed kw "extrapolate" (VStr s) /\ e = XStr s) \/ (exists z, passed kw "extrapolate" (VInt z) /\ e = XInt z))
  (Ht : passed_or kw "titles" (VStrs ["$B_r$"; "$B_\theta$"; "$B_\phi$"]%string) (VStrs ts)) (Lt : (3 <= List.length ts)%nat)
  (Hl : layout_ok kw 3).
Let df : dict pv := [("deriv", Some (VInt 0)); ("nmax", Some (VInt N)); ("titles", Some (VStrs ["$B_r$"; "$B_\theta$"; "$B_\phi$"])); ("extrapolate", None)]%string.
Let grid := linspace (nth 0 x 0) (last x 0) 500.
Let kw2 := fst (setdefault (without (defaultkeys df kw) ["nmax"; "deriv"; "extrapolate"]%string) "ylabel" (Some (VStr (gauss_units (Some d))))).

Lemma df_dict : is_dict df.
Proof. unfold is_dict, keys, df. cbn. repeat constructor; cbn; intuition discriminate. Qed.

Lemma model_plot_timeseries_form : model_plot_timeseries oob a m radius theta phi kw =
  bind (model_values oob a m grid radius theta phi (Some (Z.to_nat nm)) (Some (Z.to_nat d)) None e) (fun F => plot_timeseries grid (components F) kw2).
Proof.
  unfold model_plot_timeseries. rewrite HN. cbn [int_value option_map]. change (defaultkeys _ kw) with (defaultkeys df kw).
  assert (G1 := passed_or_get df kw "nmax"%string (VInt N) (VInt nm) df_dict eq_refl Hnm).
  assert (G2 := passed_or_get df kw "deriv"%string (VInt 0) (VInt d) df_dict eq_refl Hd).
  assert (G3 : exists v, get (defaultkeys df kw) "extrapolate"%string = Some v /\ extrap_arg v = Ok e).
  { rewrite (defaultkeys_get df kw _ df_dict). destruct He as [[[U|U] ->]|[(s & P & ->)|(z & P & ->)]].
    - rewrite U. eexists. split; reflexivity.
    - rewrite U. eexists. split; reflexivity.
    - rewrite P. eexists. split; reflexivity.
    - rewrite P. eexists. split; reflexivity. }
  destruct G3 as (v & G3 & Ev).
  rewrite (pop_some _ _ _ G1). cbn [bind].
  rewrite (pop_some _ "deriv"%string (Some (VInt d))) by (rewrite get_remove_other by discriminate; exact G2). cbn [bind].
  rewrite (pop_some _ "extrapolate"%string v) by (rewrite !get_remove_other by discriminate; exact G3). cbn [bind int_arg].
  rewrite Ev. cbn [bind]. rewrite HB. unfold grid. destruct x as [|b x']; [congruence|]. change (nth 0 (b :: x') 0) with b.
  replace (last (b :: x') b) with (last (b :: x') 0); [reflexivity|].
  generalize (b :: x'), NE. intros l Nl. induction l as [|u [|w l] IH]; [congruence|reflexivity|]. change (last (w :: l) 0 = last (w :: l) b). apply IH. discriminate.
Qed.

Lemma kw2_dict : is_dict kw2.
Proof. apply setdefault_dict. unfold without. cbn [fold_left]. repeat apply remove_dict. apply defaultkeys_dict. exact D. Qed.

Lemma kw2_get k : get kw2 k = if (k =? "ylabel")%string then match get kw "ylabel"%string with Some w => Some w | None => Some (Some (VStr (gauss_units (Some d)))) end
   else if in_dec string_dec k ["nmax"; "deriv"; "extrapolate"]%string then None else get (defaultkeys df kw) k.
Proof.
  unfold kw2. rewrite setdefault_get. rewrite !without_get by (apply defaultkeys_dict; exact D).
  destruct (k =? "ylabel")%string eqn:E; [|reflexivity]. destruct (in_dec string_dec "ylabel"%string _) as [I|I]; [cbn in I; exfalso; intuition discriminate|].
  rewrite (defaultkeys_get df kw _ df_dict). cbn [get String.eqb Ascii.eqb Bool.eqb df]. destruct (get kw "ylabel"%string) as [[|]|]; reflexivity.
Qed.

Lemma timeseries_shows F lab : model_values oob a m grid radius theta phi (Some (Z.to_nat nm)) (Some (Z.to_nat d)) None e = Ok F ->
  get kw "ylabel"%string = None /\ lab = VStr (gauss_units (Some d)) \/ get kw "ylabel"%string = Some (Some lab) ->
  exists fig, model_plot_timeseries oob a m radius theta phi kw = Ok fig /\ shows fig [grid] F ts lab.
Proof.
  intros HF HL. rewrite model_plot_timeseries_form, HF. cbn [bind].
  destruct (timeseries_ok grid (components F) kw2 ts kw2_dict) with (lab := lab) as (fig & P & A1 & A2 & A3).
  - apply (layout_ok_get kw); [|exact Hl]. rewrite kw2_get. cbn [String.eqb Ascii.eqb Bool.eqb]. cbn [in_dec].
    destruct (in_dec string_dec "layout"%string _) as [I|I]; [cbn in I; exfalso; intuition discriminate|]. rewrite (defaultkeys_get df kw _ df_dict). cbn [get String.eqb Ascii.eqb Bool.eqb df].
    destruct (get kw "layout"%string) as [[|]|]; reflexivity.
  - left. split; [|exact Lt]. unfold passed. rewrite kw2_get. cbn [String.eqb Ascii.eqb Bool.eqb].
    destruct (in_dec string_dec "titles"%string _) as [I|I]; [cbn in I; exfalso; intuition discriminate|]. exact (passed_or_get df kw "titles"%string _ _ df_dict eq_refl Ht).
  - left. unfold passed. rewrite kw2_get. cbn [String.eqb Ascii.eqb Bool.eqb]. destruct HL as [[-> ->]| ->]; reflexivity.
  - exists fig. split; [exact P|]. split; [exact A1|]. split; [exact A2|]. intros i p Hp.
    assert (Hi : (i < 3)%nat). { change (List.length (components F)) with 3%nat in A2. rewrite <- A2. apply nth_error_Some. rewrite Hp. discriminate. }
    destruct (A3 i Hi) as (q & Q1 & Q2 & Q3 & Q4 & Q5 & _). rewrite Hp in Q1. injection Q1 as <-. auto.
Qed.

Lemma timeseries_error err : model_values oob a m grid radius theta phi (Some (Z.to_nat nm)) (Some (Z.to_nat d)) None e = Err err -> model_plot_timeseries oob a m radius theta phi kw = Err err.
Proof. intros H. rewrite model_plot_timeseries_form, H. reflexivity. Qed.
End Timeseries.

(** ** Maps *)
Section Maps.
Variables (oob a : R) (m : field_model) (time radius : nd R) (kw : dict pv) (N nm d : Z).
Hypotheses (D : is_dict kw) (HN : m_nmax m = Some N) (Hnm : passed_or kw "nmax" (VInt N) (VInt nm)) (Hd : passed_or kw "deriv" (VInt 0) (VInt d)).
Let df : dict pv := [("deriv", Some (VInt 0)); ("nmax", Some (VInt N))]%string.
Let theta := linspace 1 179 320.
Let phi := linspace (-180) 180 640.
Let titles := [map_title "$B_r$" nm d; map_title "$B_\theta$" nm d; map_title "$B_\phi$" nm d].
Let kw2 := fst (setdefault (fst (setdefault (without (defaultkeys df kw) ["nmax"; "deriv"]%string) "label" (Some (VStr (gauss_units (Some d)))))) "titles" (Some (VStrs titles))).

Lemma mdf_dict : is_dict df.
Proof. unfold is_dict, keys, df. cbn. repeat constructor; cbn; intuition discriminate. Qed.

Lemma model_plot_maps_form : model_plot_maps oob a m time radius kw =
  bind (model_values oob a m time radius theta phi (Some (Z.to_nat (Z.min nm N))) (Some (Z.to_nat d)) (Some true) XNone) (fun F => plot_maps theta phi (components F) kw2).
Proof.
  unfold model_plot_maps. rewrite HN. cbn [int_value option_map]. change (defaultkeys _ kw) with (defaultkeys df kw).
  assert (G1 := passed_or_get df kw "nmax"%string (VInt N) (VInt nm) mdf_dict eq_refl Hnm).
  assert (G2 := passed_or_get df kw "deriv"%string (VInt 0) (VInt d) mdf_dict eq_refl Hd).
  rewrite (pop_some _ _ _ G1). cbn [bind].
  rewrite (pop_some _ "deriv"%string (Some (VInt d))) by (rewrite get_remove_other by discriminate; exact G2). cbn [bind int_arg].
  replace (if (N <? nm)%Z then N else nm) with (Z.min nm N); [reflexivity|].
  destruct (N <? nm)%Z eqn:E; [apply Z.ltb_lt in E; lia|apply Z.ltb_ge in E; lia].
Qed.

Lemma mkw2_dict : is_dict kw2.
Proof. apply setdefault_dict, setdefault_dict. unfold without. cbn [fold_left]. repeat apply remove_dict. apply defaultkeys_dict. exact D. Qed.

Lemma mkw2_get k : get kw2 k =
   if (k =? "titles")%string then match get kw "titles"%string with Some w => Some w | None => Some (Some (VStrs titles)) end
   else if (k =? "label")%string then match get kw "label"%string with Some w => Some w | None => Some (Some (VStr (gauss_units (Some d)))) end
   else if in_dec string_dec k ["nmax"; "deriv"]%string then None else get kw k.
Proof.
  unfold kw2. rewrite !setdefault_get. rewrite !without_get by (apply defaultkeys_dict; exact D).
  assert (U : forall k, ~ In k ["nmax"; "deriv"]%string -> get (defaultkeys df kw) k = get kw k).
  { intros j I. rewrite (defaultkeys_get df kw _ mdf_dict). assert (G : get df j = None) by (apply get_none; cbn; cbn in I; tauto). rewrite G. destruct (get kw j) as [[|]|]; reflexivity. }
  destruct (k =? "titles")%string eqn:E1.
  - cbn [String.eqb Ascii.eqb Bool.eqb]. destruct (in_dec string_dec "titles"%string _) as [I|I]; [cbn in I; exfalso; intuition discriminate|]. rewrite (U _ I). reflexivity.
  - destruct (k =? "label")%string eqn:E2.
    + destruct (in_dec string_dec "label"%string _) as [I|I]; [cbn in I; exfalso; intuition discriminate|]. rewrite (U _ I). reflexivity.
    + destruct (in_dec string_dec k _) as [I|I]; [reflexivity|]. exact (U _ I).
Qed.

Lemma maps_shows F ts lab lim : model_values oob a m time radius theta phi (Some (Z.to_nat (Z.min nm N))) (Some (Z.to_nat d)) (Some true) XNone = Ok F ->
  layout_ok kw 3 ->
  get kw "titles"%string = None /\ ts = titles \/ get kw "titles"%string = Some (Some (VStrs ts)) /\ (3 <= List.length ts)%nat ->
  get kw "label"%string = None /\ lab = VStr (gauss_units (Some d)) \/ get kw "label"%string = Some (Some lab) ->
  passed_or kw "limiter" (VFun amax_abs) (VFun lim) -> (forall c, In c (components F) -> exists v, lim c = Ok v) ->
  exists fig, model_plot_maps oob a m time radius kw = Ok fig /\ shows fig [theta; phi] F ts lab /\
    forall p v, In p (fg_panels fig) -> lim (mknd (o_sh F) (o_r F)) = Ok v ->
      get (pn_kw p) "vmax"%string = limit kw "vmax" v /\ get (pn_kw p) "vmin"%string = limit kw "vmin" (negate v) /\
      forall c, passed_or kw "cmap" (VStr "PuOr_r") c -> get (pn_kw p) "cmap"%string = Some (Some c).
Proof.
  intros HF HL HT HB HM HA. rewrite model_plot_maps_form, HF. cbn [bind].
  assert (K : forall k, ~ In k ["titles"; "label"; "nmax"; "deriv"]%string -> get kw2 k = get kw k).
  { intros k I. cbn in I. rewrite mkw2_get. destruct (k =? "titles")%string eqn:E1; [apply String.eqb_eq in E1; subst; tauto|].
    destruct (k =? "label")%string eqn:E2; [apply String.eqb_eq in E2; subst; tauto|]. destruct (in_dec string_dec k _) as [J|J]; [cbn in J; tauto|reflexivity]. }
  destruct (HA (mknd (o_sh F) (o_r F)) (or_introl eq_refl)) as [v0 Hv0].
  destruct (maps_ok theta phi (components F) kw2 ts mkw2_dict) with (lab := lab) (lim := lim) (a0 := mknd (o_sh F) (o_r F)) (v0 := v0) as (fig & P & A1 & A2 & A3).
  - apply (layout_ok_get kw); [|exact HL]. apply K. cbn. intuition discriminate.
  - left. unfold passed. rewrite mkw2_get. cbn [String.eqb Ascii.eqb Bool.eqb]. destruct HT as [[-> ->]|[-> L]]; [split; [reflexivity|cbn; lia]|split; [reflexivity|exact L]].
  - left. unfold passed. rewrite mkw2_get. cbn [String.eqb Ascii.eqb Bool.eqb]. destruct HB as [[-> ->]| ->]; reflexivity.
  - unfold passed_or, passed, unset in *. rewrite K by (cbn; intuition discriminate). exact HM.
  - exact HA.
  - reflexivity.
  - exact Hv0.
  - exists fig. split; [exact P|]. change (List.length (components F)) with 3%nat in *.
    assert (Hi : forall i p, nth_error (fg_panels fig) i = Some p -> (i < 3)%nat).
    { intros i p Hp. rewrite <- A2. apply nth_error_Some. rewrite Hp. discriminate. }
    split.
    + split; [exact A1|]. split; [exact A2|]. intros i p Hp.
      destruct (A3 i (Hi i p Hp)) as (q & Q1 & Q2 & Q3 & Q4 & Q5 & _). rewrite Hp in Q1. injection Q1 as <-. auto.
    + intros p v I Hv. rewrite Hv0 in Hv. injection Hv as <-. apply In_nth_error in I. destruct I as [i Hp].
      destruct (A3 i (Hi i p Hp)) as (q & Q1 & _ & _ & _ & _ & Q2 & Q3 & Q4 & _). rewrite Hp in Q1. injection Q1 as <-.
      rewrite Q2, Q3. unfold limit. rewrite !K by (cbn; intuition discriminate). split; [reflexivity|]. split; [reflexivity|].
      intros c Hc. apply Q4. unfold passed_or, passed, unset in *. rewrite K by (cbn; intuition discriminate). exact Hc.
Qed.

Lemma maps_error err : model_values oob a m time radius theta phi (Some (Z.to_nat (Z.min nm N))) (Some (Z.to_nat d)) (Some true) XNone = Err err -> model_plot_maps oob a m time radius kw = Err err.
Proof. intros H. rewrite model_plot_maps_form, H. reflexivity. Qed.
End Maps.
