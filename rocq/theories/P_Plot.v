(** Proofs about the plotting functions. *)
From Coq Require Import Reals List Arith ZArith String Ascii Bool Lia Lra.
From Verif Require Import M_Prelude M_ND M_SynthArr M_PP M_Spectrum M_Model M_Text M_Coord M_Chaos M_Plot Spec_Plot P_Text P_ND.
Import ListNotations.
Open Scope R_scope.

(** ** Dictionaries *)
Section Dicts.
Context {A : Type}.
Implicit Types (d : dict A) (k j : string).

Lemma get_app d e k : get (d ++ e) k = match get d k with Some v => Some v | None => get e k end.
Proof. induction d as [|[k' v] d IH]; cbn; [reflexivity|]. destruct (k =? k')%string; [reflexivity|exact IH]. Qed.

Lemma get_put d j v k : get (put d j v) k = if (k =? j)%string then Some v else get d k.
Proof.
  induction d as [|[k' w] d IH]; cbn; [reflexivity|].
  destruct (j =? k')%string eqn:E; cbn.
  - apply String.eqb_eq in E. subst k'. destruct (k =? j)%string; reflexivity.
  - rewrite IH. destruct (k =? k')%string eqn:E1; [|reflexivity].
    apply String.eqb_eq in E1. subst k'. destruct (k =? j)%string eqn:E2; [|reflexivity].
    apply String.eqb_eq in E2. subst. rewrite String.eqb_refl in E. discriminate.
Qed.

Lemma get_none d k : get d k = None <-> ~ In k (keys d).
Proof.
  induction d as [|[k' v] d IH]; cbn; [tauto|].
  destruct (k =? k')%string eqn:E.
  - apply String.eqb_eq in E. subst. split; [discriminate|]. intros H. exfalso. apply H. left; reflexivity.
  - apply String.eqb_neq in E. rewrite IH. split; intros H; [intros [->|F]; tauto|tauto].
Qed.

Lemma get_remove_other d j k : j <> k -> get (remove d j) k = get d k.
Proof.
  intros N. induction d as [|[k' v] d IH]; cbn; [reflexivity|].
  destruct (j =? k')%string eqn:E; cbn.
  - apply String.eqb_eq in E. subst k'. destruct (k =? j)%string eqn:E1; [|reflexivity]. apply String.eqb_eq in E1. congruence.
  - rewrite IH. reflexivity.
Qed.

Lemma keys_remove_sub d j k : In k (keys (remove d j)) -> In k (keys d).
Proof.
  induction d as [|[k' v] d IH]; cbn; [tauto|]. destruct (j =? k')%string; cbn; [tauto|]. intros [->|H]; [left; reflexivity|right; exact (IH H)].
Qed.

Lemma remove_dict d j : is_dict d -> is_dict (remove d j).
Proof.
  unfold is_dict. induction d as [|[k' v] d IH]; cbn; intros N; [exact N|]. inversion N; subst.
  destruct (j =? k')%string; [assumption|]. cbn. constructor; [|exact (IH H2)].
  intros F. apply H1. exact (keys_remove_sub d j k' F).
Qed.

Lemma get_remove_same d j : is_dict d -> get (remove d j) j = None.
Proof.
  unfold is_dict. induction d as [|[k' v] d IH]; cbn; intros N; [reflexivity|]. inversion N; subst.
  destruct (j =? k')%string eqn:E; cbn.
  - apply String.eqb_eq in E. subst. apply get_none. assumption.
  - rewrite E. exact (IH H2).
Qed.

Lemma keys_put d j v : get d j <> None -> keys (put d j v) = keys d.
Proof.
  intros H. assert (I : In j (keys d)). { destruct (in_dec string_dec j (keys d)) as [I|I]; [exact I|]. apply get_none in I. contradiction. }
  clear H. induction d as [|[k' w] d IH]; cbn in *; [tauto|].
  destruct (j =? k')%string eqn:E; [reflexivity|]. cbn. f_equal. apply IH. apply String.eqb_neq in E. destruct I as [I|I]; [congruence|exact I].
Qed.

(** one round of defaultkeys *)
Definition default_step d (p : string * option A) : dict A :=
  let '(key, value) := p in
  let '(kw, current) := setdefault d key value in
  match current with None => put kw key value | Some _ => kw end.

Lemma defaultkeys_fold df d : defaultkeys df d = fold_left default_step df d.
Proof. reflexivity. Qed.

Lemma step_get d j v k : get (default_step d (j, v)) k =
  if (k =? j)%string then match get d j with Some (Some w) => Some (Some w) | _ => Some v end else get d k.
Proof.
  unfold default_step, setdefault. destruct (get d j) as [[w|]|] eqn:G; cbn.
  - destruct (k =? j)%string eqn:E; [|reflexivity]. apply String.eqb_eq in E. subst. exact G.
  - apply get_put.
  - destruct v as [w|].
    + rewrite get_app. cbn. destruct (k =? j)%string eqn:E; [|destruct (get d k); reflexivity].
      apply String.eqb_eq in E. subst. rewrite G. reflexivity.
    + rewrite get_put, get_app. cbn. destruct (k =? j)%string eqn:E; [reflexivity|]. destruct (get d k); reflexivity.
Qed.

Lemma step_dict d p : is_dict d -> is_dict (default_step d p).
Proof.
  destruct p as [j v]. unfold default_step, setdefault. intros N.
  destruct (get d j) as [[w|]|] eqn:G; [exact N| |].
  - unfold is_dict. rewrite keys_put; [exact N|]. rewrite G. discriminate.
  - assert (N' : is_dict (d ++ [(j, v)])%list).
    { unfold is_dict, keys in *. rewrite map_app. apply get_none in G. unfold keys in G. cbn [map fst].
      apply (NoDup_Add (a := j) (l := map fst d)); [|split; [exact N|exact G]].
      rewrite <- (app_nil_r (map fst d)) at 1. apply Add_app. }
    destruct v as [w|]; [exact N'|]. unfold is_dict. rewrite keys_put; [exact N'|]. rewrite get_app, G. cbn. rewrite String.eqb_refl. discriminate.
Qed.

Lemma defaultkeys_dict df : forall d, is_dict d -> is_dict (defaultkeys df d).
Proof. setoid_rewrite defaultkeys_fold. induction df as [|p df IH]; intros d N; [exact N|]. cbn [fold_left]. apply IH, step_dict, N. Qed.

Lemma defaultkeys_get df : forall d k, is_dict df ->
  get (defaultkeys df d) k =
    match get d k with
    | Some (Some v) => Some (Some v)
    | other => match get df k with Some w => Some w | None => other end
    end.
Proof.
  setoid_rewrite defaultkeys_fold. induction df as [|[j v] df IH]; intros d k N.
  - cbn. destruct (get d k) as [[w|]|]; reflexivity.
  - cbn [fold_left]. inversion N; subst. rewrite (IH _ _ H2), step_get. cbn [get].
    destruct (k =? j)%string eqn:E; [|reflexivity]. apply String.eqb_eq in E. subst.
    assert (G : get df j = None) by (apply get_none; assumption). rewrite G.
    destruct (get d j) as [[w|]|]; [reflexivity| |]; destruct v; reflexivity.
Qed.

Lemma setdefault_get d j v k : get (fst (setdefault d j v)) k = if (k =? j)%string then match get d j with Some w => Some w | None => Some v end else get d k.
Proof.
  unfold setdefault. destruct (get d j) as [w|] eqn:G; cbn.
  - destruct (k =? j)%string eqn:E; [|reflexivity]. apply String.eqb_eq in E. subst. exact G.
  - rewrite get_app. cbn. destruct (k =? j)%string eqn:E; [|destruct (get d k); reflexivity].
    apply String.eqb_eq in E. subst. rewrite G. reflexivity.
Qed.

Lemma setdefault_dict d j v : is_dict d -> is_dict (fst (setdefault d j v)).
Proof.
  intros N. assert (S := step_dict d (j, v) N). unfold default_step, setdefault in S. unfold setdefault. destruct (get d j) as [w|] eqn:G; cbn in *; [exact N|].
  destruct v as [w|]; [exact S|]. unfold is_dict in S. rewrite keys_put in S; [exact S|]. rewrite get_app, G. cbn. rewrite String.eqb_refl. discriminate.
Qed.

Lemma pop_some d j v : get d j = Some v -> pop d j = Ok (v, remove d j).
Proof. unfold pop. intros ->. reflexivity. Qed.
End Dicts.

(** the list of keys to be taken out *)
Definition without {A} (d : dict A) (l : list string) : dict A := fold_left remove l d.

Lemma without_get {A} l : forall (d : dict A) k, is_dict d -> get (without d l) k = if in_dec string_dec k l then None else get d k.
Proof.
  unfold without. induction l as [|j l IH]; intros d k N; [reflexivity|]. cbn [fold_left]. rewrite (IH _ _ (remove_dict d j N)).
  destruct (in_dec string_dec k l) as [I|I]; destruct (in_dec string_dec k (j :: l)) as [I'|I']; try reflexivity.
  - exfalso. apply I'. right. exact I.
  - destruct I' as [->|I']; [apply get_remove_same; exact N|contradiction].
  - apply get_remove_other. intros ->. apply I'. left; reflexivity.
Qed.

(** ** iterating the titles *)
Lemma iterate_titles kw n ts : titles_ok kw n ts -> forall df, is_dict df -> get df "titles"%string = Some (Some (VStrs (repeat ""%string n))) ->
  get (defaultkeys df kw) "titles"%string = Some (Some (VStrs ts)) /\ (n <= List.length ts)%nat.
Proof.
  intros H df Nd D. rewrite (defaultkeys_get df kw "titles"%string Nd), D.
  destruct H as [[P L]|[[U|U] ->]].
  - unfold passed in P. rewrite P. auto.
  - rewrite U. split; [reflexivity|]. rewrite repeat_length. lia.
  - rewrite U. split; [reflexivity|]. rewrite repeat_length. lia.
Qed.

Lemma layout_value kw n : layout_ok kw n -> forall df, is_dict df -> get df "layout"%string = Some (Some (VPair (Z.of_nat n) 1)) ->
  exists v, get (defaultkeys df kw) "layout"%string = Some v /\ check_layout v n = Ok tt.
Proof.
  intros [Hn H] df Nd D. rewrite (defaultkeys_get df kw "layout"%string Nd), D.
  assert (E0 : check_layout (Some (VPair (Z.of_nat n) 1)) n = Ok tt).
  { unfold check_layout. rewrite Z.mul_1_r, Z.eqb_refl. cbn [negb]. destruct (Z.of_nat n <? 1)%Z eqn:E; [apply Z.ltb_lt in E; lia|]. reflexivity. }
  destruct H as [[U|U]|(a & b & P & Ha & Hb & HM)].
  - rewrite U. eexists. split; [reflexivity|exact E0].
  - rewrite U. eexists. split; [reflexivity|exact E0].
  - unfold passed in P. rewrite P. eexists. split; [reflexivity|]. unfold check_layout. rewrite HM, Z.eqb_refl. cbn [negb].
    destruct (a <? 1)%Z eqn:E1; [apply Z.ltb_lt in E1; lia|]. destruct (b <? 1)%Z eqn:E2; [apply Z.ltb_lt in E2; lia|]. reflexivity.
Qed.

Lemma combine_cut {A B} (a : list A) (b : list B) : (List.length a <= List.length b)%nat -> List.length (combine a b) = List.length a.
Proof. intros H. rewrite combine_length. lia. Qed.
Lemma nth_combine {A B} (x : A) (y : B) : forall a b i, (i < List.length a)%nat -> (i < List.length b)%nat -> nth i (combine a b) (x, y) = (nth i a x, nth i b y).
Proof. induction a as [|u a IH]; intros [|v b] [|i] Ha Hb; cbn in *; try lia; [reflexivity|]. apply IH; lia. Qed.

Definition ts_defaults (n : nat) : dict pv :=
  [("figsize", Some (VOther 0)); ("titles", Some (VStrs (repeat ""%string n))); ("ylabel", Some (VStr "")); ("layout", Some (VPair (Z.of_nat n) 1))]%string.
Lemma ts_defaults_dict n : is_dict (ts_defaults n).
Proof. unfold is_dict, keys, ts_defaults. cbn. repeat constructor; cbn; intuition discriminate. Qed.

Definition map_defaults (n : nat) : dict pv :=
  [("figsize", Some (VOther 0)); ("titles", Some (VStrs (repeat ""%string n))); ("label", Some (VStr ""));
   ("layout", Some (VPair (Z.of_nat n) 1)); ("cmap", Some (VStr "PuOr_r")); ("limiter", Some (VFun amax_abs));
   ("projection", Some (VStr "mollweide")); ("shading", Some (VStr "auto"))]%string.
Lemma map_defaults_dict n : is_dict (map_defaults n).
Proof. unfold is_dict, keys, map_defaults. cbn. repeat constructor; cbn; intuition discriminate. Qed.

Lemma default_present {A} (df kw : dict A) k : is_dict df -> get df k <> None -> exists v, get (defaultkeys df kw) k = Some v.
Proof. intros N H. rewrite (defaultkeys_get df kw k N). destruct (get kw k) as [[v|]|]; eauto; destruct (get df k); try contradiction; eauto. Qed.

Lemma passed_or_get {A} (df kw : dict A) k d v : is_dict df -> get df k = Some (Some d) -> passed_or kw k d v -> get (defaultkeys df kw) k = Some (Some v).
Proof. intros N G H. rewrite (defaultkeys_get df kw k N), G. destruct H as [P|[[U|U] ->]]; [rewrite P|rewrite U|rewrite U]; reflexivity. Qed.

(** ** Time series *)
Lemma plot_timeseries_form time args kw : is_dict kw -> let n := List.length args in let kw1 := defaultkeys (ts_defaults n) kw in
  exists layout titles ylabel, get kw1 "layout"%string = Some layout /\ get kw1 "titles"%string = Some titles /\ get kw1 "ylabel"%string = Some ylabel /\
  plot_timeseries time args kw = bind (check_layout layout n) (fun _ => bind (iterate titles) (fun ts =>
    Ok (mkfigure n (map (fun '(component, title) => mkpanel [time] component title ylabel (without kw1 ["figsize"; "layout"; "titles"; "ylabel"]%string)) (combine args ts))))).
Proof.
  intros N n kw1. assert (D := ts_defaults_dict n).
  destruct (default_present (ts_defaults n) kw "figsize"%string D) as [vf Hf]; [discriminate|].
  destruct (default_present (ts_defaults n) kw "layout"%string D) as [vl Hl]; [discriminate|].
  destruct (default_present (ts_defaults n) kw "titles"%string D) as [vt Ht]; [discriminate|].
  destruct (default_present (ts_defaults n) kw "ylabel"%string D) as [vy Hy]; [discriminate|].
  exists vl, vt, vy. split; [exact Hl|]. split; [exact Ht|]. split; [exact Hy|].
  unfold plot_timeseries. fold n. change (defaultkeys _ kw) with kw1. fold kw1 in Hf, Hl, Ht, Hy.
  rewrite (pop_some kw1 _ _ Hf). cbn [bind].
  rewrite (pop_some _ "layout"%string vl) by (rewrite get_remove_other by discriminate; exact Hl). cbn [bind].
  rewrite (pop_some _ "titles"%string vt) by (rewrite !get_remove_other by discriminate; exact Ht). cbn [bind].
  rewrite (pop_some _ "ylabel"%string vy) by (rewrite !get_remove_other by discriminate; exact Hy). cbn [bind].
  reflexivity.
Qed.

Lemma timeseries_ok time args kw ts : is_dict kw -> let n := List.length args in layout_ok kw n -> titles_ok kw n ts ->
  forall lab, passed_or kw "ylabel" (VStr "") lab ->
  exists fig, plot_timeseries time args kw = Ok fig /\ fg_axes fig = n /\ List.length (fg_panels fig) = n /\
  forall i, (i < n)%nat -> exists p, nth_error (fg_panels fig) i = Some p /\ pn_axes p = [time] /\ Some (pn_data p) = nth_error args i /\ Some (pn_title p) = nth_error ts i /\ pn_label p = Some lab /\
    forall k, get (pn_kw p) k = if in_dec string_dec k ["figsize"; "layout"; "titles"; "ylabel"]%string then None else get kw k.
Proof.
  intros N n L T lab HL. destruct (plot_timeseries_form time args kw N) as (vl & vt & vy & Hl & Ht & Hy & ->). fold n in Hl, Ht, Hy. fold n.
  destruct (layout_value kw n L (ts_defaults n) (ts_defaults_dict n) eq_refl) as (v & Hv & C). rewrite Hl in Hv. injection Hv as <-.
  destruct (iterate_titles kw n ts T (ts_defaults n) (ts_defaults_dict n) eq_refl) as (HT & Len). rewrite Ht in HT. injection HT as ->.
  assert (HY := passed_or_get (ts_defaults n) kw "ylabel"%string (VStr "") lab (ts_defaults_dict n) eq_refl HL). rewrite Hy in HY. injection HY as ->.
  rewrite C. cbn [bind iterate]. eexists. split; [reflexivity|]. cbn [fg_axes fg_panels]. split; [reflexivity|].
  split. { rewrite map_length. apply combine_cut. exact Len. }
  intros i Hi. destruct (nth_error args i) as [a|] eqn:Ea; [|apply nth_error_None in Ea; fold n in Ea; lia].
  destruct (nth_error ts i) as [t|] eqn:Et; [|apply nth_error_None in Et; lia].
  assert (Ec : nth_error (combine args ts) i = Some (a, t)).
  { rewrite (nth_error_nth' (combine args ts) (a, t)) by (rewrite combine_cut; assumption).
    rewrite nth_combine; [|exact Hi|lia]. rewrite (nth_error_nth args i a Ea), (nth_error_nth ts i t Et). reflexivity. }
  eexists. rewrite nth_error_map, Ec. cbn [option_map]. split; [reflexivity|]. cbn [pn_axes pn_data pn_title pn_label pn_kw].
  repeat split. intros k. rewrite without_get by (apply defaultkeys_dict; exact N).
  destruct (in_dec string_dec k _) as [I|I]; [reflexivity|]. rewrite (defaultkeys_get (ts_defaults n) kw k (ts_defaults_dict n)).
  assert (G : get (ts_defaults n) k = None). { apply get_none. cbn. cbn in I. intuition. }
  rewrite G. destruct (get kw k) as [[|]|]; reflexivity.
Qed.

Lemma bad_layout_timeseries time args kw a b : is_dict kw -> passed kw "layout" (VPair a b) -> (a * b <> Z.of_nat (List.length args))%Z ->
  plot_timeseries time args kw = Err ValueError.
Proof.
  intros N P H. destruct (plot_timeseries_form time args kw N) as (vl & vt & vy & Hl & Ht & Hy & ->).
  rewrite (defaultkeys_get _ kw _ (ts_defaults_dict _)) in Hl. unfold passed in P. rewrite P in Hl. injection Hl as <-.
  cbn [check_layout]. apply Z.eqb_neq in H. rewrite H. reflexivity.
Qed.

(** ** Maps *)
Lemma plot_maps_form theta phi args kw : is_dict kw -> let n := List.length args in let kw1 := defaultkeys (map_defaults n) kw in
  exists layout titles label limiter, get kw1 "layout"%string = Some layout /\ get kw1 "titles"%string = Some titles /\ get kw1 "label"%string = Some label /\ get kw1 "limiter"%string = Some limiter /\
  plot_maps theta phi args kw = bind (check_layout layout n) (fun _ => bind (iterate titles) (fun ts =>
    bind (draw_maps theta phi (match limiter with Some (VFun f) => f | _ => fun _ => Err TypeError end) label
      (without kw1 ["figsize"; "titles"; "label"; "limiter"; "projection"; "layout"]%string) (combine args ts)) (fun panels => Ok (mkfigure n panels)))).
Proof.
  intros N n kw1. assert (D := map_defaults_dict n).
  destruct (default_present (map_defaults n) kw "figsize"%string D) as [vf Hf]; [discriminate|].
  destruct (default_present (map_defaults n) kw "layout"%string D) as [vl Hl]; [discriminate|].
  destruct (default_present (map_defaults n) kw "titles"%string D) as [vt Ht]; [discriminate|].
  destruct (default_present (map_defaults n) kw "label"%string D) as [vy Hy]; [discriminate|].
  destruct (default_present (map_defaults n) kw "limiter"%string D) as [vm Hm]; [discriminate|].
  destruct (default_present (map_defaults n) kw "projection"%string D) as [vp Hp]; [discriminate|].
  exists vl, vt, vy, vm. split; [exact Hl|]. split; [exact Ht|]. split; [exact Hy|]. split; [exact Hm|].
  unfold plot_maps. fold n. change (defaultkeys _ kw) with kw1. fold kw1 in Hf, Hl, Ht, Hy, Hm, Hp.
  rewrite (pop_some kw1 _ _ Hf). cbn [bind].
  rewrite (pop_some _ "titles"%string vt) by (rewrite !get_remove_other by discriminate; exact Ht). cbn [bind].
  rewrite (pop_some _ "label"%string vy) by (rewrite !get_remove_other by discriminate; exact Hy). cbn [bind].
  rewrite (pop_some _ "limiter"%string vm) by (rewrite !get_remove_other by discriminate; exact Hm). cbn [bind].
  rewrite (pop_some _ "projection"%string vp) by (rewrite !get_remove_other by discriminate; exact Hp). cbn [bind].
  rewrite (pop_some _ "layout"%string vl) by (rewrite !get_remove_other by discriminate; exact Hl). cbn [bind].
  reflexivity.
Qed.

Lemma bad_layout_maps theta phi args kw a b : is_dict kw -> passed kw "layout" (VPair a b) -> (a * b <> Z.of_nat (List.length args))%Z ->
  plot_maps theta phi args kw = Err ValueError.
Proof.
  intros N P H. destruct (plot_maps_form theta phi args kw N) as (vl & vt & vy & vm & Hl & Ht & Hy & Hm & ->).
  rewrite (defaultkeys_get _ kw _ (map_defaults_dict _)) in Hl. unfold passed in P. rewrite P in Hl. injection Hl as <-.
  cbn [check_layout]. apply Z.eqb_neq in H. rewrite H. reflexivity.
Qed.

(** the keywords of the loop after the first component *)
Definition with_limits (kw : dict pv) (v : option R) : dict pv := fst (setdefault (fst (setdefault kw "vmax" (Some (VNum v)))) "vmin" (Some (VNum (negate v)))).

Lemma with_limits_get kw v k : get (with_limits kw v) k =
  if (k =? "vmin")%string then limit kw "vmin" (negate v) else if (k =? "vmax")%string then limit kw "vmax" v else get kw k.
Proof.
  unfold with_limits, limit. rewrite !setdefault_get. destruct (k =? "vmin")%string eqn:E1.
  - cbn [String.eqb Ascii.eqb Bool.eqb]. destruct (get kw "vmin"%string); reflexivity.
  - destruct (k =? "vmax")%string eqn:E2; [|reflexivity]. apply String.eqb_eq in E2. subst k. destruct (get kw "vmax"%string); reflexivity.
Qed.

Lemma with_limits_stable kw v w : with_limits (with_limits kw v) w = with_limits kw v.
Proof.
  unfold with_limits at 1. unfold setdefault at 2. rewrite with_limits_get. cbn [String.eqb Ascii.eqb Bool.eqb]. unfold limit.
  destruct (get kw "vmax"%string); cbn [fst]; unfold setdefault; rewrite with_limits_get; cbn [String.eqb Ascii.eqb Bool.eqb]; unfold limit; destruct (get kw "vmin"%string); reflexivity.
Qed.

Lemma draw_maps_more theta phi lim label kw v : forall l, (forall a t, In (a, t) l -> exists w, lim a = Ok w) ->
  draw_maps theta phi lim label (with_limits kw v) l = Ok (map (fun '(a, t) => mkpanel [theta; phi] a t label (with_limits kw v)) l).
Proof.
  induction l as [|[a t] l IH]; intros H; [reflexivity|]. cbn [draw_maps]. destruct (H a t (or_introl eq_refl)) as [w Hw]. rewrite Hw. cbn [bind].
  change (fst (setdefault (fst (setdefault (with_limits kw v) "vmax" (Some (VNum w)))) "vmin" (Some (VNum (negate w))))) with (with_limits (with_limits kw v) w).
  rewrite with_limits_stable, IH; [reflexivity|]. intros a' t' I. apply (H a' t'). right; exact I.
Qed.

Lemma draw_maps_all theta phi lim label kw l : (forall a t, In (a, t) l -> exists w, lim a = Ok w) ->
  match l with [] => draw_maps theta phi lim label kw l = Ok [] | (a, _) :: _ => forall v, lim a = Ok v ->
    draw_maps theta phi lim label kw l = Ok (map (fun '(a, t) => mkpanel [theta; phi] a t label (with_limits kw v)) l) end.
Proof.
  destruct l as [|[a t] l]; [reflexivity|]. intros H v Hv. cbn [draw_maps]. rewrite Hv. cbn [bind].
  change (fst (setdefault (fst (setdefault kw "vmax" (Some (VNum v)))) "vmin" (Some (VNum (negate v))))) with (with_limits kw v).
  rewrite draw_maps_more; [reflexivity|]. intros a' t' I. apply (H a' t'). right; exact I.
Qed.

Lemma maps_ok theta phi args kw ts : is_dict kw -> let n := List.length args in layout_ok kw n -> titles_ok kw n ts ->
  forall lab lim, passed_or kw "label" (VStr "") lab -> passed_or kw "limiter" (VFun amax_abs) (VFun lim) ->
  (forall a, In a args -> exists v, lim a = Ok v) -> forall a0 v0, nth_error args 0 = Some a0 -> lim a0 = Ok v0 ->
  exists fig, plot_maps theta phi args kw = Ok fig /\ fg_axes fig = n /\ List.length (fg_panels fig) = n /\
  forall i, (i < n)%nat -> exists p, nth_error (fg_panels fig) i = Some p /\ pn_axes p = [theta; phi] /\ Some (pn_data p) = nth_error args i /\ Some (pn_title p) = nth_error ts i /\ pn_label p = Some lab /\
    get (pn_kw p) "vmax"%string = limit kw "vmax" v0 /\ get (pn_kw p) "vmin"%string = limit kw "vmin" (negate v0) /\
    (forall c, passed_or kw "cmap" (VStr "PuOr_r") c -> get (pn_kw p) "cmap"%string = Some (Some c)) /\
    (forall c, passed_or kw "shading" (VStr "auto") c -> get (pn_kw p) "shading"%string = Some (Some c)) /\
    forall k, ~ In k ["vmax"; "vmin"; "cmap"; "shading"]%string -> get (pn_kw p) k = if in_dec string_dec k ["figsize"; "titles"; "label"; "limiter"; "projection"; "layout"]%string then None else get kw k.
Proof.
  intros N n L T lab lim HL HM HA a0 v0 H0 HV. destruct (plot_maps_form theta phi args kw N) as (vl & vt & vy & vm & Hl & Ht & Hy & Hm & ->). fold n in Hl, Ht, Hy, Hm. fold n.
  assert (D := map_defaults_dict n).
  destruct (layout_value kw n L (map_defaults n) D eq_refl) as (v & Hv & C). rewrite Hl in Hv. injection Hv as <-.
  destruct (iterate_titles kw n ts T (map_defaults n) D eq_refl) as (HT & Len). rewrite Ht in HT. injection HT as ->.
  assert (HY := passed_or_get (map_defaults n) kw "label"%string (VStr "") lab D eq_refl HL). rewrite Hy in HY. injection HY as ->.
  assert (HF := passed_or_get (map_defaults n) kw "limiter"%string (VFun amax_abs) (VFun lim) D eq_refl HM). rewrite Hm in HF. injection HF as ->.
  rewrite C. cbn [bind iterate].
  set (kw2 := without (defaultkeys (map_defaults n) kw) _).
  assert (G2 : forall k, get kw2 k = if in_dec string_dec k ["figsize"; "titles"; "label"; "limiter"; "projection"; "layout"]%string then None else get (defaultkeys (map_defaults n) kw) k).
  { intros k. unfold kw2. apply without_get. apply defaultkeys_dict; exact N. }
  assert (DR : draw_maps theta phi lim (Some lab) kw2 (combine args ts) = Ok (map (fun '(a, t) => mkpanel [theta; phi] a t (Some lab) (with_limits kw2 v0)) (combine args ts))).
  { assert (Hall : forall a t, In (a, t) (combine args ts) -> exists w, lim a = Ok w). { intros a t I. apply in_combine_l in I. exact (HA a I). }
    assert (X := draw_maps_all theta phi lim (Some lab) kw2 (combine args ts) Hall).
    destruct args as [|b args]; [discriminate|]. cbn in H0. injection H0 as ->. destruct ts as [|t ts]; [unfold n in Len; cbn in Len; lia|]. cbn [combine] in X |- *. exact (X v0 HV). }
  rewrite DR. cbn [bind]. eexists. split; [reflexivity|]. cbn [fg_axes fg_panels]. split; [reflexivity|].
  split. { rewrite map_length. apply combine_cut. exact Len. }
  intros i Hi. destruct (nth_error args i) as [a|] eqn:Ea; [|apply nth_error_None in Ea; fold n in Ea; lia].
  destruct (nth_error ts i) as [t|] eqn:Et; [|apply nth_error_None in Et; lia].
  assert (Ec : nth_error (combine args ts) i = Some (a, t)).
  { rewrite (nth_error_nth' (combine args ts) (a, t)) by (rewrite combine_cut; assumption).
    rewrite nth_combine; [|exact Hi|lia]. rewrite (nth_error_nth args i a Ea), (nth_error_nth ts i t Et). reflexivity. }
  eexists. rewrite nth_error_map, Ec. cbn [option_map]. split; [reflexivity|]. cbn [pn_axes pn_data pn_title pn_label pn_kw].
  split; [reflexivity|]. split; [reflexivity|]. split; [reflexivity|]. split; [reflexivity|].
  assert (U : forall k, get (map_defaults n) k = None -> get (defaultkeys (map_defaults n) kw) k = get kw k).
  { intros k G. rewrite (defaultkeys_get _ kw k D), G. destruct (get kw k) as [[|]|]; reflexivity. }
  split. { rewrite with_limits_get. cbn [String.eqb Ascii.eqb Bool.eqb]. unfold limit. rewrite G2. cbn -[get defaultkeys]. rewrite U by reflexivity. reflexivity. }
  split. { rewrite with_limits_get. cbn [String.eqb Ascii.eqb Bool.eqb]. unfold limit. rewrite G2. cbn -[get defaultkeys]. rewrite U by reflexivity. reflexivity. }
  split. { intros c Hc. rewrite with_limits_get. cbn [String.eqb Ascii.eqb Bool.eqb]. rewrite G2. cbn -[get defaultkeys]. exact (passed_or_get (map_defaults n) kw "cmap"%string (VStr "PuOr_r") c D eq_refl Hc). }
  split. { intros c Hc. rewrite with_limits_get. cbn [String.eqb Ascii.eqb Bool.eqb]. rewrite G2. cbn -[get defaultkeys]. exact (passed_or_get (map_defaults n) kw "shading"%string (VStr "auto") c D eq_refl Hc). }
  intros k NI. cbn in NI. rewrite with_limits_get.
  destruct (k =? "vmin")%string eqn:E1; [apply String.eqb_eq in E1; subst; exfalso; tauto|].
  destruct (k =? "vmax")%string eqn:E2; [apply String.eqb_eq in E2; subst; exfalso; tauto|].
  rewrite G2. destruct (in_dec string_dec k _) as [I|I]; [reflexivity|]. apply U. apply get_none. cbn. cbn in I. intuition.
Qed.

(** ** The default limiter *)
Lemma fold_max : forall l a m, fold_left (fun acc v => match acc, v with Some a, Some u => Some (Rmax a (Rabs u)) | _, _ => None end) l (Some a) = Some m ->
  a <= m /\ (forall v, In v l -> exists u, v = Some u /\ Rabs u <= m) /\ (m = a \/ exists u, In (Some u) l /\ Rabs u = m).
Proof.
  induction l as [|v l IH]; intros a m H; cbn in H.
  - injection H as ->. split; [lra|]. split; [intros v []|left; reflexivity].
  - destruct v as [u|].
    + destruct (IH _ _ H) as (H1 & H2 & H3). split; [pose proof (Rmax_l a (Rabs u)); lra|]. split.
      * intros v [<-|I]; [exists u; split; [reflexivity|pose proof (Rmax_r a (Rabs u)); lra]|exact (H2 v I)].
      * destruct H3 as [->|(w & I & W)]; [|right; exists w; split; [right; exact I|exact W]].
        unfold Rmax. destruct (Rle_dec a (Rabs u)); [right; exists u; split; [left; reflexivity|reflexivity]|left; reflexivity].
    + exfalso. clear IH. induction l as [|v l IH]; cbn in H; [discriminate|]. exact (IH H).
Qed.

Lemma fold_some : forall l a, (forall v, In v l -> v <> None) -> exists m, fold_left (fun acc v => match acc, v with Some a, Some u => Some (Rmax a (Rabs u)) | _, _ => None end) l (Some a) = Some m.
Proof.
  induction l as [|v l IH]; intros a H; cbn; [eauto|]. destruct v as [u|]; [|exfalso; exact (H None (or_introl eq_refl) eq_refl)].
  apply IH. intros v I. apply H. right; exact I.
Qed.

Lemma in_elems {A} (x : nd A) v : In v (elems x) <-> exists i, valid (sh x) i /\ at_ x i = v.
Proof.
  unfold elems. rewrite in_map_iff. split.
  - intros (i & E & I). exists i. split; [|exact E]. apply indices_valid. exact I.
  - intros (i & V & E). exists i. split; [exact E|]. apply indices_valid. exact V.
Qed.

Lemma default_limit x : (exists i, valid (sh x) i) -> (forall i, valid (sh x) i -> at_ x i <> None) -> exists m, amax_abs x = Ok (Some m) /\ largest_abs x m.
Proof.
  intros (i0 & V0) H. unfold amax_abs. assert (NE : In (at_ x i0) (elems x)) by (apply in_elems; eauto).
  assert (HS : forall v, In v (elems x) -> v <> None). { intros v I. apply in_elems in I. destruct I as (i & V & <-). exact (H i V). }
  destruct (fold_some (elems x) 0 HS) as [m Hm]. exists m.
  destruct (elems x) as [|e l] eqn:El; [destruct NE|]. rewrite <- El in *. rewrite Hm. split; [reflexivity|].
  destruct (fold_max _ _ _ Hm) as (P & Q & S). split.
  - intros i V. destruct (Q (at_ x i)) as (u & Eu & Lu); [apply in_elems; eauto|]. eauto.
  - destruct S as [->|(u & I & U)].
    + destruct (Q (at_ x i0) NE) as (u & Eu & Lu). exists i0, u. split; [exact V0|]. split; [exact Eu|]. pose proof (Rabs_pos u). lra.
    + apply in_elems in I. destruct I as (i & V & Ei). eauto.
Qed.

(** ** linspace *)
Lemma linspace_at a b n i : (i < n)%nat -> at_ (linspace a b n) [i] = a + INR i * ((b - a) / INR (n - 1)).
Proof.
  intros H. unfold linspace, vec. cbn [at_]. set (f := fun i => a + INR i * ((b - a) / INR (n - 1))).
  rewrite (nth_indep _ 0 (f 0%nat)) by (rewrite map_length, seq_length; exact H). rewrite map_nth, seq_nth by exact H. reflexivity.
Qed.

Lemma linspace_equidistant a b n : (2 <= n)%nat -> equidistant (linspace a b n) a b n.
Proof.
  intros H. assert (P : INR (n - 1) <> 0) by (apply not_0_INR; lia).
  split; [unfold linspace, vec; cbn [sh]; rewrite map_length, seq_length; reflexivity|].
  split; [rewrite linspace_at by lia; cbn; lra|]. split; [rewrite linspace_at by lia; field; exact P|].
  intros i Hi. rewrite !linspace_at by lia. rewrite plus_INR. cbn. field; exact P.
Qed.

(** ** Units *)
Lemma print_Z_inj a b : print_Z a = print_Z b -> a = b.
Proof.
  intros H. destruct (parse_print_Z a) as (p & P1 & P2), (parse_print_Z b) as (q & Q1 & Q2). rewrite H, Q1 in P1. injection P1 as ->.
  rewrite Q2 in P2. unfold QArith_base.Qeq in P2. cbn in P2. lia.
Qed.

Lemma of_list_inj a b : string_of_list_ascii a = string_of_list_ascii b -> a = b.
Proof. intros H. rewrite <- (list_ascii_of_string_of_list_ascii a), H. apply list_ascii_of_string_of_list_ascii. Qed.

Lemma str_app_cancel s : forall a b, (s ++ a = s ++ b)%string -> a = b.
Proof. induction s as [|c s IH]; intros a b H; [exact H|]. apply IH. injection H. auto. Qed.
Lemma str_length_app a b : String.length (a ++ b)%string = (String.length a + String.length b)%nat.
Proof. induction a as [|c a IH]; cbn; [reflexivity|]. rewrite IH. reflexivity. Qed.
Lemma str_cancel_end s : forall a b, (a ++ s = b ++ s)%string -> a = b.
Proof.
  induction a as [|c a IH]; intros [|e b] H; cbn in H; [reflexivity| | |].
  - exfalso. apply (f_equal String.length) in H. cbn in H. rewrite str_length_app in H. lia.
  - exfalso. apply (f_equal String.length) in H. cbn in H. rewrite str_length_app in H. lia.
  - injection H as -> H. rewrite (IH b H). reflexivity.
Qed.

Lemma units_high d : d <> 0%Z -> d <> 1%Z -> gauss_units (Some d) = ("$\mathrm{nT}/\mathrm{yr}^{" ++ str_int d ++ "}$")%string.
Proof. intros H0 H1. unfold gauss_units. apply Z.eqb_neq in H0, H1. rewrite H0, H1. reflexivity. Qed.

Lemma units_inj a b : gauss_units (Some a) = gauss_units (Some b) -> a = b.
Proof.
  intros H. destruct (Z.eq_dec a 0) as [->|A0]; [|destruct (Z.eq_dec a 1) as [->|A1]];
  (destruct (Z.eq_dec b 0) as [->|B0]; [|destruct (Z.eq_dec b 1) as [->|B1]]); try reflexivity;
  rewrite ?(units_high a), ?(units_high b) in H by assumption; try discriminate H.
  apply str_app_cancel, str_cancel_end in H. exact (print_Z_inj _ _ (of_list_inj _ _ H)).
Qed.
