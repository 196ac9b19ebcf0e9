(** Theorems about the plotting functions (C69, C70, C71, C97 - C100).

    A figure is the list of its panels (pn_axes: coordinates, pn_data: values
    with NaN = None, pn_title, pn_label: label of the vertical axis or the
    colour bar, pn_kw: the keywords passed to Matplotlib).  Keyword
    dictionaries: [get kw k] is None if k is not there, Some None for k=None. *)
From Coq Require Import Reals List Arith ZArith String Ascii Bool Lia Lra.
From Coquelicot Require Import Coquelicot.
From Verif Require Import M_Prelude Spec_Field Spec_PP M_ND M_SynthArr M_PP M_Spectrum M_Model M_Text M_Coord M_Chaos M_Plot Spec_Plot P_Model P_Plot P_Plot2 P_Plot3 P_Plot4.
Import ListNotations.
Open Scope R_scope.

Local Notation degree_model x K D c s := (model_init (Some x) None (Some (mkc3 K (List.length x - 1) D c)) (Some (src_name s))).

(** ** C69 *)
Theorem C69_user_values_win_defaults_fill : forall A (defaults keywords : dict A) k, is_dict defaults ->
  get (defaultkeys defaults keywords) k =
    match get keywords k with
    | Some (Some v) => Some (Some v)                       (* chosen by the user *)
    | other => match get defaults k with Some d => Some d | None => other end
    end.
Proof. intros A df kw k. exact (defaultkeys_get df kw k). Qed.

Theorem C69_result_is_a_dictionary : forall A (defaults keywords : dict A), is_dict keywords -> is_dict (defaultkeys defaults keywords).
Proof. intros A df kw. exact (defaultkeys_dict df kw). Qed.

Example C69_case : let defaults := [("a", Some 1%nat); ("b", Some 2%nat); ("c", None)]%string in let kw := [("b", None); ("a", Some 7%nat); ("d", None)]%string in
  is_dict defaults /\ defaultkeys defaults kw = [("b", Some 2%nat); ("a", Some 7%nat); ("d", None); ("c", None)]%string.
Proof. cbn. split; [|reflexivity]. unfold is_dict, keys. cbn. repeat constructor; cbn; intuition discriminate. Qed.

(** ** C70 *)
(** Afterwards the array of the caller has NaN in place of every zero and is
    otherwise unchanged: unchanged altogether if no entry is zero. *)
Theorem C70_array_after_plotting : forall S kw i, is_dict kw -> sh S <> [] -> let S' := fst (plot_power_spectrum S kw) in
  sh S' = sh S /\ (at_ S i <> Some 0 -> at_ S' i = at_ S i) /\ (at_ S i = Some 0 -> at_ S' i = None).
Proof.
  intros S kw i D NE S'. destruct (spectrum_after S kw D NE) as (H1 & H2). split; [exact H1|]. unfold S'. rewrite H2.
  split; intros H; [|rewrite H; destruct (Req_EM_T 0 0); congruence]. destruct (at_ S i) as [v|]; [|reflexivity]. destruct (Req_EM_T v 0); [congruence|reflexivity].
Qed.

Theorem C70_data_unchanged_refuted : exists S kw fig, plot_power_spectrum S kw = (fst (plot_power_spectrum S kw), Ok fig) /\
  exists i, at_ S i = Some 0 /\ at_ (fst (plot_power_spectrum S kw)) i = None.
Proof.
  exists (vec None [Some 1; Some 0; Some 2]), []. eexists. split; [reflexivity|]. exists [1%nat]. split; [reflexivity|].
  assert (D : @is_dict pv []) by constructor. destruct (C70_array_after_plotting (vec None [Some 1; Some 0; Some 2]) [] [1%nat] D ltac:(discriminate)) as (_ & _ & H). apply H. reflexivity.
Qed.

(** What is shown: the values over the degrees 1, 2, ... *)
Theorem C70_spectrum_shown : forall S kw title lab N l, is_dict kw -> sh S = N :: l -> passed_or kw "titles" (VStr "") (VStr title) -> passed_or kw "ylabel" (VStr "") lab ->
  exists p, snd (plot_power_spectrum S kw) = Ok (mkfigure 1 [p]) /\ pn_data p = fst (plot_power_spectrum S kw) /\ pn_title p = title /\ pn_label p = Some lab /\
  exists g, pn_axes p = [g] /\ sh g = [N] /\ (forall n, (n < N)%nat -> at_ g [n] = INR (n + 1)) /\
  forall k, get (pn_kw p) k = if in_dec string_dec k ["figsize"; "titles"; "ylabel"]%string then None else get kw k.
Proof. exact spectrum_ok. Qed.

Example C70_case : is_dict [("titles", Some (VStr "a"))]%string /\ passed_or [("titles", Some (VStr "a"))]%string "titles" (VStr "") (VStr "a") /\
  passed_or [("titles", Some (VStr "a"))]%string "ylabel" (VStr "") (VStr "").
Proof. split; [unfold is_dict, keys; cbn; repeat constructor; cbn; tauto|]. split; [left; reflexivity|right; split; [left; reflexivity|reflexivity]]. Qed.

(** ** C71 *)
Theorem C71_units : gauss_units None = "nT"%string /\ gauss_units (Some 0%Z) = "nT"%string /\
  gauss_units (Some 1%Z) = "$\mathrm{{nT}}/\mathrm{{yr}}$"%string /\
  forall d, d <> 0%Z -> d <> 1%Z -> gauss_units (Some d) = ("$\mathrm{nT}/\mathrm{yr}^{" ++ str_int d ++ "}$")%string.
Proof. split; [reflexivity|]. split; [reflexivity|]. split; [reflexivity|]. exact units_high. Qed.

Theorem C71_labels_differ : forall a b, gauss_units (Some a) = gauss_units (Some b) -> a = b.
Proof. exact units_inj. Qed.

(** The label documented for the first derivative has single braces. *)
Theorem C71_documented_label_refuted : gauss_units (Some 1%Z) <> "$\mathrm{nT}/\mathrm{yr}$"%string.
Proof. discriminate. Qed.

Example C71_case : gauss_units (Some 12%Z) = "$\mathrm{nT}/\mathrm{yr}^{12}$"%string.
Proof. reflexivity. Qed.

(** ** C97: every component gets its panel *)
Theorem C97_timeseries_shows_every_component : forall time args kw ts lab, is_dict kw -> let n := List.length args in
  layout_ok kw n -> titles_ok kw n ts -> passed_or kw "ylabel" (VStr "") lab ->
  exists fig, plot_timeseries time args kw = Ok fig /\ fg_axes fig = n /\ List.length (fg_panels fig) = n /\
  forall i, (i < n)%nat -> exists p, nth_error (fg_panels fig) i = Some p /\ pn_axes p = [time] /\ Some (pn_data p) = nth_error args i /\ Some (pn_title p) = nth_error ts i /\ pn_label p = Some lab /\
    forall k, get (pn_kw p) k = if in_dec string_dec k ["figsize"; "layout"; "titles"; "ylabel"]%string then None else get kw k.
Proof. intros time args kw ts lab D n L T H. exact (timeseries_ok time args kw ts D L T lab H). Qed.

Theorem C97_maps_show_every_component : forall theta phi args kw ts lab lim a0 v0, is_dict kw -> let n := List.length args in
  layout_ok kw n -> titles_ok kw n ts -> passed_or kw "label" (VStr "") lab -> passed_or kw "limiter" (VFun amax_abs) (VFun lim) ->
  (forall a, In a args -> exists v, lim a = Ok v) -> nth_error args 0 = Some a0 -> lim a0 = Ok v0 ->
  exists fig, plot_maps theta phi args kw = Ok fig /\ fg_axes fig = n /\ List.length (fg_panels fig) = n /\
  forall i, (i < n)%nat -> exists p, nth_error (fg_panels fig) i = Some p /\ pn_axes p = [theta; phi] /\ Some (pn_data p) = nth_error args i /\ Some (pn_title p) = nth_error ts i /\ pn_label p = Some lab /\
    get (pn_kw p) "vmax"%string = limit kw "vmax" v0 /\ get (pn_kw p) "vmin"%string = limit kw "vmin" (negate v0) /\
    (forall c, passed_or kw "cmap" (VStr "PuOr_r") c -> get (pn_kw p) "cmap"%string = Some (Some c)) /\
    (forall c, passed_or kw "shading" (VStr "auto") c -> get (pn_kw p) "shading"%string = Some (Some c)) /\
    forall k, ~ In k ["vmax"; "vmin"; "cmap"; "shading"]%string ->
      get (pn_kw p) k = if in_dec string_dec k ["figsize"; "titles"; "label"; "limiter"; "projection"; "layout"]%string then None else get kw k.
Proof. intros theta phi args kw ts lab lim a0 v0 D n L T H1 H2 H3 H4 H5. exact (maps_ok theta phi args kw ts D L T lab lim H1 H2 H3 a0 v0 H4 H5). Qed.

Theorem C97_wrong_layout_is_reported : forall time theta phi args kw a b, is_dict kw -> passed kw "layout" (VPair a b) -> (a * b <> Z.of_nat (List.length args))%Z ->
  plot_timeseries time args kw = Err ValueError /\ plot_maps theta phi args kw = Err ValueError.
Proof. intros time theta phi args kw a b D P H. split; [exact (bad_layout_timeseries time args kw a b D P H)|exact (bad_layout_maps theta phi args kw a b D P H)]. Qed.

(** One title for two components: no exception, the second component is missing. *)
Theorem C97_too_few_titles_refuted : exists time args kw fig, is_dict kw /\ List.length args = 2%nat /\ plot_timeseries time args kw = Ok fig /\ fg_axes fig = 2%nat /\ List.length (fg_panels fig) = 1%nat.
Proof.
  exists (vec 0 [0; 1]), [vec None [Some 1; Some 2]; vec None [Some 3; Some 4]], [("titles", Some (VStrs ["only one"]))]%string. eexists.
  split; [unfold is_dict; cbn; repeat constructor; intuition|]. split; [reflexivity|]. split; [reflexivity|]. split; reflexivity.
Qed.

(** A string as titles gives every panel one character. *)
Theorem C97_title_string_refuted : exists time args kw fig, is_dict kw /\ plot_timeseries time args kw = Ok fig /\ map pn_title (fg_panels fig) = ["S"; "V"]%string.
Proof.
  exists (vec 0 [0; 1]), [vec None [Some 1; Some 2]; vec None [Some 3; Some 4]], [("titles", Some (VStr "SV"))]%string. eexists.
  split; [unfold is_dict; cbn; repeat constructor; intuition|]. split; reflexivity.
Qed.

Example C97_hypotheses : let kw := [("titles", Some (VStrs ["a"; "b"])); ("layout", Some (VPair 1 2)); ("color", Some (VStr "k"))]%string in
  is_dict kw /\ layout_ok kw 2 /\ titles_ok kw 2 ["a"; "b"]%string /\ passed_or kw "ylabel" (VStr "") (VStr "").
Proof.
  split; [unfold is_dict, keys; cbn; repeat constructor; cbn; intuition discriminate|]. split; [split; [lia|right; exists 1%Z, 2%Z; repeat split; lia]|].
  split; [left; split; [reflexivity|cbn; lia]|right; split; [left; reflexivity|reflexivity]].
Qed.

(** ** C98: colour limits *)
(** The default limiter is the largest absolute value. *)
Theorem C98_default_limit : forall x, (exists i, valid (sh x) i) -> (forall i, valid (sh x) i -> at_ x i <> None) -> exists m, amax_abs x = Ok (Some m) /\ largest_abs x m.
Proof. exact default_limit. Qed.

Example C98_case : let x := vec None [Some 1; Some (-7); Some 3] in (exists i, valid (sh x) i) /\ (forall i, valid (sh x) i -> at_ x i <> None) /\ largest_abs x 7.
Proof.
  intros x. assert (V : forall i, valid (sh x) i -> i = [0%nat] \/ i = [1%nat] \/ i = [2%nat]).
  { intros [|k [|k' l]] H; inversion H as [|? ? ? ? Hk Hr]; subst; [|inversion Hr]. cbn in Hk.
    destruct k as [|[|[|k]]]; [auto|auto|auto|lia]. }
  split; [exists [0%nat]; repeat constructor|]. split; [intros i H; destruct (V i H) as [-> |[-> | ->]]; discriminate|].
  split.
  - intros i H. destruct (V i H) as [-> |[-> | ->]]; eexists; (split; [reflexivity|]); [rewrite Rabs_pos_eq; lra|rewrite Rabs_left1; lra|rewrite Rabs_pos_eq; lra].
  - exists [1%nat], (-7). split; [repeat constructor|]. split; [reflexivity|]. rewrite Rabs_left1; lra.
Qed.

(** The limits of all panels are those of the first component: values of the
    other panels may lie beyond them. *)
Theorem C98_limits_cover_each_panel_refuted : exists theta phi args fig p m v i, plot_maps theta phi args [] = Ok fig /\ In p (fg_panels fig) /\
  get (pn_kw p) "vmax"%string = Some (Some (VNum (Some m))) /\ valid (sh (pn_data p)) i /\ at_ (pn_data p) i = Some v /\ m < Rabs v.
Proof.
  set (args := [vec None [Some 1]; vec None [Some 5]]).
  destruct (C97_maps_show_every_component (scalar 0) (scalar 0) args [] (repeat ""%string 2) (VStr "") amax_abs (vec None [Some 1]) (Some (Rmax 0 (Rabs 1)))) as (fig & P & _ & _ & H).
  - constructor.
  - split; [cbn; lia|left; left; reflexivity].
  - right. split; [left; reflexivity|reflexivity].
  - right. split; [left; reflexivity|reflexivity].
  - right. split; [left; reflexivity|reflexivity].
  - intros a [<-|[<-|[]]]; eexists; reflexivity.
  - reflexivity.
  - reflexivity.
  - destruct (H 1%nat ltac:(cbn; lia)) as (p & I & _ & E1 & _ & _ & E2 & _). cbn in E1. injection E1 as E1.
    exists (scalar 0), (scalar 0), args, fig, p, (Rmax 0 (Rabs 1)), 5, [0%nat]. split; [exact P|]. split; [exact (nth_error_In _ _ I)|]. split; [exact E2|].
    rewrite E1. split; [constructor; [cbn; lia|constructor]|]. split; [reflexivity|]. rewrite !Rabs_pos_eq by lra. rewrite Rmax_right by lra. lra.
Qed.

(** ** C99: plots of a model show the model *)
Theorem C99_timeseries_of_a_model : forall oob a m radius theta phi kw N nm d x e ts F lab,
  is_dict kw -> m_nmax m = Some N -> b_breaks (m_base m) = Some x -> x <> [] ->
  passed_or kw "nmax" (VInt N) (VInt nm) -> passed_or kw "deriv" (VInt 0) (VInt d) ->
  unset kw "extrapolate" /\ e = XNone \/ (exists s, passed kw "extrapolate" (VStr s) /\ e = XStr s) \/ (exists z, passed kw "extrapolate" (VInt z) /\ e = XInt z) ->
  passed_or kw "titles" (VStrs ["$B_r$"; "$B_\theta$"; "$B_\phi$"]%string) (VStrs ts) -> (3 <= List.length ts)%nat -> layout_ok kw 3 ->
  let grid := linspace (nth 0 x 0) (last x 0) 500 in
  model_values oob a m grid radius theta phi (Some (Z.to_nat nm)) (Some (Z.to_nat d)) None e = Ok F ->
  get kw "ylabel"%string = None /\ lab = VStr (gauss_units (Some d)) \/ get kw "ylabel"%string = Some (Some lab) ->
  equidistant grid (nth 0 x 0) (last x 0) 500 /\
  exists fig, model_plot_timeseries oob a m radius theta phi kw = Ok fig /\ shows fig [grid] F ts lab.
Proof. intros. split; [apply linspace_equidistant; lia|]. eapply timeseries_shows; eassumption. Qed.

(** Together with the meaning of synth_values: the panels show the d-th time
    derivative of the field at 500 equidistant times from the first break to
    the last. *)
Theorem C99_timeseries_shows_the_field : forall oob a s x K D N0 c r t p kw nm d ts lab,
  good_breaks x -> (1 <= K)%nat -> (1 <= N0)%nat -> (N0 * (N0 + 2) <= D)%nat -> (D < (N0 + 1) * (N0 + 3))%nat ->
  0 <= t <= 180 -> is_dict kw -> (1 <= nm)%nat ->
  passed_or kw "nmax" (VInt (Z.of_nat N0)) (VInt (Z.of_nat nm)) -> passed_or kw "deriv" (VInt 0) (VInt (Z.of_nat d)) -> unset kw "extrapolate" ->
  passed_or kw "titles" (VStrs ["$B_r$"; "$B_\theta$"; "$B_\phi$"]%string) (VStrs ts) -> (3 <= List.length ts)%nat -> layout_ok kw 3 ->
  get kw "ylabel"%string = None /\ lab = VStr (gauss_units (Some (Z.of_nat d))) \/ get kw "ylabel"%string = Some (Some lab) ->
  let B comp N i r t p day := piece_field oob a s x K c comp N i r t p day in
  exists fig F g, equidistant g (first_break x) (last_break x) 500 /\
    model_plot_timeseries oob a (degree_model x K D c s) (scalar r) (scalar t) (scalar p) kw = Ok fig /\ shows fig [g] F ts lab /\ o_sh F = [500%nat] /\
    forall k i, (k < 500)%nat -> in_interval x i (at_ g [k]) ->
      let N := Nat.min nm N0 in let y := at_ g [k] / 365.25 in
      exists vr vt vp,
      o_r F [k] = Some vr /\ is_derive_n (fun year => B f_r N i r t p (365.25 * year)) d y vr /\
      o_t F [k] = Some vt /\ is_derive_n (fun year => B f_t N i r t p (365.25 * year)) d y vt /\
      o_p F [k] = Some vp /\ is_derive_n (fun year => B f_p N i r t p (365.25 * year)) d y vp.
Proof.
  intros oob a s x K D N0 c r t p kw nm d ts lab G HK H1 H2 H3 H4 H5 H6 H7 H8 H9 H10 H11 H12 H13 B.
  destruct (timeseries_content oob a s x K D N0 c G HK H1 H2 H3 r t p kw nm d ts lab H4 H5 H6 H7 H8 H9 H10 H11 H12 H13) as (fig & F & Q).
  exists fig, F. eexists. split; [apply linspace_equidistant; lia|]. exact Q.
Qed.

(** The maps show the field on 320 colatitudes from 1 to 179 and 640
    longitudes from -180 to 180 degrees, with one colour scale for all. *)
Theorem C99_maps_show_the_field : forall oob a s x K D N0 c t r kw nm d ts lab,
  good_breaks x -> (1 <= K)%nat -> (1 <= N0)%nat -> (N0 * (N0 + 2) <= D)%nat -> (D < (N0 + 1) * (N0 + 3))%nat ->
  ~ outside x t -> is_dict kw -> (1 <= nm)%nat ->
  passed_or kw "nmax" (VInt (Z.of_nat N0)) (VInt (Z.of_nat nm)) -> passed_or kw "deriv" (VInt 0) (VInt (Z.of_nat d)) -> unset kw "limiter" -> layout_ok kw 3 ->
  (let degree := Z.of_nat nm in get kw "titles"%string = None /\ ts = [map_title "$B_r$" degree (Z.of_nat d); map_title "$B_\theta$" degree (Z.of_nat d); map_title "$B_\phi$" degree (Z.of_nat d)]) \/
    get kw "titles"%string = Some (Some (VStrs ts)) /\ (3 <= List.length ts)%nat ->
  get kw "label"%string = None /\ lab = VStr (gauss_units (Some (Z.of_nat d))) \/ get kw "label"%string = Some (Some lab) ->
  let B comp N i r t p day := piece_field oob a s x K c comp N i r t p day in
  exists fig F th ph, equidistant th 1 179 320 /\ equidistant ph (-180) 180 640 /\
    model_plot_maps oob a (degree_model x K D c s) (scalar t) (scalar r) kw = Ok fig /\ shows fig [th; ph] F ts lab /\ o_sh F = [320%nat; 640%nat] /\
    (forall j k i, (j < 320)%nat -> (k < 640)%nat -> in_interval x i t ->
      let N := Nat.min nm N0 in
      exists vr vt vp,
      o_r F [j; k] = Some vr /\ is_derive_n (fun year => B f_r N i r (at_ th [j]) (at_ ph [k]) (365.25 * year)) d (t / 365.25) vr /\
      o_t F [j; k] = Some vt /\ is_derive_n (fun year => B f_t N i r (at_ th [j]) (at_ ph [k]) (365.25 * year)) d (t / 365.25) vt /\
      o_p F [j; k] = Some vp /\ is_derive_n (fun year => B f_p N i r (at_ th [j]) (at_ ph [k]) (365.25 * year)) d (t / 365.25) vp) /\
    exists m, largest_abs (mknd (o_sh F) (o_r F)) m /\
      forall q, In q (fg_panels fig) -> get (pn_kw q) "vmax"%string = limit kw "vmax" (Some m) /\ get (pn_kw q) "vmin"%string = limit kw "vmin" (Some (- m)).
Proof.
  intros oob a s x K D N0 c t r kw nm d ts lab G HK H1 H2 H3 H4 H5 H6 H7 H8 H9 H10 H11 H12 B.
  destruct (maps_content oob a s x K D N0 c G HK H1 H2 H3 t r kw nm d ts lab H4 H5 H6 H7 H8 H9 H10 H11 H12) as (fig & F & Q).
  exists fig, F. eexists. eexists. split; [apply linspace_equidistant; lia|]. split; [apply linspace_equidistant; lia|]. exact Q.
Qed.

(** The title states the degree asked for, not the one shown. *)
Theorem C99_degree_in_the_title_refuted : exists oob a m t r kw fig p, m_nmax m = Some 1%Z /\
  model_plot_maps oob a m (scalar t) (scalar r) kw = Ok fig /\ nth_error (fg_panels fig) 0 = Some p /\ pn_title p = "$B_r$ ($n\leq9$, deriv=0)"%string.
Proof.
  destruct (C99_maps_show_the_field 0 6371.2 Internal [0; 1] 1 3 1 (fun _ _ _ => 1) 0 6371.2 [("nmax", Some (VInt 9))]%string 9 0
    [map_title "$B_r$" 9 0; map_title "$B_\theta$" 9 0; map_title "$B_\phi$" 9 0] (VStr "nT")) as (fig & F & th & ph & _ & _ & P & (S1 & S2 & S3) & _).
  - split; [cbn; lia|intros [|i] Hi; cbn in *; try lia; lra].
  - lia. - lia. - lia. - lia.
  - unfold outside, first_break, last_break. cbn. lra.
  - unfold is_dict; cbn; repeat constructor; intuition.
  - lia.
  - left. reflexivity.
  - right. split; [left; reflexivity|reflexivity].
  - left; reflexivity.
  - split; [lia|left; left; reflexivity].
  - left. split; reflexivity.
  - left. split; reflexivity.
  - destruct (fg_panels fig) as [|p l] eqn:E; [discriminate|]. exists 0, 6371.2. eexists. exists 0, 6371.2, [("nmax", Some (VInt 9))]%string, fig, p.
    split; [|split; [exact P|]]; [reflexivity|]. rewrite E. split; [reflexivity|]. destruct (S3 0%nat p eq_refl) as (_ & _ & T & _). cbn [nth_error] in T. injection T as T. rewrite T. reflexivity.
Qed.

Theorem C99_power_spectrum_of_a_model : forall a m time kw N nm d radius title S n l, is_dict kw -> m_nmax m = Some N ->
  passed_or kw "nmax" (VInt N) (VInt nm) -> passed_or kw "deriv" (VInt 0) (VInt d) -> passed_or kw "titles" (VStr "spatial power spectrum") (VStr title) ->
  unset kw "radius" /\ radius = None \/ (exists r, passed kw "radius" (VNum (Some r)) /\ radius = Some r) ->
  get kw "ylabel"%string = None ->
  model_spectrum a m time radius (Some (Z.to_nat nm)) (Some (Z.to_nat d)) XNone = Ok S -> sh S = n :: l ->
  exists p g, model_plot_power_spectrum a m time kw = Ok (mkfigure 1 [p]) /\ pn_axes p = [g] /\ sh g = [n] /\ (forall i, (i < n)%nat -> at_ g [i] = INR (i + 1)) /\
    sh (pn_data p) = sh S /\ (forall i, at_ (pn_data p) i = match at_ S i with Some v => if Req_EM_T v 0 then None else Some v | None => None end) /\
    pn_title p = title /\ pn_label p = Some (VStr ("(" ++ gauss_units (Some d) ++ ")$^2$")%string).
Proof. exact spectrum_model. Qed.

Example C99_hypotheses : let kw := [("deriv", Some (VInt 1)); ("titles", None)]%string in
  good_breaks [0; 366; 731] /\ is_dict kw /\ passed_or kw "nmax" (VInt (Z.of_nat 2)) (VInt (Z.of_nat 2)) /\ passed_or kw "deriv" (VInt 0) (VInt (Z.of_nat 1)) /\
  unset kw "extrapolate" /\ passed_or kw "titles" (VStrs ["$B_r$"; "$B_\theta$"; "$B_\phi$"]%string) (VStrs ["$B_r$"; "$B_\theta$"; "$B_\phi$"]%string) /\ layout_ok kw 3 /\ unset kw "limiter" /\
  (2 * (2 + 2) <= 8)%nat /\ (8 < (2 + 1) * (2 + 3))%nat.
Proof.
  split. { split; [cbn; lia|]. intros [|[|i]] Hi; cbn in *; try lia; lra. }
  split. { unfold is_dict, keys; cbn; repeat constructor; cbn; intuition discriminate. }
  split; [right; split; [left; reflexivity|reflexivity]|]. split; [left; reflexivity|]. split; [left; reflexivity|].
  split; [right; split; [right; reflexivity|reflexivity]|]. split; [split; [lia|left; left; reflexivity]|]. split; [left; reflexivity|]. lia.
Qed.

(** ** C100: plots of a CHAOS model *)
Theorem C100_missing_parts_are_reported : forall E c time radius theta phi kw nmax nmax' deriv,
  (ch_tdep c = None -> plot_timeseries_tdep E c radius theta phi kw = Err ValueError /\ plot_maps_tdep E c time radius nmax deriv kw = Err ValueError) /\
  (ch_static c = None -> plot_maps_static E c radius nmax' kw = Err ValueError).
Proof. intros. unfold plot_timeseries_tdep, plot_maps_tdep, plot_maps_static. split; intros ->; [split|]; reflexivity. Qed.

(** Static part: the maps of the static model at its first break, with colour
    limits of 200 nT unless others are passed *)
Theorem C100_static_maps : forall E c m radius kw N n ts lab lim F, is_dict kw -> get kw "nmax"%string = None -> get kw "deriv"%string = None ->
  ch_static c = Some m -> m_nmax m = Some N -> 
  let deg := match n with None => N | Some z => Z.min z N end in
  let th := linspace 1 179 320 in let ph := linspace (-180) 180 640 in
  model_values (e_oob E) (e_rsurf E) m (scalar (static_time m)) radius th ph (Some (Z.to_nat deg)) (Some 0%nat) (Some true) XNone = Ok F ->
  layout_ok kw 3 ->
  (let asked := match n with None => N | Some z => z end in get kw "titles"%string = None /\ ts = [map_title "$B_r$" asked 0; map_title "$B_\theta$" asked 0; map_title "$B_\phi$" asked 0]) \/
    get kw "titles"%string = Some (Some (VStrs ts)) /\ (3 <= List.length ts)%nat ->
  get kw "label"%string = None /\ lab = VStr "nT" \/ get kw "label"%string = Some (Some lab) ->
  passed_or kw "limiter" (VFun amax_abs) (VFun lim) -> (forall c, In c (components F) -> exists v, lim c = Ok v) ->
  exists fig, plot_maps_static E c radius n kw = Ok fig /\ shows fig [th; ph] F ts lab /\
    forall p, In p (fg_panels fig) ->
      (forall v, passed_or kw "vmax" (VNum (Some 200)) v -> get (pn_kw p) "vmax"%string = Some (Some v)) /\
      (forall v, passed_or kw "vmin" (VNum (Some (-200))) v -> get (pn_kw p) "vmin"%string = Some (Some v)) /\
      (forall v, passed_or kw "cmap" (VStr "nio") v -> get (pn_kw p) "cmap"%string = Some (Some v)).
Proof.
  intros E c m radius kw N n ts lab lim F D K1 K2 HC HN deg th ph HF LO HT HL HM HA. unfold plot_maps_static. rewrite HC.
  set (df := [("cmap", Some (VStr "nio")); ("deriv", Some (VInt 0)); ("vmax", Some (VNum (Some 200))); ("vmin", Some (VNum (Some (-200))))]%string).
  assert (Dd : is_dict df). { unfold is_dict, keys, df. cbn. repeat constructor; cbn; intuition discriminate. }
  set (kw1 := defaultkeys df kw). set (kw2 := ("nmax"%string, int_value n) :: kw1).
  assert (G1 : forall k, get kw1 k = match get kw k with Some (Some v) => Some (Some v) | other => match get df k with Some w => Some w | None => other end end) by (intros k; apply defaultkeys_get; exact Dd).
  assert (D2 : is_dict kw2). { unfold is_dict, kw2, keys. cbn [map fst]. constructor; [|apply defaultkeys_dict; exact D]. change (~ In "nmax"%string (keys kw1)). apply get_none. rewrite G1, K1. reflexivity. }
  assert (U : forall k, get df k = None -> k <> "nmax"%string -> get kw2 k = get kw k).
  { intros k GN NK. unfold kw2. cbn [get]. apply String.eqb_neq in NK. rewrite NK, G1, GN. destruct (get kw k) as [[|]|]; reflexivity. }
  assert (W : forall k d v, passed_or kw k d v -> get df k = Some (Some d) -> k <> "nmax"%string -> get kw2 k = Some (Some v)).
  { intros k d v P GD NK. unfold kw2. cbn [get]. apply String.eqb_neq in NK. rewrite NK. exact (passed_or_get df kw k d v Dd GD P). }
  assert (MS : exists fig, model_plot_maps (e_oob E) (e_rsurf E) m (scalar (static_time m)) radius kw2 = Ok fig /\ shows fig [th; ph] F ts lab /\
    forall p v, In p (fg_panels fig) -> lim (mknd (o_sh F) (o_r F)) = Ok v ->
      get (pn_kw p) "vmax"%string = limit kw2 "vmax" v /\ get (pn_kw p) "vmin"%string = limit kw2 "vmin" (negate v) /\
      forall c, passed_or kw2 "cmap" (VStr "PuOr_r") c -> get (pn_kw p) "cmap"%string = Some (Some c)).
  { apply (maps_shows (e_oob E) (e_rsurf E) m (scalar (static_time m)) radius kw2 N (match n with None => N | Some z => z end) 0 D2 HN).
    - destruct n as [z|]; [left; reflexivity|right; split; [right; reflexivity|reflexivity]].
    - left. apply (W "deriv"%string (VInt 0)); [right; split; [left; exact K2|reflexivity]|reflexivity|discriminate].
    - replace (Z.min match n with None => N | Some z => z end N) with deg by (unfold deg; destruct n; lia). exact HF.
    - apply (layout_ok_get kw); [|exact LO]. apply U; [reflexivity|discriminate].
    - rewrite (U "titles"%string); [exact HT|reflexivity|discriminate].
    - rewrite (U "label"%string); [exact HL|reflexivity|discriminate].
    - unfold passed_or, passed, unset in *. rewrite U; [exact HM|reflexivity|discriminate].
    - exact HA. }
  destruct MS as (fig & P & S & L). exists fig. split; [exact P|]. split; [exact S|]. intros p I.
  destruct (HA (mknd (o_sh F) (o_r F)) (or_introl eq_refl)) as [v0 Hv0]. destruct (L p v0 I Hv0) as (L1 & L2 & L3).
  split; [|split].
  - intros v P1. rewrite L1. unfold limit. rewrite (W "vmax"%string _ v P1); [reflexivity|reflexivity|discriminate].
  - intros v P1. rewrite L2. unfold limit. rewrite (W "vmin"%string _ v P1); [reflexivity|reflexivity|discriminate].
  - intros v P1. apply L3. left. exact (W "cmap"%string _ v P1 eq_refl ltac:(discriminate)).
Qed.

(** External field: the sum of the GSM and SM parts, or one of them *)
Theorem C100_external_maps_sum : forall E c time radius nmax source r G S,
  let th := linspace 1 179 320 in let ph := linspace (-180) 180 721 in
  match r with None => True | Some r => lower r = "all"%string end ->
  synth_values_gsm E c time radius th ph nmax (Some (source_name source)) (Some true) = Ok G ->
  synth_values_sm E c time radius th ph None None nmax (Some (source_name source)) (Some true) = Ok S ->
  f_sh G = f_sh S -> (exists i, valid (f_sh G) i) ->
  exists fig F, plot_maps_external E c time radius nmax r source = Ok fig /\ f_sh F = f_sh G /\
    (forall i, valid (f_sh G) i -> f_r F i = f_r G i + f_r S i /\ f_t F i = f_t G i + f_t S i /\ f_p F i = f_p G i + f_p S i) /\
    shows fig [th; ph] (lift_field F) (map (fun comp => comp ++ " (" ++ source_name source ++ " sources)")%string ["$B_r$"; "$B_\theta$"; "$B_\phi$"]%string) (VStr "nT").
Proof.
  intros E c time radius nmax source r G S th ph Hr HG HS EQ V. destruct (field_add_same G S EQ) as (F & HF & SF & VF).
  destruct (external_all E c time radius nmax source G S F r HG HS HF Hr) as (fig & P & SH); [rewrite SF; exact V|].
  exists fig, F. auto.
Qed.

Theorem C100_external_maps_one_part : forall E c time radius nmax source r F reference name,
  let th := linspace 1 179 320 in let ph := linspace (-180) 180 721 in
  (reference = "gsm"%string /\ name = "GSM"%string /\ synth_values_gsm E c time radius th ph nmax (Some (source_name source)) (Some true) = Ok F) \/
  (reference = "sm"%string /\ name = "SM"%string /\ synth_values_sm E c time radius th ph None None nmax (Some (source_name source)) (Some true) = Ok F) ->
  lower r = reference -> (exists i, valid (f_sh F) i) ->
  exists fig, plot_maps_external E c time radius nmax (Some r) source = Ok fig /\
    shows fig [th; ph] (lift_field F) (map (fun comp => comp ++ " (" ++ name ++ " " ++ source_name source ++ " sources)")%string ["$B_r$"; "$B_\theta$"; "$B_\phi$"]%string) (VStr "nT").
Proof. intros E c time radius nmax source r F reference name th ph H Hr V. exact (external_one E c time radius nmax source reference F name H r Hr V). Qed.

Theorem C100_unknown_reference_is_reported : forall E c time radius nmax source r,
  lower r <> "all"%string -> lower r <> "gsm"%string -> lower r <> "sm"%string -> plot_maps_external E c time radius nmax (Some r) source = Err ValueError.
Proof. exact external_unknown. Qed.

Print Assumptions C69_user_values_win_defaults_fill.
Print Assumptions C69_result_is_a_dictionary.
Print Assumptions C70_array_after_plotting.
Print Assumptions C70_data_unchanged_refuted.
Print Assumptions C70_spectrum_shown.
Print Assumptions C71_units.
Print Assumptions C71_labels_differ.
Print Assumptions C71_documented_label_refuted.
Print Assumptions C97_timeseries_shows_every_component.
Print Assumptions C97_maps_show_every_component.
Print Assumptions C97_wrong_layout_is_reported.
Print Assumptions C97_too_few_titles_refuted.
Print Assumptions C97_title_string_refuted.
Print Assumptions C98_default_limit.
Print Assumptions C98_limits_cover_each_panel_refuted.
Print Assumptions C99_timeseries_of_a_model.
Print Assumptions C99_timeseries_shows_the_field.
Print Assumptions C99_maps_show_the_field.
Print Assumptions C99_degree_in_the_title_refuted.
Print Assumptions C99_power_spectrum_of_a_model.
Print Assumptions C100_missing_parts_are_reported.
Print Assumptions C100_static_maps.
Print Assumptions C100_external_maps_sum.
Print Assumptions C100_external_maps_one_part.
Print Assumptions C100_unknown_reference_is_reported.
