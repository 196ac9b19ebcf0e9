(** What the panels of the plotting methods contain. *)
From Coq Require Import Reals List Arith ZArith String Ascii Bool Lia Lra.
From Coquelicot Require Import Coquelicot.
From Verif Require Import M_Prelude Spec_Field Spec_PP M_ND M_SynthArr M_PP M_Spectrum M_Model M_Text M_Coord M_Chaos M_Plot Spec_Plot P_ND P_PP P_Model P_Chaos6 P_Plot P_Plot2.
Import ListNotations.
Open Scope R_scope.

(** ** The grid option *)
Lemma indices_snoc1 : forall s, indices (s ++ [1%nat]) = map (fun i => (i ++ [0%nat])%list) (indices s).
Proof.
  induction s as [|n s IH]; [reflexivity|]. cbn [app indices]. rewrite IH. generalize (seq 0 n). intros l.
  induction l as [|j l IHl]; [reflexivity|]. cbn [flat_map]. rewrite map_app, IHl. f_equal. rewrite !map_map. reflexivity.
Qed.

Lemma elems_expand_last {A} (x : nd A) : elems (expand_last x) = elems x.
Proof.
  unfold elems, expand_last. cbn [sh at_]. rewrite indices_snoc1, map_map. apply map_ext. intros i. rewrite removelast_last. reflexivity.
Qed.

Lemma synth_grid oob a c radius theta phi ph nmin nmax mmax source : expand_before_last phi = Ok ph ->
  synth_values oob a c radius theta phi nmin nmax mmax source true = synth_values oob a c radius (expand_last theta) ph nmin nmax mmax source false.
Proof. intros H. unfold synth_values. rewrite H, elems_expand_last. reflexivity. Qed.

Lemma model_grid oob a m time radius theta phi ph nmax deriv e : expand_before_last phi = Ok ph ->
  model_values oob a m time radius theta phi nmax deriv (Some true) e = model_values oob a m time radius (expand_last theta) ph nmax deriv None e.
Proof.
  intros H. unfold model_values. destruct (m_nmax m) as [N|]; [|reflexivity]. destruct (model_coeffs _ _ _ _ _) as [r|]; [|reflexivity]. cbn [bind].
  unfold nan_synth. rewrite (synth_grid _ _ _ _ _ _ _ _ _ _ _ H). reflexivity.
Qed.

Lemma expand_row phi n : sh phi = [n] -> exists ph : nd R, expand_before_last phi = Ok ph /\ sh ph = [1%nat; n] /\ forall i j, at_ ph [i; j] = at_ phi [j].
Proof. intros H. unfold expand_before_last. rewrite H. eexists. split; [reflexivity|]. split; [reflexivity|]. intros i j. reflexivity. Qed.

(** ** The time axis *)
Lemma linspace_sh a b n : sh (linspace a b n) = [n].
Proof. unfold linspace, vec. cbn [sh]. rewrite map_length, seq_length. reflexivity. Qed.

Lemma linspace_between a b n i : a <= b -> (2 <= n)%nat -> (i < n)%nat -> a <= at_ (linspace a b n) [i] <= b.
Proof.
  intros H Hn Hi. rewrite linspace_at by exact Hi. assert (P : 0 < INR (n - 1)) by (apply lt_0_INR; lia).
  assert (Q : INR i <= INR (n - 1)) by (apply le_INR; lia). assert (Z := pos_INR i).
  replace (INR i * ((b - a) / INR (n - 1))) with ((b - a) * (INR i / INR (n - 1))) by (field; lra).
  assert (F : 0 <= INR i / INR (n - 1) <= 1).
  { split; [apply Rmult_le_pos; [exact Z|left; apply Rinv_0_lt_compat; exact P]|]. apply (Rmult_le_reg_r (INR (n - 1))); [exact P|]. unfold Rdiv. rewrite Rmult_assoc, Rinv_l by lra. lra. }
  nra.
Qed.

Lemma linspace_elems a b n t : In t (elems (linspace a b n)) -> exists i, (i < n)%nat /\ t = at_ (linspace a b n) [i].
Proof.
  intros H. apply in_elems in H. destruct H as (i & V & E). rewrite linspace_sh in V. inversion V as [|? k ? l V1 V2]; subst. inversion V2; subst. exists k. auto.
Qed.

Lemma linspace_nonempty a b n : (1 <= n)%nat -> elems (linspace a b n) <> [].
Proof.
  intros H E. assert (I : In (at_ (linspace a b n) [0%nat]) (elems (linspace a b n))). { apply in_elems. exists [0%nat]. split; [rewrite linspace_sh; constructor; [lia|constructor]|reflexivity]. }
  rewrite E in I. exact I.
Qed.

Section Content.
Variables (oob a : R) (s : src) (x : list R) (K D N0 : nat) (c : nat -> nat -> nat -> R).
Local Notation M := (model_init (Some x) None (Some (mkc3 K (List.length x - 1) D c)) (Some (src_name s))).
Hypotheses (G : good_breaks x) (HK : (1 <= K)%nat) (HN1 : (1 <= N0)%nat) (HN : (N0 * (N0 + 2) <= D)%nat) (HN' : (D < (N0 + 1) * (N0 + 3))%nat).

Lemma nmax_M : m_nmax M = Some (Z.of_nat N0).
Proof. destruct (degree_M s x K D c G HK None) as (N1 & A & B & C & _). rewrite C. do 2 f_equal. nia. Qed.

Lemma breaks_M : b_breaks (m_base M) = Some x.
Proof. destruct G as [L _]. destruct x as [|b0 [|b1 l]]; [cbn in L; lia|cbn in L; lia|reflexivity]. Qed.

Let B comp N i r t p day := piece_field oob a s x K c comp N i r t p day.

Lemma timeseries_content r t p kw nm d ts lab : 0 <= t <= 180 -> is_dict kw -> (1 <= nm)%nat ->
  passed_or kw "nmax" (VInt (Z.of_nat N0)) (VInt (Z.of_nat nm)) -> passed_or kw "deriv" (VInt 0) (VInt (Z.of_nat d)) -> unset kw "extrapolate" ->
  passed_or kw "titles" (VStrs ["$B_r$"; "$B_\theta$"; "$B_\phi$"]%string) (VStrs ts) -> (3 <= List.length ts)%nat -> layout_ok kw 3 ->
  get kw "ylabel"%string = None /\ lab = VStr (gauss_units (Some (Z.of_nat d))) \/ get kw "ylabel"%string = Some (Some lab) ->
  exists fig F, let g := linspace (first_break x) (last_break x) 500 in
    model_plot_timeseries oob a M (scalar r) (scalar t) (scalar p) kw = Ok fig /\ shows fig [g] F ts lab /\ o_sh F = [500%nat] /\
    forall k i, (k < 500)%nat -> in_interval x i (at_ g [k]) ->
      let N := Nat.min nm N0 in let y := at_ g [k] / 365.25 in
      exists vr vt vp,
      o_r F [k] = Some vr /\ is_derive_n (fun year => B f_r N i r t p (365.25 * year)) d y vr /\
      o_t F [k] = Some vt /\ is_derive_n (fun year => B f_t N i r t p (365.25 * year)) d y vt /\
      o_p F [k] = Some vp /\ is_derive_n (fun year => B f_p N i r t p (365.25 * year)) d y vp.
Proof.
  intros Ht Dk Hnm P1 P2 P3 P4 L4 LO HL. set (g := linspace (first_break x) (last_break x) 500).
  assert (FL := first_lt_last x G).
  assert (NE : x <> []) by (destruct G as [L _]; destruct x; [cbn in L; lia|discriminate]).
  assert (EL : last x 0 = last_break x) by (apply last_break_last; exact NE).
  assert (IN : forall u, In u (elems g) -> ~ outside x u).
  { intros u I. apply linspace_elems in I. destruct I as (k & Hk & ->). pose proof (linspace_between (first_break x) (last_break x) 500 k ltac:(lra) ltac:(lia) Hk). unfold outside. lra. }
  destruct (model_values_ok oob a s x K D c G HK g (scalar r) (scalar t) (scalar p) (Some nm) (Some d) XNone [500%nat]) as (F & EF & SF).
  - nia.
  - intros E. injection E as E. lia.
  - apply linspace_nonempty. lia.
  - discriminate.
  - discriminate.
  - intros u [<-|[]]. exact Ht.
  - unfold g. rewrite linspace_sh. reflexivity.
  - destruct (timeseries_shows oob a M (scalar r) (scalar t) (scalar p) kw (Z.of_nat N0) (Z.of_nat nm) (Z.of_nat d) x XNone ts Dk nmax_M breaks_M NE P1 P2 (or_introl (conj P3 eq_refl)) P4 L4 LO F lab) as (fig & EP & SH).
    + rewrite !Nat2Z.id, EL. exact EF.
    + exact HL.
    + exists fig, F. split; [exact EP|]. split; [rewrite EL in SH; exact SH|]. split; [exact SF|].
      intros k i Hk Hi N y. unfold B.
      assert (BT : bread g [k] = at_ g [k]). { unfold bread. unfold g at 2. rewrite linspace_sh. rewrite bidx_same; [reflexivity|]. constructor; [exact Hk|constructor]. }
      assert (X := model_field oob a s x K D c G HK g (scalar r) (scalar t) (scalar p) (Some nm) (Some d) XNone F [k] i N EF).
      rewrite BT in X. apply X.
      * intros u [<-|[]]. exact Ht.
      * exists N0. auto.
      * rewrite SF. constructor; [exact Hk|constructor].
      * exact Hi.
      * right; right. exact IN.
Qed.

(** ** Maps *)
Lemma maps_content t r kw nm d ts lab : ~ outside x t -> is_dict kw -> (1 <= nm)%nat ->
  passed_or kw "nmax" (VInt (Z.of_nat N0)) (VInt (Z.of_nat nm)) -> passed_or kw "deriv" (VInt 0) (VInt (Z.of_nat d)) -> unset kw "limiter" -> layout_ok kw 3 ->
  (let degree := Z.of_nat nm in get kw "titles"%string = None /\ ts = [map_title "$B_r$" degree (Z.of_nat d); map_title "$B_\theta$" degree (Z.of_nat d); map_title "$B_\phi$" degree (Z.of_nat d)]) \/
    get kw "titles"%string = Some (Some (VStrs ts)) /\ (3 <= List.length ts)%nat ->
  get kw "label"%string = None /\ lab = VStr (gauss_units (Some (Z.of_nat d))) \/ get kw "label"%string = Some (Some lab) ->
  exists fig F, let th := linspace 1 179 320 in let ph := linspace (-180) 180 640 in
    model_plot_maps oob a M (scalar t) (scalar r) kw = Ok fig /\ shows fig [th; ph] F ts lab /\ o_sh F = [320%nat; 640%nat] /\
    (forall j k i, (j < 320)%nat -> (k < 640)%nat -> in_interval x i t ->
      let N := Nat.min nm N0 in
      exists vr vt vp,
      o_r F [j; k] = Some vr /\ is_derive_n (fun year => B f_r N i r (at_ th [j]) (at_ ph [k]) (365.25 * year)) d (t / 365.25) vr /\
      o_t F [j; k] = Some vt /\ is_derive_n (fun year => B f_t N i r (at_ th [j]) (at_ ph [k]) (365.25 * year)) d (t / 365.25) vt /\
      o_p F [j; k] = Some vp /\ is_derive_n (fun year => B f_p N i r (at_ th [j]) (at_ ph [k]) (365.25 * year)) d (t / 365.25) vp) /\
    exists m, largest_abs (mknd (o_sh F) (o_r F)) m /\
      forall q, In q (fg_panels fig) -> get (pn_kw q) "vmax"%string = limit kw "vmax" (Some m) /\ get (pn_kw q) "vmin"%string = limit kw "vmin" (Some (- m)).
Proof.
  intros Ht Dk Hnm P1 P2 P3 LO HT HL. set (th := linspace 1 179 320). set (ph := linspace (-180) 180 640).
  destruct (expand_row ph 640 (linspace_sh _ _ _)) as (ph' & EX & SX & VX).
  assert (TH : forall u, In u (elems (expand_last th)) -> 0 <= u <= 180).
  { intros u I. rewrite elems_expand_last in I. apply linspace_elems in I. destruct I as (k & Hk & ->). pose proof (linspace_between 1 179 320 k ltac:(lra) ltac:(lia) Hk). lra. }
  set (n := Z.min (Z.of_nat nm) (Z.of_nat N0)). assert (Hn : Z.to_nat n = Nat.min nm N0) by (unfold n; lia).
  destruct (model_values_ok oob a s x K D c G HK (scalar t) (scalar r) (expand_last th) ph' (Some (Nat.min nm N0)) (Some d) XNone [320%nat; 640%nat]) as (F & EF & SF).
  - nia.
  - intros E. injection E as E. lia.
  - discriminate.
  - discriminate.
  - rewrite elems_expand_last. apply linspace_nonempty. lia.
  - exact TH.
  - rewrite SX. unfold expand_last. cbn [sh]. unfold th. rewrite linspace_sh. reflexivity.
  - assert (VAL : forall j k i, (j < 320)%nat -> (k < 640)%nat -> in_interval x i t ->
      let N := Nat.min nm N0 in
      exists vr vt vp,
      o_r F [j; k] = Some vr /\ is_derive_n (fun year => B f_r N i r (at_ th [j]) (at_ ph [k]) (365.25 * year)) d (t / 365.25) vr /\
      o_t F [j; k] = Some vt /\ is_derive_n (fun year => B f_t N i r (at_ th [j]) (at_ ph [k]) (365.25 * year)) d (t / 365.25) vt /\
      o_p F [j; k] = Some vp /\ is_derive_n (fun year => B f_p N i r (at_ th [j]) (at_ ph [k]) (365.25 * year)) d (t / 365.25) vp).
    { intros j k i Hj Hk Hi N. unfold B.
      assert (X := model_field oob a s x K D c G HK (scalar t) (scalar r) (expand_last th) ph' (Some (Nat.min nm N0)) (Some d) XNone F [j; k] i N EF TH).
      assert (B1 : bread (expand_last th) [j; k] = at_ th [j]). { unfold bread, expand_last. cbn [sh at_]. unfold th at 2. rewrite linspace_sh. cbn [app]. reflexivity. }
      assert (B2 : bread ph' [j; k] = at_ ph [k]). { unfold bread. rewrite SX. change (bidx [1%nat; 640%nat] [j; k]) with [0%nat; k]. apply VX. }
      rewrite B1, B2 in X. apply X.
      - exists N0. split; [exact HN|]. split; [exact HN'|]. unfold N. lia.
      - rewrite SF. constructor; [exact Hj|]. constructor; [exact Hk|constructor].
      - exact Hi.
      - right; right. intros u [<-|[]]. exact Ht. }
    assert (IV : exists i, in_interval x i t). { apply in_interval_ex; [exact G|]. unfold outside in Ht. lra. }
    destruct IV as (i0 & I0).
    assert (V0 : exists i, valid (o_sh F) i). { exists [0%nat; 0%nat]. rewrite SF. constructor; [lia|]. constructor; [lia|constructor]. }
    assert (VI : forall i, valid (o_sh F) i -> exists j k, i = [j; k] /\ (j < 320)%nat /\ (k < 640)%nat).
    { rewrite SF. intros i V. inversion V as [|? j ? l V1 V2]; subst. inversion V2 as [|? k ? l2 V3 V4]; subst. inversion V4; subst. eauto. }
    assert (LM : forall C, In C (components F) -> exists m, amax_abs C = Ok (Some m) /\ largest_abs C m).
    { intros C IC. destruct IC as [<-|[<-|[<-|[]]]]; apply default_limit; cbn [sh at_]; try exact V0;
      intros i V; destruct (VI i V) as (j & k & -> & Hj & Hk); destruct (VAL j k i0 Hj Hk I0) as (vr & vt & vp & E1 & _ & E2 & _ & E3 & _); congruence. }
    destruct (maps_shows oob a M (scalar t) (scalar r) kw (Z.of_nat N0) (Z.of_nat nm) (Z.of_nat d) Dk nmax_M P1 P2 F ts lab amax_abs) as (fig & EP & SH & LI).
    + rewrite Nat2Z.id. fold n. rewrite Hn. rewrite (model_grid _ _ _ _ _ _ _ _ _ _ _ EX). exact EF.
    + exact LO.
    + exact HT.
    + exact HL.
    + right. auto.
    + intros C IC. destruct (LM C IC) as (m & E & _). eauto.
    + exists fig, F. split; [exact EP|]. split; [exact SH|]. split; [exact SF|]. split; [exact VAL|].
      destruct (LM _ (or_introl eq_refl)) as (m & E & LA). exists m. split; [exact LA|]. intros q IQ. destruct (LI q (Some m) IQ E) as (Q1 & Q2 & _). auto.
Qed.
End Content.
