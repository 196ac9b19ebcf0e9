(** C136: the power spectrum of a model (BaseModel.power_spectrum).

    x: breaks, c: piecewise polynomial coefficients of all degrees up to N0,
    s: source of the model, a: reference radius, N: degrees used. *)
From Coq Require Import Reals List Arith ZArith String Bool Lia Lra.
From Coquelicot Require Import Coquelicot.
From Verif Require Import M_Prelude M_ND Spec_Field Spec_PP Spec_Power M_PP M_Spectrum M_Model M_Synth M_SynthArr P_PP P_PP2 P_Spectrum P_ModelSpec P_Rotate2 Props_Spectrum Props_PP Props_Power.
Import ListNotations.
Open Scope R_scope.

Local Notation degree_model x K D c s := (model_init (Some x) None (Some (mkc3 K (List.length x - 1) D c)) (Some s)).

(** Documented factor of degree n. *)
Definition spectrum_factor (source : string) (a radius : R) (n : nat) (f : R) : Prop :=
  source = "internal"%string /\ f = INR (n + 1) * (a / radius) ^ (2 * n + 4) \/
  source = "external"%string /\ f = INR n * (radius / a) ^ (2 * n - 2) \/
  source = "toroidal"%string /\ f = INR (n * (n + 1)) / INR (2 * n + 1).
Definition known_source (source : string) : Prop := source = "internal"%string \/ source = "external"%string \/ source = "toroidal"%string.
Definition radius_or (a : R) (radius : option R) : R := match radius with None => a | Some r => r end.

Lemma Forall2_len s i : valid s i -> List.length i = List.length s.
Proof. unfold valid. intros H. induction H; cbn; congruence. Qed.
Lemma degrees_used N0 nmax : dim_of (N0 * (N0 + 2)) (option_map (fun n => (n * (n + 2))%nat) nmax) =
  let N := match nmax with None => N0 | Some n => Nat.min n N0 end in (N * (N + 2))%nat.
Proof. destruct nmax as [n|]; [|reflexivity]. cbn. destruct (Nat.le_ge_cases n N0); [rewrite !Nat.min_l|rewrite !Nat.min_r]; nia. Qed.

(** Inside the model period: the factor times the sum of the squared
    coefficients' time derivatives (per year). *)
Theorem C136_spectrum_inside_the_period : forall a x K N0 c s time radius nmax deriv e,
  0 < a -> 0 < radius_or a radius -> good_breaks x -> (1 <= K)%nat -> (1 <= N0)%nat -> known_source s -> elems time <> [] ->
  (forall st, e = XStr st -> In st documented) ->
  let N := match nmax with None => N0 | Some n => Nat.min n N0 end in
  exists S, model_spectrum a (degree_model x K (N0 * (N0 + 2)) c s) time radius nmax deriv e = Ok S /\ sh S = (sh time ++ [N])%list /\
    forall idx i n f, valid (sh time) idx -> in_interval x i (at_ time idx) ->
      nu_of deriv = 0%nat \/ at_ time idx <> last_break x \/ (forall t, In t (elems time) -> ~ outside x t) ->
      (1 <= n <= N)%nat -> spectrum_factor s a (radius_or a radius) n f ->
      exists l, List.length l = (N * (N + 2))%nat /\
        (forall k, (k < N * (N + 2))%nat -> is_derive_n (fun year => piece x K c i k (365.25 * year)) (nu_of deriv) (at_ time idx / 365.25) (nth k l 0)) /\
        at_ S (idx ++ [(n - 1)%nat]) = Some (f * degree_power l n).
Proof.
  intros a x K N0 c s time radius nmax deriv e Ha Hr G HK HN Hs HT He N.
  set (m := degree_model x K (N0 * (N0 + 2)) c s).
  assert (D1 : (1 <= N0 * (N0 + 2))%nat) by nia.
  destruct (C39_ok x K (N0 * (N0 + 2)) c time (option_map (fun n => (n * (n + 2))%nat) nmax) deriv e G HK D1 HT He) as (r & E & Sh & Dm).
  pose proof (degrees_used N0 nmax) as DU. unfold dim_of in DU. rewrite <- Dm in DU. cbn zeta in DU. fold N in DU.
  destruct (spectrum_of_model a m time radius nmax deriv e r N Ha Hr E DU Hs) as (S & ES & SS & HS).
  exists S. split; [exact ES|]. split; [rewrite SS, Sh; reflexivity|].
  intros idx i n f V I End Hn Hf.
  assert (LI : List.length idx = List.length (s_sh r)) by (rewrite Sh; exact (Forall2_len _ _ V)).
  assert (NB : (N * (N + 2) <= N0 * (N0 + 2))%nat).
  { assert (N <= N0)%nat by (unfold N; destruct nmax; lia). nia. }
  assert (C : forall k, (k < N * (N + 2))%nat -> exists v, s_at r idx k = Some v /\
     is_derive_n (fun year => piece x K c i k (365.25 * year)) (nu_of deriv) (at_ time idx / 365.25) v).
  { intros k Hk. destruct deriv as [d|]; cbn [nu_of] in *.
    - destruct End as [Z0|End]; [subst d|].
      + exists (piece x K c i k (at_ time idx)). split; [|cbn; f_equal; lra].
        assert (E0 : synth_coeffs (base_init (Some x) None (Some (mkc3 K (List.length x - 1) (N0 * (N0 + 2)) c))) time (option_map (fun n => (n * (n + 2))%nat) nmax) None e = Ok r) by exact E.
        apply (C39 x K (N0 * (N0 + 2)) c time (option_map (fun n => (n * (n + 2))%nat) nmax) e r idx i k G HK); try assumption; lia.
      + apply (C40 x K (N0 * (N0 + 2)) c time (option_map (fun n => (n * (n + 2))%nat) nmax) d e r idx i k G HK); try assumption; lia.
    - exists (piece x K c i k (at_ time idx)). split; [|cbn; f_equal; lra].
      apply (C39 x K (N0 * (N0 + 2)) c time (option_map (fun n => (n * (n + 2))%nat) nmax) e r idx i k G HK); try assumption; lia. }
  set (l := map (fun k => match s_at r idx k with Some v => v | None => 0 end) (seq 0 (N * (N + 2)))).
  assert (NL : forall k, (k < N * (N + 2))%nat -> s_at r idx k = Some (nth k l 0)).
  { intros k Hk. unfold l. rewrite (nth_indep _ 0 (match s_at r idx 0 with Some v => v | None => 0 end)) by (rewrite map_length, seq_length; exact Hk).
    rewrite (map_nth (fun k => match s_at r idx k with Some v => v | None => 0 end)), seq_nth by exact Hk. cbn [Nat.add].
    destruct (C k Hk) as (v & -> & _). reflexivity. }
  exists l. split; [unfold l; rewrite map_length, seq_length; reflexivity|]. split.
  - intros k Hk. destruct (C k Hk) as (v & EV & DV). rewrite (NL k Hk) in EV. injection EV as ->. exact DV.
  - destruct (HS idx n LI Hn) as [H _]. rewrite (H l); [| |rewrite DU; exact NL].
    + f_equal. f_equal. unfold gain. change (m_source m) with s. destruct Hf as [[-> ->]|[[-> ->]|[-> ->]]]; reflexivity.
    + unfold l. rewrite map_length, seq_length. symmetry; exact DU.
Qed.

(** With extrapolation off, the spectrum is NaN exactly outside the period. *)
Theorem C136_without_extrapolation_nan_exactly_outside : forall a x K N0 c s time radius nmax deriv e S idx n,
  0 < a -> 0 < radius_or a radius -> good_breaks x -> (1 <= K)%nat -> (1 <= N0)%nat -> known_source s ->
  e = XStr "off" \/ e = XBool false \/ (exists z, (z <= 0)%Z /\ e = XInt z) ->
  model_spectrum a (degree_model x K (N0 * (N0 + 2)) c s) time radius nmax deriv e = Ok S -> valid (sh time) idx ->
  (1 <= n <= match nmax with None => N0 | Some n => Nat.min n N0 end)%nat ->
  (at_ S (idx ++ [(n - 1)%nat]) = None <-> outside x (at_ time idx)).
Proof.
  intros a x K N0 c s time radius nmax deriv e S idx n Ha Hr G HK HN Hs He ES V Hn.
  set (m := degree_model x K (N0 * (N0 + 2)) c s) in *. set (N := match nmax with None => N0 | Some n => Nat.min n N0 end) in *.
  assert (E : exists r, model_coeffs m time nmax deriv e = Ok r).
  { unfold model_spectrum in ES. destruct (model_coeffs m time nmax deriv e) as [r|er]; [eauto|discriminate]. }
  destruct E as [r E].
  assert (SD : s_sh r = sh time /\ s_dim r = (N * (N + 2))%nat).
  { pose proof (degrees_used N0 nmax) as DU. cbn zeta in DU. fold N in DU. rewrite <- DU.
    assert (HE : elems time <> []) by (apply (elems_ne time idx V)).
    destruct (C39_ok x K (N0 * (N0 + 2)) c time (option_map (fun n => (n * (n + 2))%nat) nmax) deriv e G HK ltac:(nia) HE) as (r' & E' & A & B).
    { intros st ->. destruct He as [He|[He|(z & _ & He)]]; try discriminate. injection He as ->. cbn. tauto. }
    assert (r' = r) by (change (model_coeffs m time nmax deriv e = Ok r') in E'; congruence). subst r'. split; [exact A|]. exact B. }
  destruct SD as [Sh DU].
  destruct (spectrum_of_model a m time radius nmax deriv e r N Ha Hr E DU Hs) as (S' & ES' & SS & HS).
  assert (S' = S) by congruence. subst S'.
  assert (NB : (N * (N + 2) <= N0 * (N0 + 2))%nat) by (assert (N <= N0)%nat by (unfold N; destruct nmax; lia); nia).
  assert (O : forall d, (d < N * (N + 2))%nat -> (s_at r idx d = None <-> outside x (at_ time idx))).
  { intros d Hd. apply (off_value x K (N0 * (N0 + 2)) c time (option_map (fun n => (n * (n + 2))%nat) nmax) deriv e r idx d G HK ltac:(lia) V He E). }
  assert (LI : List.length idx = List.length (s_sh r)) by (rewrite Sh; exact (Forall2_len _ _ V)).
  destruct (HS idx n LI Hn) as [H1 H2]. split.
  - intros Q. destruct (s_at r idx 0) as [v|] eqn:E0; [|apply (O 0%nat ltac:(nia)); exact E0].
    exfalso. set (l := map (fun k => match s_at r idx k with Some v => v | None => 0 end) (seq 0 (N * (N + 2)))).
    rewrite (H1 l) in Q; [discriminate| |].
    + unfold l. rewrite map_length, seq_length. symmetry; exact DU.
    + rewrite DU. intros k Hk. unfold l. rewrite (nth_indep _ 0 (match s_at r idx 0 with Some v => v | None => 0 end)) by (rewrite map_length, seq_length; exact Hk).
      rewrite (map_nth (fun k => match s_at r idx k with Some v => v | None => 0 end)), seq_nth by exact Hk. cbn [Nat.add].
      destruct (s_at r idx k) as [w|] eqn:Ek; [reflexivity|]. apply (O k Hk) in Ek. apply (O 0%nat ltac:(nia)) in Ek. congruence.
  - intros Q. apply (H2 (n ^ 2 - 1)%nat); [cbn [Nat.pow]; nia|]. apply O; [cbn [Nat.pow]; nia|exact Q].
Qed.

(** Whatever the times, the values are those the coefficients returned for the
    same arguments give, and a NaN coefficient makes its own degree NaN. *)
Theorem C136_spectrum_of_the_returned_coefficients : forall a m time radius nmax deriv e r N s,
  0 < a -> 0 < radius_or a radius -> model_coeffs m time nmax deriv e = Ok r -> s_dim r = (N * (N + 2))%nat -> m_source m = s -> known_source s ->
  exists S, model_spectrum a m time radius nmax deriv e = Ok S /\ sh S = (s_sh r ++ [N])%list /\
    forall idx n f, List.length idx = List.length (s_sh r) -> (1 <= n <= N)%nat -> spectrum_factor s a (radius_or a radius) n f ->
      (forall l, List.length l = s_dim r -> (forall k, (k < s_dim r)%nat -> s_at r idx k = Some (nth k l 0)) ->
         at_ S (idx ++ [(n - 1)%nat]) = Some (f * degree_power l n)) /\
      (forall k, (n ^ 2 - 1 <= k < (n + 1) ^ 2 - 1)%nat -> s_at r idx k = None -> at_ S (idx ++ [(n - 1)%nat]) = None).
Proof.
  intros a m time radius nmax deriv e r N s Ha Hr E DU <- Hs.
  destruct (spectrum_of_model a m time radius nmax deriv e r N Ha Hr E DU Hs) as (S & ES & SS & HS).
  exists S. split; [exact ES|]. split; [exact SS|]. intros idx n f L Hn Hf. destruct (HS idx n L Hn) as [H1 H2]. split; [|exact H2].
  intros l Ll Hl. rewrite (H1 l Ll Hl). f_equal. f_equal. unfold gain. destruct Hf as [[-> ->]|[[-> ->]|[-> ->]]]; reflexivity.
Qed.

(** The mean square of the field of degree n of these coefficients over the
    sphere is the value of the spectrum. *)
Theorem C136_spectrum_is_the_mean_square_of_the_field : forall oob a m time radius nmax deriv e r N s l idx n,
  0 < a -> 0 < radius_or a radius -> model_coeffs m time nmax deriv e = Ok r -> s_dim r = (N * (N + 2))%nat -> m_source m = src_name s ->
  List.length idx = List.length (s_sh r) -> (1 <= n <= N)%nat ->
  List.length l = s_dim r -> (forall k, (k < s_dim r)%nat -> s_at r idx k = Some (nth k l 0)) ->
  exists S v (F : R -> R -> field), model_spectrum a m time radius nmax deriv e = Ok S /\ at_ S (idx ++ [(n - 1)%nat]) = Some v /\
    (forall t p, 0 <= t <= PI -> call oob a (degree_block l n) (radius_or a radius) n n s t p = Ok (F t p)) /\
    sphere_mean (fun t p => f_r (F t p) [] ^ 2 + f_t (F t p) [] ^ 2 + f_p (F t p) [] ^ 2) v.
Proof.
  intros oob a m time radius nmax deriv e r N s l idx n Ha Hr E DU Hs LI Hn Ll Hl.
  assert (KS : known_source (m_source m)) by (rewrite Hs; destruct s; cbn; [left|right; left]; reflexivity).
  destruct (spectrum_of_model a m time radius nmax deriv e r N Ha Hr E DU KS) as (S & ES & SS & HS).
  destruct (HS idx n LI Hn) as [H1 _]. specialize (H1 l Ll Hl).
  destruct (plain_ok a (mkcres [] (s_dim r) (fun _ k => Some (nth k l 0))) (radius_or a radius) (src_name s) N DU) as (W0 & E0); [rewrite <- Hs; exact KS|].
  destruct (plain_fibre a (mkcres [] (s_dim r) (fun _ k => Some (nth k l 0))) (radius_or a radius) (src_name s) W0 N [] n DU E0 eq_refl Hn) as (W & EW & _).
  assert (VL : values (mkcres [] (s_dim r) (fun _ k => Some (nth k l 0))) [] = l).
  { unfold values. cbn [s_at s_dim]. rewrite <- Ll. apply (P_Rotate2.nth_seq_id l 0). }
  rewrite VL in EW.
  destruct (C113_spectrum_is_the_mean_square_of_each_degree oob a l (radius_or a radius) s N W n Ha Hr ltac:(congruence) EW Hn) as (F & HF & HM).
  exists S, (at_ W [(n - 1)%nat]), F. split; [exact ES|]. split; [|split; [exact HF|exact HM]].
  rewrite H1. f_equal. rewrite Hs. destruct s; cbn [src_name] in EW.
  - destruct (C35_internal_spectrum a l (radius_or a radius) None W N Ha Hr ltac:(congruence) EW) as (K' & _ & EK & H). unfold gain. cbn. symmetry. apply H. lia.
  - destruct (C35_external_spectrum a l (radius_or a radius) None W N Ha Hr ltac:(congruence) EW) as (K' & _ & EK & H). unfold gain. cbn. symmetry. apply H. lia.
Qed.

(** Errors. *)
Theorem C136_errors : forall a m time radius nmax deriv e,
  (forall x, model_coeffs m time nmax deriv e = Err x -> model_spectrum a m time radius nmax deriv e = Err x) /\
  (forall r, model_coeffs m time nmax deriv e = Ok r -> ~ known_source (m_source m) -> model_spectrum a m time radius nmax deriv e = Err ValueError).
Proof.
  intros a m time radius nmax deriv e. unfold model_spectrum. split.
  - intros x ->. reflexivity.
  - intros r -> Hs. cbn [bind]. unfold nan_spectrum. change (power_spectrum a _ _ None (Some (m_source m)) None) with (plain a r (match radius with None => a | Some r => r end) (m_source m)).
    rewrite plain_axis. unfold power_spectrum. cbn [sh].
    assert (NA : exists k, norm_axis (List.length (s_sh r ++ [s_dim r])) (Z.of_nat (List.length (s_sh r))) = Ok k).
    { unfold norm_axis. rewrite snoc_len. destruct (Z.leb_spec (- Z.of_nat (S (List.length (s_sh r)))) (Z.of_nat (List.length (s_sh r)))); [|lia].
      destruct (Z.ltb_spec (Z.of_nat (List.length (s_sh r))) (Z.of_nat (S (List.length (s_sh r))))); [|lia]. eexists; reflexivity. }
    destruct NA as [k ->]. cbn [bind].
    assert (FE : factor (m_source m) = Err ValueError); [|rewrite FE; reflexivity].
    unfold factor. destruct (String.eqb_spec (m_source m) "internal"); [exfalso; apply Hs; left; assumption|].
    destruct (String.eqb_spec (m_source m) "external"); [exfalso; apply Hs; right; left; assumption|].
    destruct (String.eqb_spec (m_source m) "toroidal"); [exfalso; apply Hs; right; right; assumption|]. reflexivity.
Qed.

Example C136_applies : exists S, model_spectrum 6371.2 (degree_model [0; 1; 3] 4 8 (fun j i d => INR (j + i + d)) "internal"%string)
    (vec 0 [0.5; 3; 7]) (Some 3485) None (Some 1%nat) (XStr "linear") = Ok S /\ sh S = [3; 2]%nat.
Proof.
  destruct (C136_spectrum_inside_the_period 6371.2 [0; 1; 3] 4 2 (fun j i d => INR (j + i + d)) "internal"%string (vec 0 [0.5; 3; 7]) (Some 3485) None (Some 1%nat) (XStr "linear")) as (S & E & H & _).
  - lra.
  - cbn; lra.
  - split; [cbn; lia|]. intros i Hi. do 2 (destruct i as [|i]; [cbn; lra|]). cbn in Hi. lia.
  - lia.
  - lia.
  - left; reflexivity.
  - discriminate.
  - intros st Q. injection Q as <-. cbn. tauto.
  - exists S. split; [exact E|exact H].
Qed.

Print Assumptions C136_spectrum_inside_the_period.
Print Assumptions C136_without_extrapolation_nan_exactly_outside.
Print Assumptions C136_spectrum_of_the_returned_coefficients.
Print Assumptions C136_spectrum_is_the_mean_square_of_the_field.
Print Assumptions C136_errors.
