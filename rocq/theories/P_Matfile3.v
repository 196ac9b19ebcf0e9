(** Loading, and the round trip of the internal and external parts. *)
From Coq Require Import Reals List Arith ZArith String Bool Lia Lra.
From Verif Require Import M_Prelude M_ND Spec_Field Spec_PP M_PP M_Spectrum M_Model M_Chaos M_Matfile Spec_Matfile P_ND P_SHCModel P_Chaos P_Chaos4 P_Matfile P_Matfile2.
Import ListNotations.
Open Scope R_scope.

Definition sat_list (s : option (list string)) : list string := match s with None => default_satellites | Some l => l end.
Definition file_meta (f : matfile) : metadata := match mf_params f with None => MetaNone | Some l => MetaPre l end.

Definition cal_part (f : matfile) : result (option (list (string * list R)) * option (list (string * c3))) :=
  match mf_cal f with
  | None => Ok (None, None)
  | Some [p] =>
      let v := a_v (squeeze (pp_coefs p)) in
      if (List.length v mod 9 =? 0)%nat
      then Ok (Some [("cryosat-2_1"%string, a_v (squeeze (pp_breaks p)))], Some [("cryosat-2_1"%string, cube 1 (List.length v / 9) 9 v)])
      else Err ValueError
  | Some _ => Err IndexError
  end.

Definition ext_part (f : matfile) : result (option (list R) * option (list R) * option (delta * delta * delta)) :=
  match mf_ext f with
  | None => Ok (None, None, None)
  | Some x => bind (load_ext x) (fun q => let '(sm, gsm, ds) := q in Ok (Some sm, Some gsm, Some ds))
  end.

Definition euler_part (f : matfile) (sats : list string)
  : result (option (list (string * list R)) * option (list (string * c3)) * (list string * list string)) :=
  match mf_euler f with
  | None => Ok (None, None, (sats, sats))
  | Some u => bind (load_euler u sats) (fun q => let '(b, k, n) := q in Ok (Some b, Some k, n))
  end.

Lemma load_inv f sats c' n1 n2 : load_CHAOS_matfile f sats = Ok (c', n1, n2) ->
  exists pp ct sm gsm ds be ce bc cc,
    mf_pp f = Some pp /\ reshape [pp_order pp; pp_pieces pp; pp_dim pp] (M_Matfile.transpose (squeeze (pp_coefs pp))) = Ok ct /\
    ext_part f = Ok (sm, gsm, ds) /\ euler_part f (sat_list sats) = Ok (be, ce, (n1, n2)) /\ cal_part f = Ok (bc, cc) /\
    chaos_init (a_v (squeeze (pp_breaks pp))) (Some (Z.of_nat (pp_order pp))) (Some (cube (pp_order pp) (pp_pieces pp) (pp_dim pp) (a_v ct)))
      (option_map (fun g => cube 1 1 (List.length (a_v g)) (a_v g)) (mf_g f)) sm gsm ds be ce bc cc (file_meta f) = Ok c'.
Proof.
  unfold load_CHAOS_matfile. destruct (mf_pp f) as [pp|]; [|discriminate]. intros H.
  apply bind_inv in H as (ct & HC & H). apply bind_inv in H as ([[sm gsm] ds] & HE & H).
  apply bind_inv in H as ([[be ce] [m1 m2]] & HU & H). apply bind_inv in H as ([bc cc] & HK & H). apply bind_inv in H as (c & HI & H).
  injection H as -> <- <-. exists pp, ct, sm, gsm, ds, be, ce, bc, cc. repeat split; assumption.
Qed.

Lemma load_ok f sats pp ct sm gsm ds be ce bc cc n1 n2 c' :
  mf_pp f = Some pp -> reshape [pp_order pp; pp_pieces pp; pp_dim pp] (M_Matfile.transpose (squeeze (pp_coefs pp))) = Ok ct ->
  ext_part f = Ok (sm, gsm, ds) -> euler_part f (sat_list sats) = Ok (be, ce, (n1, n2)) -> cal_part f = Ok (bc, cc) ->
  chaos_init (a_v (squeeze (pp_breaks pp))) (Some (Z.of_nat (pp_order pp))) (Some (cube (pp_order pp) (pp_pieces pp) (pp_dim pp) (a_v ct)))
      (option_map (fun g => cube 1 1 (List.length (a_v g)) (a_v g)) (mf_g f)) sm gsm ds be ce bc cc (file_meta f) = Ok c' ->
  load_CHAOS_matfile f sats = Ok (c', n1, n2).
Proof.
  intros H1 H2 H3 H4 H5 H6. unfold load_CHAOS_matfile. rewrite H1, H2. cbn [bind].
  change (match mf_ext f with None => Ok (None, None, None) | Some x => _ end) with (ext_part f). rewrite H3. cbn [bind].
  change (match mf_euler f with None => _ | Some u => _ end) with (euler_part f (sat_list sats)). rewrite H4. cbn [bind].
  change (match mf_cal f with None => _ | Some u => _ end) with (cal_part f). rewrite H5. cbn [bind].
  change (match mf_params f with None => _ | Some u => _ end) with (file_meta f). rewrite H6. reflexivity.
Qed.

(** ** Internal part *)
Lemma init_full breaks order k : (2 <= List.length breaks)%nat -> (1 <= c_k k)%nat -> c_m k = (List.length breaks - 1)%nat ->
  (forall o, order = Some o -> (1 <= o)%Z) ->
  exists k', full_base (base_init (Some breaks) order (Some k)) breaks k' /\ c_d k' = c_d k.
Proof.
  intros HL HK HM HO. set (o := match order with None => Z.of_nat (c_k k) | Some o => Z.min o (Z.of_nat (c_k k)) end).
  assert (Ho : (1 <= o <= Z.of_nat (c_k k))%Z) by (unfold o; destruct order as [z|]; [specialize (HO z eq_refl)|]; lia).
  assert (EB : match breaks with [b] => Some [b; b] | _ => Some breaks end = Some breaks) by (destruct breaks as [|? [|]]; cbn in HL; try lia; reflexivity).
  exists (take_last k o).
  assert (CK : Z.of_nat (c_k (take_last k o)) = o).
  { unfold take_last. cbn [c_k]. destruct (Z.eqb_spec o 0); [lia|]. destruct (Z.ltb_spec 0 o); lia. }
  split; [|reflexivity]. split.
  - unfold base_init. rewrite EB. reflexivity.
  - exact HL.
  - unfold base_init. rewrite EB. reflexivity.
  - unfold base_init. rewrite EB. cbn [b_order]. rewrite CK. reflexivity.
  - lia.
  - unfold base_init. rewrite EB. reflexivity.
  - exact HM.
  - unfold base_init. rewrite EB. reflexivity.
Qed.

Lemma first_last_breaks (x : list R) b b' : x <> [] -> last x b = last x b'.
Proof. intros H. rewrite (last_is_nth x b 0 H), (last_is_nth x b' 0 H). reflexivity. Qed.

Lemma static_round_trip b e D v : forall g, g = a_v (flat3 (take_last (mkc3 1 1 D v) 1)) ->
  same_model (model_init (Some [b; e]) (Some 1%Z) (Some (mkc3 1 1 D v)) (Some "internal"%string))
             (model_init (Some [b; e]) (Some 1%Z) (Some (cube 1 1 (List.length g) g)) (Some "internal"%string)).
Proof.
  intros g Eg. assert (LG : List.length g = D). { rewrite Eg, flat3_length. cbn. lia. }
  rewrite LG. split; [|split; reflexivity].
  do 4 (split; [reflexivity|]). cbn [b_coeffs m_base model_init base_init].
  change (Z.min 1 (Z.of_nat (c_k (mkc3 1 1 D v)))) with 1%Z. change (Z.min 1 (Z.of_nat (c_k (cube 1 1 D g)))) with 1%Z.
  pose proof (cube_flat (take_last (mkc3 1 1 D v) 1)) as X. rewrite <- Eg in X.
  eapply same_coeffs_trans; [exact X|]. apply (take_last_all (cube 1 1 D g)).
Qed.

(** the two internal parts of any model that was saved to a new file *)
Lemma internal_round_trip breaks order ct static sm gsm ds be ce bc cc mt c meta f sats c' n1 n2 :
  chaos_init breaks order (Some ct) static sm gsm ds be ce bc cc mt = Ok c ->
  (2 <= List.length breaks)%nat -> (1 <= c_k ct)%nat -> c_m ct = (List.length breaks - 1)%nat -> (forall o, order = Some o -> (1 <= o)%Z) ->
  (forall k, static = Some k -> c_k k = 1%nat /\ c_m k = 1%nat) ->
  save_matfile c meta no_file = (f, Ok tt) -> load_CHAOS_matfile f sats = Ok (c', n1, n2) ->
  same_part same_model (ch_tdep c) (ch_tdep c') /\ same_part same_model (ch_static c) (ch_static c').
Proof.
  intros HI HL HK HM HO HS HW HR.
  destruct (init_parts _ _ _ _ _ _ _ _ _ _ _ _ _ HI) as (P1 & P2 & P3 & _). cbn [option_map] in P1.
  apply save_inv in HW as (W1 & _ & _ & _ & W2 & _). apply load_inv in HR as (pp & a & sm' & gsm' & ds' & be' & ce' & bc' & cc' & R1 & R2 & _ & _ & _ & R3).
  destruct (init_parts _ _ _ _ _ _ _ _ _ _ _ _ _ R3) as (Q1 & Q2 & Q3 & _). cbn [option_map] in Q1.
  rewrite P1 in W1. cbn [m_base model_init] in W1. destruct W1 as (pp' & V1 & V2). rewrite R1 in V2. injection V2 as <-.
  destruct (init_full breaks order ct HL HK HM HO) as (k & FB & DK).
  destruct (ppdict_round_trip _ _ _ FB) as (pp' & U1 & U2 & U3 & U4 & U5 & a' & U6 & U7). rewrite V1 in U1. injection U1 as <-. rewrite R2 in U6. injection U6 as <-.
  rewrite U5, U2, U3, U4, U7 in *. split.
  - rewrite P1, Q1. cbn [same_part]. destruct (reloaded_base breaks k (Some "internal"%string) HL (fb_k _ _ _ FB) (fb_m _ _ _ FB) _ FB) as (S1 & S2).
    split; [exact S1|]. split; [|reflexivity]. rewrite S2, DK. unfold model_init. cbn [m_nmax]. rewrite (fb_dim _ _ _ FB), DK. reflexivity.
  - destruct static as [[k1 m1 D v]|].
    + destruct (P2 _ eq_refl) as (b & E1 & NE). rewrite E1 in *. destruct W2 as (kc & W3 & W4). rewrite W4 in Q2. cbn [option_map] in Q2.
      destruct (Q2 _ eq_refl) as (b' & E2 & _). rewrite E2. cbn [same_part]. cbn [c_k c_m] in *. destruct (HS _ eq_refl) as [H1 H2]. cbn in H1, H2. subst k1 m1.
      rewrite (first_last_breaks breaks b' b NE).
      injection W3 as <-. apply static_round_trip. reflexivity.
    + rewrite (P3 eq_refl) in *. cbn in W2. rewrite W2 in Q3. rewrite (Q3 eq_refl). exact I.
Qed.
