(** Round trips of whole models. *)
From Coq Require Import Reals List Arith ZArith String Bool Lia Lra FunctionalExtensionality.
From Verif Require Import M_Prelude M_ND Spec_Field Spec_PP M_SynthArr M_PP M_Spectrum M_Model M_Rotate M_Chaos M_Matfile Spec_Matfile P_ND P_SHC2 P_SHCModel P_Chaos P_Chaos4 P_Matfile P_Matfile2 P_Matfile3 P_Matfile4 P_Matfile5 P_Matfile6.
Import ListNotations.
Open Scope R_scope.

(** ** Saving succeeds if every part can be saved *)
Lemma step_ok w f1 f : w f1 = Ok f -> step w (f1, Ok tt) = (f, Ok tt).
Proof. unfold step. cbn [fst snd]. intros ->. reflexivity. Qed.

Lemma save_ok c meta f0 :
  (forall m, ch_tdep c = Some m -> exists pp, to_ppdict (m_base m) = Ok pp) ->
  (forall ds, ch_delta c = Some ds -> exists x, save_ext (ch_sm c) (ch_gsm c) ds = Ok x) ->
  (forall e es, ch_euler c = Some (e :: es) -> exists x, save_euler (e :: es) meta = Ok x) ->
  (forall cs, ch_cal c = Some cs -> exists x, mapM (fun sm => to_ppdict (snd sm)) cs = Ok x) ->
  (forall m, ch_static c = Some m -> exists k, b_coeffs (m_base m) = Some k) ->
  exists f, save_matfile c meta f0 = (f, Ok tt).
Proof.
  intros H1 H2 H3 H4 H5. unfold save_matfile.
  assert (S : forall (A : Type) (o : option A) (w : A -> matfile -> result matfile) s, (exists f, s = (f, Ok tt)) -> (forall x f, o = Some x -> exists f', w x f = Ok f') ->
    exists f, match o with None => s | Some x => step (w x) s end = (f, Ok tt)).
  { intros A [x|] w s (f & ->) H; [|eauto]. destruct (H x f eq_refl) as (f' & E). exists f'. apply step_ok. exact E. }
  assert (L : forall (A : Type) (o : option (list A)) (w : list A -> matfile -> result matfile) s, (exists f, s = (f, Ok tt)) -> (forall x l f, o = Some (x :: l) -> exists f', w (x :: l) f = Ok f') ->
    exists f, match o with None | Some [] => s | Some x => step (w x) s end = (f, Ok tt)).
  { intros A [[|x l]|] w s (f & ->) H; [eauto| |eauto]. destruct (H x l f eq_refl) as (f' & E). exists f'. apply step_ok. exact E. }
  match goal with |- exists f, match meta with SNone => ?s | SMeta pre _ => _ end = _ => assert (HS : exists f, s = (f, Ok tt)) end.
  2:{ destruct HS as (f & ->). destruct meta; [eauto|]. eexists. apply step_ok. reflexivity. }
  apply (S _ (ch_static c) (fun m f => match b_coeffs (m_base m) with None => Err OtherError | Some k => Ok (set_g (column (a_v (flat3 k))) f) end)).
  2:{ intros m f E. destruct (H5 m E) as (k & ->). eauto. }
  apply (L _ (ch_cal c) (fun cs f => bind (mapM (fun sm => to_ppdict (snd sm)) cs) (fun l => Ok (set_cal l f)))).
  2:{ intros x l f E. destruct (H4 _ E) as (k & ->). cbn [bind]. eauto. }
  apply (L _ (ch_euler c) (fun es f => bind (save_euler es meta) (fun x => Ok (set_euler x f)))).
  2:{ intros x l f E. destruct (H3 _ _ E) as (k & ->). cbn [bind]. eauto. }
  apply (S _ (ch_delta c) (fun ds f => bind (save_ext (ch_sm c) (ch_gsm c) ds) (fun x => Ok (set_ext x f)))).
  2:{ intros ds f E. destruct (H2 _ E) as (k & ->). cbn [bind]. eauto. }
  apply (S _ (ch_tdep c) (fun m f => bind (to_ppdict (m_base m)) (fun pp => Ok (set_pp pp f)))); [eauto|].
  intros m f E. destruct (H1 _ E) as (k & ->). cbn [bind]. eauto.
Qed.

(** ** External part *)
Lemma ext_parts c meta f0 f sats c' n1 n2 sm gsm q10 q11 s11 :
  ch_sm c = Some sm -> ch_gsm c = Some gsm -> ch_delta c = Some (q10, q11, s11) ->
  (3 <= List.length sm)%nat -> (4 <= List.length gsm)%nat -> d_order q10 = 1%nat -> d_order q11 = 1%nat -> d_order s11 = 1%nat ->
  pieces_of q11 = pieces_of s11 ->
  save_matfile c meta f0 = (f, Ok tt) -> load_CHAOS_matfile f sats = Ok (c', n1, n2) ->
  ch_sm c' = Some sm /\ ch_gsm c' = Some (kept_gsm gsm) /\
  exists a b d, ch_delta c' = Some (a, b, d) /\ same_delta q10 a /\ same_delta q11 b /\
    d_breaks d = d_breaks q11 /\ d_order d = 1%nat /\ forall i, (i < pieces_of s11)%nat -> d_coeffs d 0%nat i = d_coeffs s11 0%nat i.
Proof.
  intros E1 E2 E3 L1 L2 O1 O2 O3 HP HW HR. apply save_inv in HW as (_ & W & _). rewrite E1, E2, E3 in W. destruct W as (x & W1 & W2).
  destruct (ext_round_trip sm gsm q10 q11 s11 L1 L2 O1 O2 O3 HP) as (x' & X1 & X2). rewrite W1 in X1. injection X1 as <-.
  apply load_inv in HR as (pp & a & sm' & gsm' & ds' & be' & ce' & bc' & cc' & _ & _ & R1 & _ & _ & R3).
  destruct (init_parts _ _ _ _ _ _ _ _ _ _ _ _ _ R3) as (_ & _ & _ & Q1 & Q2 & Q3 & _). rewrite Q1, Q2, Q3.
  unfold ext_part in R1. rewrite W2 in R1. destruct (pieces_of q11 =? 1)%nat.
  - rewrite X2 in R1. discriminate.
  - destruct X2 as (u & v & w & X2 & X3). rewrite X2 in R1. cbn [bind] in R1. injection R1 as <- <- <-. split; [reflexivity|]. split; [reflexivity|].
    exists u, v, w. split; [reflexivity|]. exact X3.
Qed.

(** a single interval of q11 and s11 *)
Lemma ext_single c meta f0 f sats sm gsm q10 q11 s11 :
  ch_sm c = Some sm -> ch_gsm c = Some gsm -> ch_delta c = Some (q10, q11, s11) ->
  (3 <= List.length sm)%nat -> (4 <= List.length gsm)%nat -> d_order q10 = 1%nat -> d_order q11 = 1%nat -> d_order s11 = 1%nat ->
  pieces_of q11 = 1%nat -> pieces_of s11 = 1%nat ->
  save_matfile c meta f0 = (f, Ok tt) -> exists e, load_CHAOS_matfile f sats = Err e.
Proof.
  intros E1 E2 E3 L1 L2 O1 O2 O3 HP HP' HW. apply save_inv in HW as (_ & W & _). rewrite E1, E2, E3 in W. destruct W as (x & W1 & W2).
  destruct (ext_round_trip sm gsm q10 q11 s11 L1 L2 O1 O2 O3 ltac:(congruence)) as (x' & X1 & X2). rewrite W1 in X1. injection X1 as <-.
  rewrite HP in X2. change (1 =? 1)%nat with true in X2. cbv iota in X2.
  destruct (load_CHAOS_matfile f sats) as [[[c' n1] n2]|e] eqn:HR; [|eauto]. exfalso.
  apply load_inv in HR as (pp & a & sm' & gsm' & ds' & be' & ce' & bc' & cc' & _ & _ & R1 & _ & _ & R3).
  unfold ext_part in R1. rewrite W2, X2 in R1. discriminate.
Qed.

Lemma same_delta_at d d' t : same_delta d d' -> (2 <= List.length (d_breaks d))%nat -> delta_at d t = delta_at d' t.
Proof.
  intros (S1 & S2 & S3) L. unfold delta_at.
  rewrite (same_eval 1 (mkpp (d_breaks d) (d_order d) (fun r i _ => d_coeffs d r i) true) (mkpp (d_breaks d') (d_order d') (fun r i _ => d_coeffs d' r i) true)); [reflexivity| |lia].
  split; [exact S1|]. split; [exact S2|]. split; [reflexivity|]. split; [exact L|]. intros r i j Hr Hi _. apply S3; assumption.
Qed.

(** the SM coefficients depend on the baseline corrections only by their values *)
Lemma sm_same E c c' time nmax source rc ds ds' : ch_sm c' = ch_sm c -> ch_delta c = Some ds -> ch_delta c' = Some ds' ->
  (forall j, d_breaks (nth_delta ds j) = d_breaks (nth_delta ds' j) /\ forall t, delta_at (nth_delta ds j) t = delta_at (nth_delta ds' j) t) ->
  synth_coeffs_sm E c time nmax source rc = synth_coeffs_sm E c' time nmax source rc.
Proof.
  intros E1 E2 E3 H. unfold synth_coeffs_sm. rewrite E1, E2, E3. destruct (ch_sm c) as [sm|]; [|reflexivity].
  cbn [existsb]. rewrite !(proj1 (H _)). destruct (_ || _); [reflexivity|].
  destruct (amin (elems time)); [|reflexivity]. cbn [bind]. destruct (load (e_sm E)) as [f|]; [|reflexivity]. cbn [bind].
  destruct (negb _); [reflexivity|]. destruct (match rc with None => _ | Some r => Ok r end) as [r|]; [|reflexivity]. cbn [bind].
  destruct (synth_rotate_gauss _ _ _ _) as [M|]; [|reflexivity]. cbn [bind]. 
  assert (X : sm_coeffs f sm ds time r match source with None => "external"%string | Some s => s end M = sm_coeffs f sm ds' time r match source with None => "external"%string | Some s => s end M).
  { unfold sm_coeffs.
    replace (fun x => sm_vector sm (fun j => bread r x * nth j sm 0 + delta_at (nth_delta ds j) (at_ time x)))
      with (fun x => sm_vector sm (fun j => bread r x * nth j sm 0 + delta_at (nth_delta ds' j) (at_ time x))).
    2:{ apply functional_extensionality. intros x. f_equal. apply functional_extensionality. intros j. rewrite (proj2 (H j)). reflexivity. }
    replace (fun x => sm_vector sm (fun j => delta_at (nth_delta ds j) (at_ time x)))
      with (fun x => sm_vector sm (fun j => delta_at (nth_delta ds' j) (at_ time x))); [reflexivity|].
    apply functional_extensionality. intros x. f_equal. apply functional_extensionality. intros j. rewrite (proj2 (H j)). reflexivity. }
  rewrite X. reflexivity.
Qed.

(** ** Euler angles *)
Lemma euler_parts c es sats ex ek pre f0 f arg c' n1 n2 :
  ch_euler c = Some es -> NoDup sats -> (forall s, In s sats -> exists e, lookup s es = Some e /\ angles_ok e (ex s) (ek s)) ->
  varied (map (fun s => saved_breaks (ex s)) sats) -> varied (map (fun s => saved_angle (ek s) 0) sats) ->
  (List.length sats <= List.length pre)%nat -> fst (name_satellites (List.length sats) (sat_list arg)) = sats ->
  save_matfile c (SMeta pre sats) f0 = (f, Ok tt) -> load_CHAOS_matfile f arg = Ok (c', n1, n2) ->
  n1 = sats /\ exists es', ch_euler c' = Some es' /\ map fst es' = sats /\
    forall s, In s sats -> exists e e', lookup s es = Some e /\ lookup s es' = Some e' /\ same_base (eu_base e) (eu_base e').
Proof.
  intros E1 HN HA VB VA HP HF HW HR. apply save_inv in HW as (_ & _ & W & _ & _ & WM). rewrite E1 in W.
  assert (NE : exists e l, es = e :: l).
  { destruct es as [|e l]; [|eauto]. exfalso. destruct VB as (x & _ & Hx & _). apply in_map_iff in Hx as (s & _ & Hs). destruct (HA s Hs) as (e & L & _). discriminate. }
  destruct NE as (e0 & l0 & EE). rewrite EE in W. destruct W as (u & W1 & W2). rewrite <- EE in W1.
  rewrite (save_euler_ok es sats ex ek HA VB VA pre) in W1. injection W1 as <-.
  apply load_inv in HR as (pp & a & sm' & gsm' & ds' & be' & ce' & bc' & cc' & _ & _ & _ & R1 & _ & R3).
  destruct (init_parts _ _ _ _ _ _ _ _ _ _ _ _ _ R3) as (_ & _ & _ & _ & _ & _ & Q1 & _).
  unfold euler_part in R1. rewrite W2, (load_euler_ok sats ex ek HN (sat_list arg) HF) in R1. cbn [bind] in R1. injection R1 as <- <- R1.
  split; [rewrite R1 in HF; exact HF|].
  destruct (Q1 _ eq_refl) as (es' & Q2 & Q3). unfold file_meta in Q3. rewrite WM in Q3.
  destruct (reload_entries es sats ex ek HN HA pre HP) as (es'' & Y1 & Y2 & Y3). rewrite Y1 in Q3. injection Q3 as <-.
  exists es''. split; [exact Q2|]. split; [exact Y2|exact Y3].
Qed.

(** without the pre-rotation in the file the angles cannot be loaded *)
Lemma make_dict_ne {A} k (v : A) l : make_dict ((k, v) :: l) <> [].
Proof.
  unfold make_dict. cbn [fold_left].
  assert (G : forall (l : list (string * A)) d, d <> [] -> fold_left (fun d kv => dict_set (fst kv) (snd kv) d) l d <> []).
  { clear. induction l as [|[k v] l IH]; intros d H; [exact H|]. cbn [fold_left]. apply IH. cbn [fst snd]. destruct d as [|[k' v'] d]; [contradiction|]. cbn [dict_set]. destruct (k =? k')%string; discriminate. }
  cbn [dict_set fst snd]. apply G. discriminate.
Qed.

Lemma euler_needs_params f u t tb arg : mf_euler f = Some u -> u_breaks u = Cells (t :: tb) -> mf_params f = None ->
  exists e, load_CHAOS_matfile f arg = Err e.
Proof.
  intros E1 E2 E3. destruct (load_CHAOS_matfile f arg) as [[[c' n1] n2]|e] eqn:HR; [|eauto]. exfalso.
  apply load_inv in HR as (pp & a & sm' & gsm' & ds' & be' & ce' & bc' & cc' & _ & _ & _ & R1 & _ & R3).
  destruct (init_parts _ _ _ _ _ _ _ _ _ _ _ _ _ R3) as (_ & _ & _ & _ & _ & _ & Q1 & _).
  unfold euler_part, load_euler in R1. rewrite E1, E2 in R1. destruct (u_alpha u), (u_beta u), (u_gamma u); try discriminate.
  pose proof (names_spec (List.length (t :: tb)) (sat_list arg)) as (NL & _). cbv zeta in NL.
  destruct (name_satellites (List.length (t :: tb)) (sat_list arg)) as [nm1 nm2] eqn:EN. cbn [fst] in R1, NL.
  destruct nm1 as [|s ls]; [discriminate|].
  match type of R1 with bind (bind ?m _) _ = _ => destruct m as [ks|]; [|discriminate] end. cbn [bind] in R1. injection R1 as <- _ _.
  destruct (Q1 _ eq_refl) as (es & _ & Q2). unfold file_meta in Q2. rewrite E3 in Q2.
  match type of Q2 with context [make_dict ?q] => pose proof (make_dict_ne s (a_v (squeeze t)) (combine ls (map (fun t => a_v (squeeze t)) tb))) as N; destruct (make_dict q) as [|[s' b'] d] eqn:ED end; [apply N; exact ED|].
  cbn [List.length seq combine mapM euler_entry prerotation bind] in Q2. discriminate.
Qed.

(** ** Calibration *)
Lemma cal_entry_inv cc l es : mapM (cal_entry cc) l = Ok es -> Forall2 (fun sb e => exists K cs, cc = Some cs /\ lookup (fst sb) cs = Some K /\ e = (fst sb, base_init (Some (snd sb)) (Some 1%Z) (Some K))) l es.
Proof.
  revert es. induction l as [|[s b] l IH]; intros es H.
  - injection H as <-. constructor.
  - cbn [mapM] in H. unfold cal_entry at 1 in H. destruct cc as [cs|]; [|discriminate]. destruct (lookup s cs) as [K|] eqn:EK; [|discriminate]. cbn [bind] in H.
    destruct (mapM _ l) as [es'|]; [|discriminate]. injection H as <-. constructor; [|apply IH; reflexivity]. exists K, cs. repeat split. exact EK.
Qed.

Lemma cal_parts c sat b x k f0 f meta arg c' n1 n2 :
  ch_cal c = Some [(sat, b)] -> full_base b x k -> c_k k = 1%nat -> c_d k = 9%nat ->
  save_matfile c meta f0 = (f, Ok tt) -> load_CHAOS_matfile f arg = Ok (c', n1, n2) ->
  exists b', ch_cal c' = Some [("cryosat-2_1"%string, b')] /\ same_base b b'.
Proof.
  intros E1 FB K1 K2 HW HR. apply save_inv in HW as (_ & _ & _ & W & _). rewrite E1 in W. destruct W as (l & W1 & W2).
  destruct (ppdict_round_trip _ _ _ FB) as (pp0 & U1 & U2 & U3 & U4 & U5 & a0 & U6 & U7). cbn [mapM snd] in W1. rewrite U1 in W1. cbn [bind] in W1. injection W1 as <-.
  apply load_inv in HR as (pp & a & sm' & gsm' & ds' & be' & ce' & bc' & cc' & _ & _ & _ & _ & R1 & R3).
  destruct (init_parts _ _ _ _ _ _ _ _ _ _ _ _ _ R3) as (_ & _ & _ & _ & _ & _ & _ & _ & Q1).
  assert (V : a_v (squeeze (pp_coefs pp0)) = a_v (flat3 k)).
  { clear U6 U7 U5 U4 U3 U2. unfold to_ppdict in U1. destruct FB as [B1 B2 B3 B4 B5 B6 B7 B8]. rewrite B1, B3, B4, B6, B8 in U1. rewrite Nat2Z.id, K1 in U1. generalize dependent (flat3 k). intros F U1. unfold reshape_rows in U1. cbn [Nat.eqb] in U1.
    rewrite Nat.mod_1_r, Nat.div_1_r in U1. cbn [Nat.eqb bind] in U1. injection U1 as <-. cbn [pp_coefs]. unfold M_Matfile.transpose, squeeze. cbn [a_sh a_v].
    apply list_ext; [rewrite map_length, seq_length; lia|]. intros p Hp. rewrite map_length, seq_length in Hp. rewrite nth_map_seq by exact Hp.
    rewrite Nat.mod_1_r, Nat.div_1_r. reflexivity. }
  unfold cal_part in R1. rewrite W2, V, flat3_length, K1, K2, U5 in R1. cbv zeta in R1.
  assert (M9 : (1 * (c_m k * 9)) mod 9 = 0%nat) by (rewrite Nat.mul_1_l; apply Nat.mod_mul; lia).
  assert (D9 : ((1 * (c_m k * 9)) / 9 = c_m k)%nat) by (rewrite Nat.mul_1_l; apply Nat.div_mul; lia).
  rewrite M9, D9 in R1. change (0 =? 0)%nat with true in R1. cbv iota in R1. injection R1 as <- <-.
  destruct (Q1 _ eq_refl) as (es & Q2 & Q3). cbn [mapM cal_entry lookup String.eqb Ascii.eqb Bool.eqb bind] in Q3. injection Q3 as <-.
  eexists. split; [exact Q2|].
  destruct (reloaded_base x k None (fb_len _ _ _ FB) (fb_k _ _ _ FB) (fb_m _ _ _ FB) b FB) as (S1 & _). rewrite K1, K2 in S1. exact S1.
Qed.

(** more than one satellite with calibration parameters *)
Lemma cal_several c e1 e2 l f0 f meta arg :
  ch_cal c = Some (e1 :: e2 :: l) -> save_matfile c meta f0 = (f, Ok tt) -> exists e, load_CHAOS_matfile f arg = Err e.
Proof.
  intros E1 HW. apply save_inv in HW as (_ & _ & _ & W & _). rewrite E1 in W. destruct W as (x & W1 & W2).
  assert (LX : exists p q r, x = p :: q :: r).
  { cbn [mapM] in W1. destruct (to_ppdict (snd e1)) as [p|]; [|discriminate]. cbn [bind] in W1. destruct (to_ppdict (snd e2)) as [q|]; [|discriminate]. cbn [bind] in W1.
    destruct (mapM _ l) as [r|]; [|discriminate]. cbn [bind] in W1. injection W1 as <-. eauto. }
  destruct LX as (p & q & r & ->).
  destruct (load_CHAOS_matfile f arg) as [[[c' n1] n2]|e] eqn:HR; [|eauto]. exfalso.
  apply load_inv in HR as (pp & a & sm' & gsm' & ds' & be' & ce' & bc' & cc' & _ & _ & _ & _ & R1 & _).
  unfold cal_part in R1. rewrite W2 in R1. discriminate.
Qed.
