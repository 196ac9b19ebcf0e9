(** Contents of saved MAT-files: Euler angles, calibration; when saving fails. *)
From Coq Require Import Reals List Arith ZArith String Bool Lia Lra.
From Verif Require Import M_Prelude M_ND Spec_Field Spec_PP M_SynthArr M_PP M_Spectrum M_Model M_Chaos M_Matfile Spec_Matfile Spec_MatContent P_ND P_SHC2 P_PP P_PP2 P_Chaos P_Chaos4 P_Matfile P_Matfile2 P_Matfile3 P_Matfile4 P_Matfile5 P_Matfile6 P_Matfile7 P_MatContent.
Import ListNotations.
Open Scope R_scope.

Lemma mapM_nth {A B} (g : A -> result B) l y : mapM g l = Ok y -> List.length y = List.length l /\
  forall k a, nth_error l k = Some a -> exists b, nth_error y k = Some b /\ g a = Ok b.
Proof.
  revert y. induction l as [|a l IH]; intros y H; cbn [mapM] in H.
  - injection H as <-. split; [reflexivity|]. intros [|k] ?; discriminate.
  - apply bind_inv in H as (b & H1 & H). apply bind_inv in H as (ys & H2 & H). injection H as <-. destruct (IH _ H2) as [I1 I2].
    split; [cbn; lia|]. intros [|k] z Hz; [injection Hz as <-; exists b; split; [reflexivity|exact H1]|]. apply (I2 k z Hz).
Qed.

Lemma object_array_contents l : contents (object_array l) = l.
Proof. unfold object_array. destruct (same_shapes l); reflexivity. Qed.

Lemma object_array_stacked l : stacked (object_array l) <-> l <> [] /\ forall a b, In a l -> In b l -> a_sh a = a_sh b.
Proof.
  unfold object_array, stacked. split.
  - intros (l' & H). destruct (same_shapes l) eqn:E; [|discriminate]. destruct l as [|a l]; [discriminate|]. split; [discriminate|].
    cbn [same_shapes] in E. rewrite forallb_forall in E.
    assert (G : forall y, In y (a :: l) -> a_sh y = a_sh a) by (intros y [<-|Hy]; [reflexivity|]; apply shape_eqb_eq, E, Hy).
    intros u w Hu Hw. rewrite (G u Hu), (G w Hw). reflexivity.
  - intros [N H]. destruct l as [|a l]; [contradiction|]. cbn [same_shapes].
    replace (forallb (fun b => shape_eqb (a_sh b) (a_sh a)) l) with true; [eauto|]. symmetry. apply forallb_forall. intros y Hy.
    rewrite (H y a (or_intror Hy) (or_introl eq_refl)). apply shape_eqb_refl.
Qed.

Lemma last_nth (x : list R) b : x <> [] -> last x b = nth (List.length x - 1) x 0.
Proof.
  intros H. destruct x as [|a x] using rev_ind; [contradiction|]. rewrite last_last, app_length. cbn [List.length].
  rewrite app_nth2 by lia. replace (List.length x + 1 - 1 - List.length x)%nat with 0%nat by lia. reflexivity.
Qed.

Lemma entry_inv es s q : save_euler_entry es s = Ok q -> exists e x k, lookup s es = Some e /\ b_breaks (eu_base e) = Some x /\ x <> [] /\ b_coeffs (eu_base e) = Some k /\
  (1 <= c_k k)%nat /\ (3 <= c_d k)%nat /\
  q = (column (reduced x), column (map (fun i => c_v k 0%nat i 0%nat) (seq 0 (c_m k))), column (map (fun i => c_v k 0%nat i 1%nat) (seq 0 (c_m k))),
       column (map (fun i => c_v k 0%nat i 2%nat) (seq 0 (c_m k)))).
Proof.
  unfold save_euler_entry. destruct (lookup s es) as [e|]; [|discriminate]. destruct (b_breaks (eu_base e)) as [[|b x]|] eqn:EB; [destruct (b_coeffs (eu_base e)); discriminate| |discriminate].
  destruct (b_coeffs (eu_base e)) as [k|] eqn:EC; [|discriminate].
  destruct ((c_k k =? 0)%nat || (c_d k <? 3)%nat) eqn:EO; [discriminate|]. intros H. injection H as <-. apply orb_false_iff in EO as [O1 O2].
  apply Nat.eqb_neq in O1. apply Nat.ltb_ge in O2. exists e, (b :: x), k. split; [reflexivity|]. split; [exact EB|]. split; [discriminate|]. split; [exact EC|].
  split; [lia|]. split; [exact O2|]. unfold reduced. rewrite <- (last_nth (b :: x) b) by discriminate. reflexivity.
Qed.

Lemma saved_euler c meta f0 f q es : save_matfile c meta f0 = (f, Ok tt) -> ch_euler c = Some (q :: es) ->
  exists pre sats u, meta = SMeta pre sats /\ mf_euler f = Some u /\
    (forall w, In w [u_breaks u; u_alpha u; u_beta u; u_gamma u] -> List.length (contents w) = List.length sats /\
       (stacked w <-> contents w <> [] /\ forall a b, In a (contents w) -> In b (contents w) -> a_sh a = a_sh b)) /\
    forall k s, nth_error sats k = Some s -> exists e x C ta a b g,
      lookup s (q :: es) = Some e /\ b_breaks (eu_base e) = Some x /\ b_coeffs (eu_base e) = Some C /\ (3 <= c_d C)%nat /\
      nth_error (contents (u_breaks u)) k = Some ta /\ nth_error (contents (u_alpha u)) k = Some a /\
      nth_error (contents (u_beta u)) k = Some b /\ nth_error (contents (u_gamma u)) k = Some g /\
      matrix ta (List.length (reduced x)) 1 (fun i _ => nth i (reduced x) 0) /\ matrix a (c_m C) 1 (fun i _ => c_v C 0%nat i 0%nat) /\
      matrix b (c_m C) 1 (fun i _ => c_v C 0%nat i 1%nat) /\ matrix g (c_m C) 1 (fun i _ => c_v C 0%nat i 2%nat).
Proof.
  intros HS HE. apply save_inv in HS as (_ & _ & A & _). rewrite HE in A. destruct A as (u & A1 & A2).
  destruct meta as [|pre sats]; [discriminate|]. unfold save_euler in A1. apply bind_inv in A1 as (l & A1 & A3). injection A3 as <-.
  eexists pre, sats, _. split; [reflexivity|]. split; [exact A2|]. cbn [u_breaks u_alpha u_beta u_gamma].
  destruct (mapM_nth _ _ _ A1) as [N1 N2]. rewrite !object_array_contents. split.
  - intros w Hw. cbn [In] in Hw.
    assert (W : exists g : arr * arr * arr * arr -> arr, w = object_array (map g l)).
    { destruct Hw as [<-|[<-|[<-|[<-|[]]]]]; eexists; reflexivity. }
    destruct W as (g & ->). rewrite object_array_contents. split; [rewrite map_length; exact N1|apply object_array_stacked].
  - intros k s Hs. destruct (N2 k s Hs) as (y & Y1 & Y2). apply entry_inv in Y2 as (e & x & C & E1 & E2 & E3 & E4 & E5 & E6 & ->).
    eexists e, x, C, _, _, _, _. split; [exact E1|]. split; [exact E2|]. split; [exact E4|]. split; [exact E6|].
    rewrite !nth_error_map, Y1. cbn [option_map fst snd]. do 4 (split; [reflexivity|]).
    split; [apply column_matrix|]. split; [apply column_map|]. split; apply column_map.
Qed.

Lemma saved_made c meta f0 f m x K D v : save_matfile c meta f0 = (f, Ok tt) -> ch_tdep c = Some m -> made_from (m_base m) x K D v ->
  exists pp, mf_pp f = Some pp /\ pp_form pp x K D v.
Proof. intros HS HT (H1 & H2 & H3). apply (saved_pp _ _ _ _ _ _ _ _ _ HS HT H1 H2 H3). Qed.

Lemma made_full b x K D v : made_from b x K D v -> exists pp, to_ppdict b = Ok pp /\ pp_form pp x K D v.
Proof.
  intros HM. pose (m := mkmodel b None EmptyString). pose (c := mkchaos (Some m) None None None None None None).
  pose proof HM as (HB & HX & HK).
  destruct (init_full x None (mkc3 K (List.length x - 1) D v) HX HK eq_refl ltac:(discriminate)) as (k & F & _).
  destruct (ppdict_content _ _ _ F) as (pp & P1 & _). rewrite <- HB in P1.
  assert (HS : save_matfile c SNone no_file = (set_pp pp no_file, Ok tt)).
  { unfold save_matfile, c, m. cbn [ch_tdep ch_delta ch_euler ch_cal ch_static m_base]. unfold step. cbn [fst snd]. rewrite P1. reflexivity. }
  destruct (saved_made c SNone no_file _ m x K D v HS eq_refl HM) as (pp' & E & PF). injection E as <-. eauto.
Qed.

Lemma saved_cal c meta f0 f q cs : save_matfile c meta f0 = (f, Ok tt) -> ch_cal c = Some (q :: cs) ->
  exists l, mf_cal f = Some l /\ List.length l = List.length (q :: cs) /\
    forall k s b x K D v, nth_error (q :: cs) k = Some (s, b) -> made_from b x K D v -> exists pp, nth_error l k = Some pp /\ pp_form pp x K D v.
Proof.
  intros HS HE. apply save_inv in HS as (_ & _ & _ & A & _). rewrite HE in A. destruct A as (l & A1 & A2). exists l. split; [exact A2|].
  destruct (mapM_nth _ _ _ A1) as [N1 N2]. split; [exact N1|]. intros k s b x K D v Hk HM. destruct (N2 _ _ Hk) as (pp & P1 & P2). cbn [snd] in P2.
  exists pp. split; [exact P1|]. destruct (made_full _ _ _ _ _ HM) as (pp' & M1 & M2). rewrite P2 in M1. injection M1 as <-. exact M2.
Qed.

(** ** When saving fails *)
Lemma flat_len d : List.length (delta_flat d) = (d_order d * intervals d)%nat.
Proof. unfold delta_flat. rewrite map_length, seq_length. reflexivity. Qed.

Lemma ext_result sm gsm q10 q11 s11 :
  match save_ext sm gsm (q10, q11, s11) with
  | Ok _ => forall e, ~ ext_problem sm gsm q11 s11 e
  | Err e => ext_problem sm gsm q11 s11 e
  end.
Proof.
  unfold save_ext, stack2. rewrite !flat_len. destruct (Nat.eqb_spec (d_order q11 * intervals q11) (d_order s11 * intervals s11)) as [E|N]; cbn [bind]; [|apply ep_lengths, N].
  destruct sm as [sm|]; [|apply ep_no_sm; [exact E|reflexivity]]. destruct (Nat.ltb_spec (List.length sm) 3) as [L|L]; [apply (ep_short_sm _ _ _ _ sm); [exact E|reflexivity|exact L]|].
  destruct gsm as [gsm|]; [|apply (ep_no_gsm _ _ _ _ sm); [exact E|reflexivity|exact L|reflexivity]].
  destruct gsm as [|g0 [|g1 [|g2 [|g3 gsm]]]]; cbn [pick_gsm nth_error bind];
    try (eapply (ep_short_gsm _ _ _ _ sm); [exact E|reflexivity|exact L|reflexivity|cbn; lia]).
  intros e H. inversion H; subst; try congruence; repeat match goal with X : Some _ = Some _ |- _ => injection X as <- end; cbn in *; lia.
Qed.

Lemma problem_unique sm gsm q11 s11 e e' : ext_problem sm gsm q11 s11 e -> ext_problem sm gsm q11 s11 e' -> e = e'.
Proof.
  intros H H'. pose proof (ext_result sm gsm q11 q11 s11) as X. inversion H; inversion H'; subst; try congruence;
  repeat match goal with X : Some _ = Some _ |- _ => injection X as <- end; lia.
Qed.

Lemma ext_fails sm gsm q10 q11 s11 e : ext_problem sm gsm q11 s11 e -> save_ext sm gsm (q10, q11, s11) = Err e.
Proof.
  intros H. pose proof (ext_result sm gsm q10 q11 s11) as X. destruct (save_ext sm gsm (q10, q11, s11)); [destruct (X e H)|].
  f_equal. apply (problem_unique _ _ _ _ _ _ X H).
Qed.

Lemma entry_result es s : angles_made es ->
  match save_euler_entry es s with
  | Ok _ => saveable_angles es s
  | Err e => (lookup s es = None /\ e = KeyError) \/
             (exists u k, lookup s es = Some u /\ b_coeffs (eu_base u) = Some k /\ (c_d k < 3)%nat /\ e = IndexError)
  end.
Proof.
  intros HA. unfold save_euler_entry, saveable_angles. destruct (lookup s es) as [u|] eqn:EL; [|left; split; reflexivity].
  destruct (HA s u EL) as (x & k & H1 & H2 & H3 & H4). rewrite H1, H3. destruct x as [|b x]; [contradiction|].
  destruct (Nat.eqb_spec (c_k k) 0); [lia|]. destruct (Nat.ltb_spec (c_d k) 3); cbn [orb].
  - right. eauto 6.
  - eauto.
Qed.

Lemma euler_result es meta : angles_made es ->
  match save_euler es meta with
  | Ok _ => (forall e, ~ euler_problem es meta e) /\ exists pre sats, meta = SMeta pre sats /\ forall s, In s sats -> saveable_angles es s
  | Err e => euler_problem es meta e
  end.
Proof.
  intros HA. unfold save_euler. destruct meta as [|pre sats]; [apply eu_no_meta; reflexivity|].
  assert (G : match mapM (save_euler_entry es) sats with
    | Ok _ => forall s, In s sats -> saveable_angles es s
    | Err e => exists l1 s l2, sats = l1 ++ s :: l2 /\ (forall t, In t l1 -> saveable_angles es t) /\
       ((lookup s es = None /\ e = KeyError) \/ (exists u k, lookup s es = Some u /\ b_coeffs (eu_base u) = Some k /\ (c_d k < 3)%nat /\ e = IndexError))
    end).
  { induction sats as [|s sats IH]; [intros s []|]. cbn [mapM]. pose proof (entry_result es s HA) as X. destruct (save_euler_entry es s) as [y|e]; cbn [bind].
    - destruct (mapM (save_euler_entry es) sats) as [ys|e]; cbn [bind].
      + intros t [<-|Ht]; [exact X|apply IH, Ht].
      + destruct IH as (l1 & t & l2 & -> & I1 & I2). exists (s :: l1), t, l2. split; [reflexivity|]. split; [|exact I2]. intros w [<-|Hw]; [exact X|apply I1, Hw].
    - exists [], s, sats. split; [reflexivity|]. split; [intros t []|exact X]. }
  destruct (mapM (save_euler_entry es) sats) as [l|e]; cbn [bind].
  - split; [|eauto]. intros e H. inversion H as [M|p l1 s l2 M M1 M2|p l1 s l2 u k M M1 M2 M3 M4]; [discriminate| |]; injection M as -> ->.
    + destruct (G s ltac:(apply in_or_app; right; left; reflexivity)) as (u & k & U & _). congruence.
    + destruct (G s ltac:(apply in_or_app; right; left; reflexivity)) as (u' & k' & U & V & W). rewrite M2 in U. injection U as <-. rewrite M3 in V. injection V as <-. lia.
  - destruct G as (l1 & s & l2 & -> & G1 & [[G2 ->]|(u & k & G2 & G3 & G4 & ->)]).
    + eapply eu_unknown; [reflexivity|exact G1|exact G2].
    + eapply eu_few; [reflexivity|exact G1|exact G2|exact G3|exact G4].
Qed.


Lemma first_stage c f0 : well_made c -> exists f1,
  (match ch_tdep c with None => (f0, Ok tt) | Some m => step (fun f => bind (to_ppdict (m_base m)) (fun pp => Ok (set_pp pp f))) (f0, Ok tt) end) = (f1, Ok tt).
Proof.
  intros (W & _). destruct (ch_tdep c) as [m|]; [|eauto]. destruct (W m eq_refl) as (x & K & D & v & M). destruct (made_full _ _ _ _ _ M) as (pp & P & _).
  unfold step. cbn [fst snd]. rewrite P. cbn [bind]. eauto.
Qed.

Lemma fails_ext c meta f0 q10 q11 s11 e : well_made c -> ch_delta c = Some (q10, q11, s11) -> ext_problem (ch_sm c) (ch_gsm c) q11 s11 e ->
  exists f, save_matfile c meta f0 = (f, Err e) /\ save_matfile (only_tdep c) SNone f0 = (f, Ok tt).
Proof.
  intros HW HD HP. destruct (first_stage c f0 HW) as (f1 & E1). exists f1. split.
  - unfold save_matfile. rewrite E1, HD. unfold step at 1. cbn [fst snd]. rewrite (ext_fails _ _ q10 _ _ _ HP). cbn [bind].
    destruct (ch_euler c) as [[|]|]; destruct (ch_cal c) as [[|]|]; destruct (ch_static c); destruct meta; reflexivity.
  - unfold save_matfile, only_tdep. cbn [ch_tdep ch_delta ch_euler ch_cal ch_static]. exact E1.
Qed.


Lemma ext_succeeds c : no_ext_problem c -> forall ds, ch_delta c = Some ds -> exists x, save_ext (ch_sm c) (ch_gsm c) ds = Ok x.
Proof.
  intros H [[q10 q11] s11] HD. pose proof (ext_result (ch_sm c) (ch_gsm c) q10 q11 s11) as X. destruct (save_ext _ _ _) as [x|e]; [eauto|]. destruct (H q10 q11 s11 e HD X).
Qed.

Lemma second_stage c f0 : well_made c -> no_ext_problem c -> exists f1, save_matfile (tdep_and_ext c) SNone f0 = (f1, Ok tt) /\
  (match ch_delta c with
   | None => match ch_tdep c with None => (f0, Ok tt) | Some m => step (fun f => bind (to_ppdict (m_base m)) (fun pp => Ok (set_pp pp f))) (f0, Ok tt) end
   | Some ds => step (fun f => bind (save_ext (ch_sm c) (ch_gsm c) ds) (fun x => Ok (set_ext x f)))
       (match ch_tdep c with None => (f0, Ok tt) | Some m => step (fun f => bind (to_ppdict (m_base m)) (fun pp => Ok (set_pp pp f))) (f0, Ok tt) end)
   end) = (f1, Ok tt).
Proof.
  intros HW HN. destruct (first_stage c f0 HW) as (f1 & E1). unfold save_matfile, tdep_and_ext. cbn [ch_tdep ch_delta ch_euler ch_cal ch_static ch_sm ch_gsm].
  rewrite E1. pose proof (ext_succeeds c HN) as X. destruct (ch_delta c) as [ds|]; [|eauto]. destruct (X ds eq_refl) as (x & Ex). unfold step. cbn [fst snd]. rewrite Ex. cbn [bind]. eauto.
Qed.

Lemma fails_euler c meta f0 q es e : well_made c -> no_ext_problem c -> ch_euler c = Some (q :: es) -> euler_problem (q :: es) meta e ->
  exists f, save_matfile c meta f0 = (f, Err e) /\ save_matfile (tdep_and_ext c) SNone f0 = (f, Ok tt).
Proof.
  intros HW HN HE HP. destruct (second_stage c f0 HW HN) as (f1 & S1 & S2). exists f1. split; [|exact S1].
  pose proof (euler_result (q :: es) meta (proj2 (proj2 (proj2 HW)) _ HE)) as X.
  assert (EE : save_euler (q :: es) meta = Err e).
  { destruct (save_euler (q :: es) meta) as [u|e']; [destruct (proj1 X e HP)|]. f_equal.
    destruct X as [M|p l1 s l2 M M1 M2|p l1 s l2 u k M M1 M2 M3 M4]; destruct HP as [M'|p' l1' s' l2' M' M1' M2'|p' l1' s' l2' u' k' M' M1' M2' M3' M4']; try congruence; rewrite M in M'; injection M' as <- M'.
    - exfalso. revert l1' M' M1'. clear M. induction l1 as [|t l1 IH]; intros [|t' l1'] M' M1'; cbn [app] in M'; injection M' as -> M'.
      + congruence.
      + destruct (M1' _ (or_introl eq_refl)) as (w & w' & W & _). congruence.
      + destruct (M1 _ (or_introl eq_refl)) as (w & w' & W & W' & W''). rewrite M2' in W. injection W as <-. rewrite M3' in W'. injection W' as <-. lia.
      + apply (IH (fun t Ht => M1 t (or_intror Ht)) l1' M' (fun t Ht => M1' t (or_intror Ht))).
    - exfalso. revert l1' M' M1'. clear M. induction l1 as [|t l1 IH]; intros [|t' l1'] M' M1'; cbn [app] in M'; injection M' as -> M'.
      + congruence.
      + destruct (M1' _ (or_introl eq_refl)) as (w & w' & W & W' & W''). rewrite M2 in W. injection W as <-. rewrite M3 in W'. injection W' as <-. lia.
      + destruct (M1 _ (or_introl eq_refl)) as (w & w' & W & _). congruence.
      + apply (IH (fun t Ht => M1 t (or_intror Ht)) l1' M' (fun t Ht => M1' t (or_intror Ht))). }
  unfold save_matfile. rewrite S2, HE. unfold step at 1. cbn [fst snd]. rewrite EE. cbn [bind].
  destruct (ch_cal c) as [[|]|]; destruct (ch_static c); destruct meta; reflexivity.
Qed.

Lemma saves c meta f0 : well_made c -> no_ext_problem c -> no_euler_problem c meta -> exists f, save_matfile c meta f0 = (f, Ok tt).
Proof.
  intros HW HN HE. pose proof HW as (W1 & W2 & W3 & W4). apply save_ok.
  - intros m Em. destruct (W1 m Em) as (x & K & D & v & M). destruct (made_full _ _ _ _ _ M) as (pp & P & _). eauto.
  - apply ext_succeeds, HN.
  - intros q es E. pose proof (euler_result (q :: es) meta (W4 _ E)) as X. destruct (save_euler (q :: es) meta) as [u|e]; [eauto|]. destruct (HE q es e E X).
  - intros cs E. apply mapM_total. intros [s b] Hb. cbn [snd]. destruct (W2 cs s b E Hb) as (x & K & D & v & M). destruct (made_full _ _ _ _ _ M) as (pp & P & _). eauto.
  - intros m Em. destruct (b_coeffs (m_base m)) as [k|] eqn:EK; [eauto|]. destruct (W3 m Em EK).
Qed.
