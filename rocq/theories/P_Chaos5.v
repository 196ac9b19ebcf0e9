(** Final forms of the statements about the CHAOS model. *)
From Coq Require Import Reals List Arith ZArith String Ascii Bool Permutation Lia Lra.
From Coquelicot Require Import Complex.
From Verif Require Import M_Prelude M_ND Spec_Field Spec_PP Spec_Rotate Spec_Chaos M_Synth M_SynthArr M_PP M_Spectrum M_Model M_Rotate M_Chaos Spec_ChaosApi
  P_ND P_Bcast P_SHCModel P_PP P_PP2 P_Synth P_Chaos P_Chaos2 P_Chaos3 P_Chaos4.
Import ListNotations.
Open Scope R_scope.

Lemma nan_sum_perm l l' : Permutation l l' -> nan_sum l = nan_sum l'.
Proof.
  induction 1; cbn [nan_sum fold_right]; try congruence.
  - unfold nan_sum in *. rewrite IHPermutation. reflexivity.
  - destruct (fold_right _ _ l), x, y; try reflexivity. f_equal. ring.
Qed.

Lemma all_nodup : NoDup all_sources.
Proof. unfold all_sources. repeat constructor; cbn; intuition discriminate. Qed.

Lemma oadd_0l u : oadd (Some 0) u = u.
Proof. destruct u; cbn; [f_equal; ring|reflexivity]. Qed.

Lemma call_sum E c time radius theta phi rc_e rc_i sources nmax_static B :
  call E c time radius theta phi rc_e rc_i (SrcList sources) nmax_static = Ok B ->
  broadcast [sh time; sh radius; sh theta; sh phi] = Ok (o_sh B) /\
  (forall s, In s all_sources -> In s sources ->
     exists F, contribution E c time radius theta phi rc_e rc_i nmax_static s = Ok F /\ bfits (o_sh F) (o_sh B)) /\
  forall chosen, (forall s, In s chosen <-> In s all_sources /\ In s sources) -> NoDup chosen ->
  forall x,
    o_r B x = nan_sum (map (fun s => part E c time radius theta phi rc_e rc_i nmax_static s o_r x) chosen) /\
    o_t B x = nan_sum (map (fun s => part E c time radius theta phi rc_e rc_i nmax_static s o_t x) chosen) /\
    o_p B x = nan_sum (map (fun s => part E c time radius theta phi rc_e rc_i nmax_static s o_p x) chosen).
Proof.
  rewrite call_fold. destruct (broadcast _) as [g|]; [|discriminate]. cbn [bind]. intros H.
  apply add_all_inv in H. cbn [o_sh o_r o_t o_p source_names] in H. destruct H as (S & A & R1 & R2 & R3).
  split; [rewrite S; reflexivity|]. split.
  { intros s Hs Hl. rewrite S. apply A; [exact Hs|]. apply listed_in, Hl. }
  intros chosen Hc Nc x.
  assert (P : Permutation (filter (fun s => listed s sources) all_sources) chosen).
  { apply NoDup_Permutation; [apply NoDup_filter, all_nodup|exact Nc|]. intros s. rewrite filter_In, Hc, listed_in. tauto. }
  rewrite R1, R2, R3, !oadd_0l. split; [|split]; apply nan_sum_perm, Permutation_map, P.
Qed.

Lemma call_succeeds E c time radius theta phi rc_e rc_i sources nmax_static g :
  (forall f, e_gsm E = Some f -> spectra3 f) -> (forall f, e_sm E = Some f -> spectra3 f) ->
  broadcast [sh time; sh radius; sh theta; sh phi] = Ok g ->
  (forall s, In s all_sources -> In s sources -> exists F, contribution E c time radius theta phi rc_e rc_i nmax_static s = Ok F) ->
  exists B, call E c time radius theta phi rc_e rc_i (SrcList sources) nmax_static = Ok B /\ o_sh B = g.
Proof.
  intros H1 H2 Hg H. rewrite call_fold, Hg. cbn [bind source_names].
  destruct (add_all_ok E c time radius theta phi rc_e rc_i nmax_static sources all_sources (mkofield g (fun _ => Some 0) (fun _ => Some 0) (fun _ => Some 0))) as (B & EB).
  - cbn [o_sh]. intros s Hs Hl. destruct (H s Hs (proj1 (listed_in _ _) Hl)) as (F & EF). exists F. split; [exact EF|].
    destruct (string_dec s "static") as [->|N].
    + eapply static_fits; eassumption.
    + erewrite (shape_full E c time radius theta phi rc_e rc_i nmax_static F g s N Hs H1 H2 Hg EF). apply bfits_refl.
  - exists B. split; [exact EB|]. apply add_all_inv in EB. apply EB.
Qed.

Lemma call_raises E c time radius theta phi rc_e rc_i sources nmax_static s :
  In s all_sources -> In s sources -> is_err (contribution E c time radius theta phi rc_e rc_i nmax_static s) ->
  is_err (call E c time radius theta phi rc_e rc_i (SrcList sources) nmax_static).
Proof.
  intros Hs Hl He. rewrite call_fold. destruct (broadcast _) as [g|e]; [|exists e; reflexivity]. cbn [bind].
  apply add_all_err. exists s. split; [exact Hs|]. split; [apply listed_in, Hl|exact He].
Qed.

Lemma add_all_ext E c time radius theta phi rc_e rc_i nmax_static l l' names : (forall s, listed s l = listed s l') ->
  forall B, add_all E c time radius theta phi rc_e rc_i nmax_static l names B = add_all E c time radius theta phi rc_e rc_i nmax_static l' names B.
Proof.
  intros H B. unfold add_all. generalize (@Ok ofield B). induction names as [|n names IH]; intros r; [reflexivity|]. cbn [fold_left].
  replace (add_source l n (contribution E c time radius theta phi rc_e rc_i nmax_static n) r)
    with (add_source l' n (contribution E c time radius theta phi rc_e rc_i nmax_static n) r); [apply IH|].
  unfold add_source. rewrite H. reflexivity.
Qed.

Lemma call_same_members E c time radius theta phi rc_e rc_i l l' nmax_static : (forall s, In s l <-> In s l') ->
  call E c time radius theta phi rc_e rc_i (SrcList l) nmax_static = call E c time radius theta phi rc_e rc_i (SrcList l') nmax_static.
Proof.
  intros H. rewrite !call_fold. destruct (broadcast _); [|reflexivity]. cbn [bind source_names]. apply add_all_ext.
  intros s. apply eq_true_iff_eq. rewrite !listed_in. apply H.
Qed.

Lemma call_single E c time radius theta phi rc_e rc_i nmax_static s B :
  In s all_sources -> call E c time radius theta phi rc_e rc_i (SrcStr s) nmax_static = Ok B ->
  exists F, contribution E c time radius theta phi rc_e rc_i nmax_static s = Ok F /\
    forall x, o_r B x = o_r F (bidx (o_sh F) x) /\ o_t B x = o_t F (bidx (o_sh F) x) /\ o_p B x = o_p F (bidx (o_sh F) x).
Proof.
  intros Hs H. assert (H' : call E c time radius theta phi rc_e rc_i (SrcList [s]) nmax_static = Ok B).
  { rewrite <- H. destruct Hs as [<-|[<-|[<-|[<-|[]]]]]; reflexivity. }
  destruct (call_sum _ _ _ _ _ _ _ _ _ _ _ H') as (_ & A & V). destruct (A s Hs (or_introl eq_refl)) as (F & EF & _).
  exists F. split; [exact EF|]. intros x. destruct (V [s]) with (x := x) as (V1 & V2 & V3).
  - intros t. split; [intros [<-|[]]; split; [exact Hs|left; reflexivity]|intros [_ [<-|[]]]; left; reflexivity].
  - constructor; [intros []|constructor].
  - rewrite V1, V2, V3. cbn [map]. unfold part. rewrite EF. rewrite !nan_sum_cons. cbn [nan_sum fold_right]. rewrite !oadd_0. auto.
Qed.

Lemma call_unknown E c time radius theta phi rc_e rc_i nmax_static name g :
  ~ In name (all_sources ++ ["internal"; "external"]%string)%list -> broadcast [sh time; sh radius; sh theta; sh phi] = Ok g ->
  exists B, call E c time radius theta phi rc_e rc_i (SrcStr name) nmax_static = Ok B /\
    forall x, o_r B x = Some 0 /\ o_t B x = Some 0 /\ o_p B x = Some 0.
Proof.
  intros N Hg. rewrite call_fold, Hg. cbn [bind].
  assert (EN : source_names (SrcStr name) = [name]).
  { unfold source_names. destruct (String.eqb_spec name "internal") as [->|]; [exfalso; apply N; cbn; tauto|].
    destruct (String.eqb_spec name "external") as [->|]; [exfalso; apply N; cbn; tauto|reflexivity]. }
  rewrite EN.
  destruct (add_all_ok E c time radius theta phi rc_e rc_i nmax_static [name] all_sources (mkofield g (fun _ => Some 0) (fun _ => Some 0) (fun _ => Some 0))) as (B & EB).
  - intros s Hs Hl. exfalso. apply listed_in in Hl. destruct Hl as [->|[]]. apply N, in_or_app. left. exact Hs.
  - exists B. split; [exact EB|]. apply add_all_inv in EB. cbn [o_r o_t o_p] in EB. destruct EB as (_ & _ & R1 & R2 & R3).
    assert (EF : filter (fun s => listed s [name]) all_sources = []).
    { destruct (filter _ _) as [|s k] eqn:E0; [reflexivity|]. exfalso.
      assert (H : In s (filter (fun s => listed s [name]) all_sources)) by (rewrite E0; left; reflexivity).
      apply filter_In in H. destruct H as [H1 H2]. apply listed_in in H2. destruct H2 as [->|[]]. apply N, in_or_app. left. exact H1. }
    intros x. rewrite R1, R2, R3, EF. cbn [map nan_sum fold_right]. rewrite oadd_0. auto.
Qed.

Lemma methods_unknown E c time radius theta phi rc_e rc_i nmax grid s :
  ~ In s ["all"; "external"; "internal"]%string ->
  synth_values_gsm E c time radius theta phi nmax (Some s) grid = Err ValueError /\
  synth_values_sm E c time radius theta phi rc_e rc_i nmax (Some s) grid = Err ValueError /\
  is_err (synth_coeffs_gsm E c time nmax (Some s)) /\ forall rc, is_err (synth_coeffs_sm E c time nmax (Some s) rc).
Proof.
  intros N.
  assert (N1 : (s =? "all")%string = false) by (apply String.eqb_neq; intros ->; apply N; cbn; tauto).
  assert (N2 : (s =? "external")%string = false) by (apply String.eqb_neq; intros ->; apply N; cbn; tauto).
  assert (N3 : (s =? "internal")%string = false) by (apply String.eqb_neq; intros ->; apply N; cbn; tauto).
  unfold synth_values_gsm, synth_values_sm. rewrite N1, N2, N3. split; [reflexivity|]. split; [reflexivity|]. split.
  - unfold synth_coeffs_gsm. rewrite N2, N3. destruct (ch_gsm c); [|eexists; reflexivity]. destruct (ch_static c); [|eexists; reflexivity].
    destruct (amin _); [|eexists; reflexivity]. cbn [bind]. destruct (load _); [|eexists; reflexivity]. cbn [bind]. destruct (negb _); eexists; reflexivity.
  - intros rc. unfold synth_coeffs_sm. destruct (ch_sm c); [|eexists; reflexivity]. destruct (ch_delta c); [|eexists; reflexivity].
    destruct (existsb _ _); [eexists; reflexivity|].
    destruct (amin _); [|eexists; reflexivity]. cbn [bind]. destruct (load _); [|eexists; reflexivity]. cbn [bind]. destruct (negb _); [eexists; reflexivity|].
    match goal with |- is_err (bind ?u _) => destruct u; [|eexists; reflexivity] end. cbn [bind].
    match goal with |- is_err (bind ?u _) => destruct u; [|eexists; reflexivity] end. cbn [bind].
    unfold sm_coeffs. rewrite N2, N3. eexists; reflexivity.
Qed.

(** ** Baseline corrections in the closed forms *)
Lemma good_nonempty x : good_breaks x -> x <> [].
Proof. intros [H _] ->. cbn in H. lia. Qed.

Lemma sm_external_full E c f sm q10 q11 s11 k ki N time nmax rc :
  ch_sm c = Some sm -> ch_delta c = Some (q10, q11, s11) ->
  good_breaks (d_breaks q10) -> good_breaks (d_breaks q11) -> good_breaks (d_breaks s11) ->
  e_sm E = Some f -> rf_dipole f = e_dipole E -> elems time <> [] ->
  (1 <= N)%nat -> (List.length sm = N * (N + 2))%nat -> rot_file f k ki (N * (N + 2)) (N * (N + 2)) -> bfits (sh rc) (sh time) ->
  exists K, synth_coeffs_sm E c time nmax (Some "external"%string) (Some rc) = Ok K /\ csh K = sh time /\
    (cdim K = asked nmax N * (asked nmax N + 2))%nat /\
    forall i p0 p1 p2, valid (sh time) i ->
      used_piece (d_breaks q10) p0 (at_ time i) -> used_piece (d_breaks q11) p1 (at_ time i) -> used_piece (d_breaks s11) p2 (at_ time i) ->
      let v j := match j with
                 | 0%nat => bread rc i * nth 0 sm 0 + baseline q10 p0 (at_ time i)
                 | 1%nat => bread rc i * nth 1 sm 0 + baseline q11 p1 (at_ time i)
                 | 2%nat => bread rc i * nth 2 sm 0 + baseline s11 p2 (at_ time i)
                 | _ => nth j sm 0
                 end in
      forall r, (r < cdim K)%nat ->
        cat K i r = Rsum (map (fun j => rotation k (rf_freq f) (rf_spec f) (at_ time i) r j * v j) (seq 0 (N * (N + 2)))).
Proof.
  intros Hs Hds G0 G1 G2 He Hd Ht HN HL HF Hrc.
  destruct (sm_external E c f sm (q10, q11, s11) k ki N time nmax rc Hs Hds) as (K & K1 & K2 & K3 & K4); try assumption.
  { intros j Hj. destruct j as [|[|[|]]]; [apply good_nonempty; assumption..|lia]. }
  exists K. split; [exact K1|]. split; [exact K2|]. split; [exact K3|]. intros i p0 p1 p2 Hi U0 U1 U2 v r Hr.
  rewrite K4 by assumption. f_equal. apply map_ext. intros j. f_equal. unfold sm_frame, v.
  destruct j as [|[|[|j]]]; cbn [Nat.ltb Nat.leb nth_delta];
    [rewrite (delta_value _ _ _ G0 U0)|rewrite (delta_value _ _ _ G1 U1)|rewrite (delta_value _ _ _ G2 U2)|]; reflexivity.
Qed.

Lemma sm_internal_full E c f sm q10 q11 s11 k ki N time nmax rc :
  ch_sm c = Some sm -> ch_delta c = Some (q10, q11, s11) ->
  good_breaks (d_breaks q10) -> good_breaks (d_breaks q11) -> good_breaks (d_breaks s11) ->
  e_sm E = Some f -> rf_dipole f = e_dipole E -> elems time <> [] ->
  (1 <= N)%nat -> (List.length sm = N * (N + 2))%nat -> rot_file f k ki (N * (N + 2)) (N * (N + 2)) -> bfits (sh rc) (sh time) ->
  exists K, synth_coeffs_sm E c time nmax (Some "internal"%string) (Some rc) = Ok K /\ csh K = sh time /\
    (cdim K = asked nmax N * (asked nmax N + 2))%nat /\
    forall i p0 p1 p2, valid (sh time) i ->
      used_piece (d_breaks q10) p0 (at_ time i) -> used_piece (d_breaks q11) p1 (at_ time i) -> used_piece (d_breaks s11) p2 (at_ time i) ->
      let v j := match j with
                 | 0%nat => baseline q10 p0 (at_ time i)
                 | 1%nat => baseline q11 p1 (at_ time i)
                 | 2%nat => baseline s11 p2 (at_ time i)
                 | _ => nth j sm 0
                 end in
      forall r, (r < cdim K)%nat ->
        cat K i r = Rsum (map (fun j => rotation ki (rf_freq_ind f) (rf_spec_ind f) (at_ time i) r j * v j) (seq 0 (N * (N + 2)))) +
          (if (r <? 3)%nat then
             bread rc i * (rotation k (rf_freq f) (rf_spec f) (at_ time i) r 0 * nth 0 sm 0 +
                           rotation k (rf_freq f) (rf_spec f) (at_ time i) r 1 * nth 1 sm 0 +
                           rotation k (rf_freq f) (rf_spec f) (at_ time i) r 2 * nth 2 sm 0)
           else 0).
Proof.
  intros Hs Hds G0 G1 G2 He Hd Ht HN HL HF Hrc.
  destruct (sm_internal E c f sm (q10, q11, s11) k ki N time nmax rc Hs Hds) as (K & K1 & K2 & K3 & K4); try assumption.
  { intros j Hj. destruct j as [|[|[|]]]; [apply good_nonempty; assumption..|lia]. }
  exists K. split; [exact K1|]. split; [exact K2|]. split; [exact K3|]. intros i p0 p1 p2 Hi U0 U1 U2 v r Hr.
  rewrite K4 by assumption. f_equal.
  - f_equal. apply map_ext. intros j. f_equal. unfold sm_frame, v.
    destruct j as [|[|[|j]]]; cbn [Nat.ltb Nat.leb nth_delta];
      [rewrite (delta_value _ _ _ G0 U0); ring|rewrite (delta_value _ _ _ G1 U1); ring|rewrite (delta_value _ _ _ G2 U2); ring|reflexivity].
  - destruct (r <? 3)%nat; [|reflexivity]. cbn [seq map]. rewrite !Rsum_cons. cbn [file_rotation]. change (Rsum []) with 0. ring.
Qed.

Lemma call_dipole E c f time radius theta phi rc_e rc_i sources nmax_static :
  rf_dipole f <> e_dipole E -> (e_gsm E = Some f /\ In "gsm"%string sources) \/ (e_sm E = Some f /\ In "sm"%string sources) ->
  is_err (call E c time radius theta phi rc_e rc_i (SrcList sources) nmax_static).
Proof.
  intros Hd [[He Hl]|[He Hl]].
  - apply (call_raises _ _ _ _ _ _ _ _ _ _ "gsm"%string); [cbn; tauto|exact Hl|]. apply bind_err, (gsm_values_dipole _ _ _ _ _ _ _ _ _ _ He Hd).
  - apply (call_raises _ _ _ _ _ _ _ _ _ _ "sm"%string); [cbn; tauto|exact Hl|]. apply bind_err, (sm_values_dipole _ _ _ _ _ _ _ _ _ _ _ _ He Hd).
Qed.

(** ** Euler angles *)
Lemma order_one_model br D v : base_init (Some br) (Some 1%Z) (Some (mkc3 1 (List.length br - 1) D v)) = P_PP.model br 1 D v.
Proof. reflexivity. Qed.

Lemma euler_value breaks order tdep static sm gsm dl l ce bc cc meta c sat br D v time r idx i d :
  chaos_init breaks order tdep static sm gsm dl (Some l) (Some ce) bc cc meta = Ok c -> NoDup (map fst l) ->
  In (sat, br) l -> lookup sat ce = Some (mkc3 1 (List.length br - 1) D v) -> good_breaks br ->
  synth_euler_angles c time sat None None XNone = Ok r -> valid (sh time) idx -> (d < D)%nat -> in_interval br i (at_ time idx) ->
  s_at r idx d = Some (v 0%nat i d).
Proof.
  intros H N Hin HC G Hr Hi Hd HI. rewrite (euler_angles _ _ _ _ _ _ _ _ _ _ _ _ _ _ _ _ _ _ _ _ H N Hin HC), order_one_model in Hr.
  rewrite (inside_value br 1 D v time None None XNone r idx i d G ltac:(lia) Hd Hi Hr HI (or_introl eq_refl)).
  cbn [nu_of]. unfold poly_eval. cbn. f_equal. ring.
Qed.

Lemma euler_ok breaks order tdep static sm gsm dl l ce bc cc meta c sat br D v time :
  chaos_init breaks order tdep static sm gsm dl (Some l) (Some ce) bc cc meta = Ok c -> NoDup (map fst l) ->
  In (sat, br) l -> lookup sat ce = Some (mkc3 1 (List.length br - 1) D v) -> good_breaks br -> (1 <= D)%nat -> elems time <> [] ->
  exists r, synth_euler_angles c time sat None None XNone = Ok r /\ s_sh r = sh time /\ s_dim r = D.
Proof.
  intros H N Hin HC G HD Ht. rewrite (euler_angles _ _ _ _ _ _ _ _ _ _ _ _ _ _ _ _ _ _ _ _ H N Hin HC), order_one_model.
  destruct (C39_ok br 1 D v time None None XNone G ltac:(lia) HD Ht ltac:(discriminate)) as (r & E1 & E2 & E3). eauto.
Qed.

(** ** Static field *)
Lemma static_value E breaks order tdep D v sm gsm dl be ce bc cc meta c radius theta phi nmax F idx N :
  chaos_init breaks order tdep (Some (mkc3 1 1 D v)) sm gsm dl be ce bc cc meta = Ok c -> first_break breaks < last_break breaks ->
  synth_values_static E c radius theta phi nmax None None XNone = Ok F ->
  (forall t, In t (elems theta) -> 0 <= t <= 180) -> used_degree D nmax N -> valid (o_sh F) idx ->
  exists G, synth_values (e_oob E) (e_rsurf E) (cvec (map (fun d => v 0%nat 0%nat d) (seq 0 (N * (N + 2)))))
      (scalar (bread radius idx)) (scalar (bread theta idx)) (scalar (bread phi idx))
      (Some 1%Z) (Some (Z.of_nat N)) (Some (Z.of_nat N)) (Some "internal"%string) false = Ok G /\
    o_r F idx = Some (f_r G []) /\ o_t F idx = Some (f_t G []) /\ o_p F idx = Some (f_p G []).
Proof.
  intros H Hb. destruct (init_parts _ _ _ _ _ _ _ _ _ _ _ _ _ H) as (_ & HS & _). destruct (HS _ eq_refl) as (b & ES & NE).
  apply (static_field_value E c (nth 0 breaks 0) (last breaks b) D v); [exact ES|].
  unfold first_break, last_break in Hb. rewrite <- (P_SHCModel.last_is_nth breaks 0 0 NE) in Hb. rewrite (last_default breaks b 0 NE). exact Hb.
Qed.

Lemma missing_parts E c time radius theta phi nmax deriv grid e source rc rc_e rc_i :
  (ch_tdep c = None -> synth_values_tdep E c time radius theta phi nmax deriv grid e = Err ValueError /\ synth_coeffs_tdep c time nmax deriv e = Err ValueError) /\
  (ch_static c = None -> synth_values_static E c radius theta phi nmax deriv grid e = Err ValueError /\ synth_coeffs_static c nmax deriv e = Err ValueError) /\
  (ch_gsm c = None -> is_err (synth_values_gsm E c time radius theta phi nmax source grid) /\ synth_coeffs_gsm E c time nmax source = Err ValueError) /\
  (ch_sm c = None -> is_err (synth_values_sm E c time radius theta phi rc_e rc_i nmax source grid) /\ synth_coeffs_sm E c time nmax source rc = Err ValueError).
Proof.
  split; [intros H; unfold synth_values_tdep, synth_coeffs_tdep; rewrite H; auto|].
  split; [intros H; unfold synth_values_static, synth_coeffs_static; rewrite H; auto|].
  split; intros H.
  - assert (A : forall s, synth_coeffs_gsm E c time nmax s = Err ValueError) by (intros s; unfold synth_coeffs_gsm; rewrite H; reflexivity).
    split; [|apply A]. unfold synth_values_gsm. rewrite !A. cbn [bind]. destruct (_ =? _)%string; [eexists; reflexivity|]. destruct (_ || _)%bool; eexists; reflexivity.
  - assert (A : forall s rc, synth_coeffs_sm E c time nmax s rc = Err ValueError) by (intros s q; unfold synth_coeffs_sm; rewrite H; reflexivity).
    split; [|apply A]. unfold synth_values_sm. rewrite !A. cbn [bind]. destruct (_ =? _)%string; [eexists; reflexivity|]. destruct (_ || _)%bool; eexists; reflexivity.
Qed.
