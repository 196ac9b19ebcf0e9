(** Exceptions of invalid calls. *)
From Coq Require Import Reals QArith List Arith ZArith String Bool Lia Lra.
From Verif Require Import M_Prelude M_ND Spec_Field Spec_PP Spec_Coord Spec_Chaos M_SynthArr M_PP M_Spectrum M_Model M_Rotate M_Coord M_CoordArr M_Chaos Spec_ChaosApi M_Text M_SHC M_Loaders Spec_Loaders Spec_Invalid
  P_ND P_Coord4 P_Coord5 P_Coord6 P_Coord7 P_Coord8 P_Coord9 P_CoordArr P_Chaos P_Chaos2 P_Chaos3 P_Chaos4 P_Chaos5 P_Loaders P_Loaders2 P_Loaders3.
Import ListNotations.
Open Scope R_scope.

(** ** Empty times *)
Lemma empty_time x K D c time dim deriv e : (2 <= List.length x)%nat -> (1 <= K)%nat -> (1 <= D)%nat -> elems time = [] ->
  synth_coeffs (base_init (Some x) None (Some (mkc3 K (List.length x - 1) D c))) time dim deriv e = Err ValueError.
Proof.
  intros HX HK HD HT. unfold synth_coeffs, base_init.
  assert (EB : match x with [b] => Some [b; b] | _ => Some x end = Some x) by (destruct x as [|? [|]]; cbn in HX; try lia; reflexivity).
  rewrite EB. cbn [b_coeffs b_breaks b_dim b_order option_map]. rewrite HT. cbn [amin bind].
  destruct (_ || _)%bool; [reflexivity|]. destruct x; [cbn in HX; lia|]. reflexivity.
Qed.

Lemma empty_time_tdep E c m x K D v time : ch_tdep c = Some m -> m_base m = base_init (Some x) None (Some (mkc3 K (List.length x - 1) D v)) ->
  m_nmax m <> None -> (2 <= List.length x)%nat -> (1 <= K)%nat -> (1 <= D)%nat -> elems time = [] -> forall nmax deriv e,
  synth_coeffs_tdep c time nmax deriv e = Err ValueError /\
  forall radius theta phi grid, synth_values_tdep E c time radius theta phi nmax deriv grid e = Err ValueError.
Proof.
  intros HT HM HN HX HK HD HE nmax deriv e.
  assert (A : forall n d, model_coeffs m time n d e = Err ValueError) by (intros n d; unfold model_coeffs; rewrite HM; apply empty_time; assumption).
  split; [unfold synth_coeffs_tdep; rewrite HT; apply A|]. intros radius theta phi grid. unfold synth_values_tdep, model_values. rewrite HT.
  destruct (m_nmax m); [|contradiction]. rewrite A. reflexivity.
Qed.

Lemma empty_time_ext E c time nmax source rc : elems time = [] ->
  (ch_gsm c <> None -> ch_static c <> None -> synth_coeffs_gsm E c time nmax source = Err ValueError) /\
  (forall q10 q11 s11, ch_sm c <> None -> ch_delta c = Some (q10, q11, s11) -> d_breaks q10 <> [] -> d_breaks q11 <> [] -> d_breaks s11 <> [] ->
     synth_coeffs_sm E c time nmax source rc = Err ValueError).
Proof.
  intros HE. split.
  - intros HG HS. unfold synth_coeffs_gsm. destruct (ch_gsm c); [|contradiction]. destruct (ch_static c); [|contradiction]. rewrite HE. reflexivity.
  - intros q10 q11 s11 HS HD H1 H2 H3. unfold synth_coeffs_sm. destruct (ch_sm c); [|contradiction]. rewrite HD. cbn [existsb nth_delta].
    destruct (d_breaks q10); [contradiction|]. destruct (d_breaks q11); [contradiction|]. destruct (d_breaks s11); [contradiction|]. cbn [List.length Nat.eqb orb]. rewrite HE. reflexivity.
Qed.

(** ** Reference frames *)
Lemma unknown_reference_nd cfg theta phi B_theta B_phi time r inverse dip :
  (forall k s, r = Some s -> ~ In s (spellings k)) ->
  transform_points_nd cfg theta phi time r inverse dip = Err ValueError /\
  transform_vectors_nd cfg theta phi B_theta B_phi time r inverse dip = Err ValueError.
Proof.
  intros H.
  assert (A : reference_bases_nd cfg time r dip = Err ValueError).
  { unfold reference_bases_nd. destruct r as [s|]; [|reflexivity]. cbn [str_opt].
    destruct (String.eqb (lower s) "gsm") eqn:E1; [apply String.eqb_eq, lower_inv_gsm in E1; destruct (H GSM s eq_refl E1)|].
    destruct (String.eqb (lower s) "sm") eqn:E2; [apply String.eqb_eq, lower_inv_sm in E2; destruct (H SM s eq_refl E2)|].
    destruct (String.eqb (lower s) "mag") eqn:E3; [apply String.eqb_eq, lower_inv_mag in E3; destruct (H MAG s eq_refl E3)|]. reflexivity. }
  unfold transform_points_nd, transform_vectors_nd. rewrite A. split; reflexivity.
Qed.

Lemma missing_time_nd cfg theta phi B_theta B_phi k r inverse dip v : In r (spellings k) -> k <> MAG -> dipole_to_vec_nd cfg dip = Ok v ->
  transform_points_nd cfg theta phi None (Some r) inverse dip = Err TypeError /\
  transform_vectors_nd cfg theta phi B_theta B_phi None (Some r) inverse dip = Err TypeError.
Proof.
  intros Hr Hk Hd. unfold transform_points_nd, transform_vectors_nd, reference_bases_nd. cbn [str_opt].
  destruct k; [| |contradiction]; cbn [spellings In] in Hr; repeat (destruct Hr as [<-|Hr]; [cbn; rewrite Hd; split; reflexivity|]); contradiction.
Qed.

(** ** Exception of the whole model *)
Section Call.
Variables (E : env) (c : chaos) (time radius theta phi : nd R) (rc_e rc_i : option (nd R)) (nmax_static : option nat).
Notation contrib := (contribution E c time radius theta phi rc_e rc_i nmax_static).
Notation step l := (fun B name => add_source l name (contrib name) B).

Lemma fold_stays l names e : fold_left (step l) names (Err e) = Err e.
Proof. induction names as [|n names IH]; [reflexivity|]. cbn [fold_left]. exact IH. Qed.

Lemma fold_skip l names B : (forall n, In n names -> listed n l = false) -> fold_left (step l) names B = B.
Proof.
  revert B. induction names as [|n names IH]; intros B H; [reflexivity|]. cbn [fold_left]. unfold add_source at 2. rewrite (H n (or_introl eq_refl)).
  replace (bind B (fun B0 => Ok B0)) with B by (destruct B; reflexivity). apply IH. intros m Hm. apply H. right. exact Hm.
Qed.

Lemma fold_agree l l' names B : (forall n, In n names -> listed n l = listed n l') -> fold_left (step l) names B = fold_left (step l') names B.
Proof.
  revert B. induction names as [|n names IH]; intros B H; [reflexivity|]. cbn [fold_left]. unfold add_source at 2 4. rewrite (H n (or_introl eq_refl)).
  apply IH. intros m Hm. apply H. right. exact Hm.
Qed.

Lemma listed_filter n (p : string -> bool) l : listed n (filter p l) = (listed n l && p n)%bool.
Proof.
  apply Bool.eq_iff_eq_true. rewrite andb_true_iff, !listed_in, filter_In. tauto.
Qed.

Lemma first_exception l s e B : In s all_sources -> In s l -> contrib s = Err e ->
  call E c time radius theta phi rc_e rc_i (SrcList (listed_before s l)) nmax_static = Ok B ->
  call E c time radius theta phi rc_e rc_i (SrcList l) nmax_static = Err e.
Proof.
  intros HA HL HE. rewrite !call_fold. destruct (broadcast _) as [g|]; [|discriminate]. cbn [bind source_names]. unfold add_all.
  generalize (mkofield g (fun _ => Some 0) (fun _ => Some 0) (fun _ => Some 0)). intros B0 HC.
  assert (D : exists post, all_sources = before s all_sources ++ s :: post).
  { unfold all_sources in *. cbn [In] in HA. destruct HA as [<-|[<-|[<-|[<-|[]]]]]; eexists; reflexivity. }
  destruct D as (post & D).
  assert (ND : NoDup (before s all_sources ++ s :: post)) by (rewrite <- D; apply all_nodup).
  rewrite D in HC |- *. rewrite fold_left_app in HC |- *. cbn [fold_left] in *.
  rewrite (fold_agree l (listed_before s l) (before s all_sources)).
  2:{ intros n Hn. unfold listed_before. rewrite listed_filter. replace (existsb (String.eqb n) (before s all_sources)) with true; [rewrite andb_true_r; reflexivity|].
      symmetry. apply existsb_exists. exists n. split; [exact Hn|apply String.eqb_refl]. }
  assert (NS : listed s (listed_before s l) = false).
  { unfold listed_before. rewrite listed_filter. replace (existsb (String.eqb s) (before s all_sources)) with false; [apply andb_false_r|].
    symmetry. apply not_true_iff_false. intros X. apply existsb_exists in X as (n & Hn & En). apply String.eqb_eq in En. subst n.
    apply NoDup_remove_2 in ND. apply ND, in_or_app. left. exact Hn. }
  destruct (fold_left (step (listed_before s l)) (before s all_sources) (Ok B0)) as [B1|e1].
  - unfold add_source at 2. cbn [bind]. replace (listed s l) with true by (symmetry; apply listed_in; exact HL). rewrite HE. cbn [bind]. apply fold_stays.
  - unfold add_source at 2 in HC. cbn [bind] in HC. rewrite fold_stays in HC. discriminate.
Qed.

Lemma incompatible_call S : (forall g, broadcast [sh time; sh radius; sh theta; sh phi] <> Ok g) ->
  call E c time radius theta phi rc_e rc_i S nmax_static = Err ValueError.
Proof.
  intros H. unfold call. destruct (broadcast _) as [g|e] eqn:EB; [destruct (H g eq_refl)|]. cbn [bind]. f_equal. apply broadcast_err in EB. exact EB.
Qed.
End Call.

(** ** Headers *)
Lemma covobs_short content : covobs_truncated content -> load_CovObs_txtfile content = Err IndexError.
Proof.
  unfold load_CovObs_txtfile. intros [H|(title & params & rest & qs & H1 & H2 & H3)].
  - unfold item at 1. destruct (nth_error (lines content) 1) eqn:EN; [|reflexivity]. assert (1 < List.length (lines content))%nat by (apply nth_error_Some; congruence). lia.
  - rewrite H1. cbn [item nth_error bind]. rewrite (numbers_fromstring _ _ H2). destruct qs as [|a [|b [|d qs]]]; cbn in H3; try lia; reflexivity.
Qed.
Lemma cals7k_short content : cals7k_truncated content -> load_CALS7K_txtfile content = Err IndexError.
Proof.
  unfold load_CALS7K_txtfile. intros (qs & H2 & H3). rewrite (numbers_D_fromstring _ _ H2).
  destruct qs as [|a1 [|a2 [|a3 [|a4 [|a5 [|a6 [|a7 qs]]]]]]]; cbn in H3; try lia; reflexivity.
Qed.
Lemma gufm1_short content : gufm1_truncated content -> load_gufm1_txtfile content = Err IndexError.
Proof.
  unfold load_gufm1_txtfile. intros [H|(title & rest & datas & H1 & H2 & H3)].
  - rewrite H. reflexivity.
  - rewrite H1. cbn [skipn]. rewrite (numbers_fromstring _ _ (numbers_join _ _ H2)). destruct (List.concat datas) as [|a [|b l]]; cbn in H3; try lia; reflexivity.
Qed.
