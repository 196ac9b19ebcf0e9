(** CHAOS models through SHC files. *)
From Coq Require Import Reals QArith Qreals List Arith ZArith String Ascii Bool Lia Lra FunctionalExtensionality.

From Verif Require Import M_Prelude M_ND Spec_Field Spec_PP Spec_Spline Spec_Smooth M_Spectrum M_PP M_Model M_FromSpline M_Time M_Text M_SHC M_SHCModel M_Chaos M_ChaosSHC Spec_SHC Spec_Lsq Spec_Loaders
  P_Time2 P_Text P_PP P_Model P_SHCModel P_SHCImport2.
Import ListNotations.
Open Scope R_scope.

Lemma comment_hash ls : List.Forall (fun l => ~ In "010"%char l) ls -> comment_lines (hash_lines ls).
Proof.
  intros H. exists (map (cons " "%char) ls). split.
  - unfold hash_lines. induction ls as [|l ls IH]; [reflexivity|]. inversion H; subst. cbn [flat_map map]. rewrite <- IH by assumption.
    cbn [txt list_ascii_of_string app]. reflexivity.
  - induction H as [|l ls Hl _ IH]; constructor; [|exact IH]. intros [E|E]; [discriminate|contradiction].
Qed.
Lemma no_nl_print z : ~ In "010"%char (print_Z z).
Proof. intros H. pose proof (print_Z_plain z) as [_ P]. rewrite Forall_forall in P. specialize (P _ H). discriminate P. Qed.
Lemma no_nl_app l m : ~ In "010"%char l -> ~ In "010"%char m -> ~ In "010"%char (l ++ m)%list.
Proof. intros H1 H2 H. apply in_app_or in H. tauto. Qed.
Ltac nonl := repeat (apply no_nl_app || apply no_nl_print); try assumption; cbn; intuition discriminate.
Lemma tdep_comment name a b c d e : ~ In "010"%char name -> comment_lines (tdep_header name a b c d e).
Proof. intros H. apply comment_hash. repeat (constructor; [nonl|]). constructor. Qed.
Lemma static_comment name a b : ~ In "010"%char name -> comment_lines (static_header name a b).
Proof. intros H. apply comment_hash. repeat (constructor; [nonl|]). constructor. Qed.

(** Building a model from the parts of a model *)
Lemma reinit x o c source : (1 <= o)%Z -> (Z.to_nat o <= c_k c)%nat ->
  let m := model_init (Some x) (Some o) (Some c) source in
  exists x' c', b_breaks (m_base m) = Some x' /\ b_coeffs (m_base m) = Some c' /\ b_order (m_base m) = Some o /\ b_pieces (m_base m) = Some (Z.of_nat (List.length x') - 1)%Z /\
    x' = (match x with [b] => [b; b] | _ => x end) /\
    forall s, model_init (Some x') (Some o) (Some c') (Some s) = model_init (Some x) (Some o) (Some c) (Some s).
Proof.
  intros H1 H2 m. unfold m, model_init, base_init. cbn [m_base]. rewrite (Z.min_l o) by lia.
  set (x' := match x with [b] => [b; b] | _ => x end). assert (XE : match x with [b] => Some [b; b] | _ => Some x end = Some x') by (unfold x'; destruct x as [|? [|? ?]]; reflexivity).
  rewrite XE. cbn [b_breaks b_coeffs b_order b_pieces option_map].
  exists x', (take_last c o). do 5 (split; [reflexivity|]). intros s.
  assert (XE2 : match x' with [b] => Some [b; b] | _ => Some x' end = Some x') by (unfold x'; destruct x as [|? [|? ?]]; reflexivity).
  rewrite XE2. assert (CK : c_k (take_last c o) = Z.to_nat o) by (unfold take_last; destruct (Z.eqb_spec o 0); [lia|]; destruct (Z.ltb_spec 0 o); [|lia]; cbn; lia).
  rewrite CK. rewrite Z2Nat.id by lia. rewrite Z.min_id.
  assert (TL : take_last (take_last c o) o = take_last c o).
  { unfold take_last at 1. destruct (Z.eqb_spec o 0); [lia|]. destruct (Z.ltb_spec 0 o); [|lia]. rewrite CK, Z2Nat.id by lia. rewrite Z.sub_diag. cbn [Z.max Z.to_nat].
    rewrite Nat.sub_0_r. destruct (take_last c o) as [k' m' d' v'] eqn:E. cbn in *. subst k'. f_equal. apply functional_extensionality. intros r. rewrite Nat.add_0_r. reflexivity. }
  rewrite TL. reflexivity.
Qed.

(** What from_shc returns *)
Lemma from_shc_form lsq text lp source M : from_shc lsq text lp source = Ok M ->
  exists x o c, M = model_init (Some x) (Some o) (Some c) source /\ (1 <= o)%Z /\ c_k c = Z.to_nat o /\ b_breaks (m_base M) = Some (match x with [b] => [b; b] | _ => x end).
Proof.
  intros H. assert (X : exists x o c, M = model_init (Some x) (Some o) (Some c) source /\ (1 <= o)%Z /\ c_k c = Z.to_nat o).
  { unfold from_shc in H. destruct (load_shcfile _ _ _) as [s|]; [|discriminate]. cbn [bind] in H.
    destruct (l_params s) as [|nmin [|nmax [|N [|order [|step more]]]]]; try discriminate.
    destruct (map Q2R (l_time s)) as [|t0 ts]; [discriminate|].
    destruct (Z.eqb_spec order 1) as [->|NE].
    - destruct (shc_padded s nmin nmax) as [[dim co]|]; [|discriminate]. cbn [bind] in H. injection H as <-. eexists _, 1%Z, _. split; [reflexivity|]. split; [lia|reflexivity].
    - destruct (shc_padded s nmin nmax) as [[dim co]|]; [|discriminate]. cbn [bind] in H. destruct (augment_breaks _ _) as [knots|]; [|discriminate]. cbn [bind] in H.
      destruct (Z.ltb_spec order 1) as [L|L]; [discriminate|]. destruct (lsq _ _ _ _ _) as [c|]; [|discriminate]. cbn [bind] in H.
      unfold from_bspline in H. destruct (pp_from_bspline _ _ _ _ _) as [[c' br]|] eqn:E; [|discriminate]. cbn [bind] in H. injection H as <-.
      rewrite Z2Nat.id by lia. eexists _, order, c'. split; [reflexivity|]. split; [lia|].
      unfold pp_from_bspline in E. destruct (_ && _)%bool; [discriminate|]. destruct (_ && _)%bool; [discriminate|]. injection E as <- _. reflexivity. }
  destruct X as (x & o & c & -> & Ho & Hc). exists x, o, c. split; [reflexivity|]. split; [exact Ho|]. split; [exact Hc|].
  unfold model_init, base_init. cbn. destruct x as [|? [|? ?]]; reflexivity.
Qed.

Lemma load_tdep lsq text lp M x : from_shc lsq text (Some (leap_flag lp)) None = Ok M -> b_breaks (m_base M) = Some x ->
  (List.length x <> 2%nat \/ b_order (m_base M) <> Some 1%Z) -> load_chaos_shc lsq text lp = Ok (mkchaos (Some M) None None None None None None).
Proof.
  intros H B N. destruct (from_shc_form _ _ _ _ _ H) as (y & o & c & -> & Ho & Hc & B').
  destruct (reinit y o c None Ho ltac:(lia)) as (x' & c' & R1 & R2 & R3 & R4 & R5 & R6). cbv zeta in *.
  unfold load_chaos_shc. fold (leap_flag lp). rewrite H. cbn [bind]. rewrite R1, R2, R3, R4.
  rewrite R1 in B. injection B as <-. rewrite R3 in N.
  destruct (Z.eqb_spec (Z.of_nat (List.length x') - 1) 1) as [E|E]; [destruct (Z.eqb_spec o 1) as [E2|E2]|].
  - exfalso. destruct N as [N|N]; [lia|]. congruence.
  - cbn [andb]. unfold chaos_init. cbn [option_map bind]. rewrite (R6 "internal"%string). reflexivity.
  - cbn [andb]. unfold chaos_init. cbn [option_map bind]. rewrite (R6 "internal"%string). reflexivity.
Qed.

Lemma save_tdep now fs name c tq cq path model lp M nmax order breaks : (model = None \/ model = Some "tdep"%string) -> ch_tdep c = Some M ->
  m_nmax M = Some nmax -> b_order (m_base M) = Some order -> b_breaks (m_base M) = Some breaks ->
  exists np step, chaos_save_shc now fs name c tq cq path model lp =
    to_shc now fs name M tq cq path (Some (leap_flag lp)) (Some 1%Z) None (Some (tdep_header name 1 nmax np order step)).
Proof.
  intros HM E E1 E2 E3. unfold chaos_save_shc. fold (leap_flag lp).
  assert (S : ((match model with None => "tdep" | Some s => s end) =? "tdep")%string = true) by (destruct HM as [->| ->]; reflexivity). rewrite S, E, E1, E2, E3.
  eexists _, _. reflexivity.
Qed.

(** tdep part, order >= 2 *)
Lemma chaos_smooth_round_trip now fs name c0 x K D c tq cq path model lp b lsq :
  let M := model_init (Some x) None (Some (mkc3 K (List.length x - 1) D c)) (Some "internal"%string) in
  ch_tdep c0 = Some M -> (model = None \/ model = Some "tdep"%string) ->
  least_squares lsq -> good_breaks x -> (2 <= K)%nat -> exported M tq cq ->
  (1 <= b)%nat -> (b * (b + 2) <= D)%nat -> (D < (b + 1) * (b + 3))%nat ->
  ~ In "010"%char name -> ~ In "010"%char now ->
  (forall d, (d < b * (b + 2))%nat -> smooth_at_breaks x K c d) ->
  (lp = Some true -> forall t, In t tq -> mjd_ok t) ->
  (forall t, In t tq -> exists y, mjd_to_dyear t (Some (leap_flag lp)) = Ok y /\ exact8 y) ->
  (forall i j, (i < List.length tq)%nat -> (j < b * (b + 2))%nat -> exact8 (c_at cq i j)) ->
  exists fs' text M' f,
    chaos_save_shc now fs name c0 tq cq path model lp = (fs', Ok tt) /\ fs' path = Some text /\
    load_chaos_shc lsq text lp = Ok (mkchaos (Some M') None None None None None None) /\
    m_nmax M' = Some (Z.of_nat b) /\ m_source M' = "internal"%string /\ b_breaks (m_base M') = Some x /\
    takes_values M' (b * (b + 2)) (first_break x) (last_break x) f /\
    forall p d t, (d < b * (b + 2))%nat -> in_interval x p t -> f d t = piece x K c p d t.
Proof.
  intros M HT HM F G HK EX Hb Hb1 Hb2 Hn1 Hn2 SM Hlp TX CX. pose proof G as [L2 _].
  assert (BB : b_breaks (m_base M) = Some x) by (clear - L2; destruct x as [|? [|? ?]]; cbn in L2; try lia; reflexivity).
  destruct (degree_of_size_spec D) as (N0 & D1 & D2 & D3). assert (N0 = b) by nia. subst N0.
  assert (MN : m_nmax M = Some (Z.of_nat b)) by (unfold M, model_init, base_init; cbn; rewrite D3; destruct x as [|? [|? ?]]; reflexivity).
  destruct (save_tdep now fs name c0 tq cq path model lp M (Z.of_nat b) (Z.of_nat K) x HM HT MN eq_refl BB) as (np & step & ES). rewrite ES.
  destruct (smooth_round_trip now fs name x K D c (Some "internal"%string) tq cq path (Some (leap_flag lp)) (Some 1%Z) None (Some (tdep_header name 1 (Z.of_nat b) np (Z.of_nat K) step)) 1 b None lsq
    F G HK EX eq_refl (conj Hb1 Hb2) ltac:(lia) Hb1) as (fs' & text & M' & f & E1 & E2 & E3 & E4 & E5 & E6 & EO & E7 & E8).
  { apply tdep_comment. exact Hn1. } { exact Hn2. } { exact SM. } { intros E. apply Hlp. destruct lp as [[]|]; cbn in E; congruence. } { exact TX. } { exact CX. }
  exists fs', text, M', f. fold M in E1. split; [exact E1|]. split; [exact E2|]. split; [|split; [exact E4|split; [exact E5|split; [exact E6|split; [exact E7|]]]]].
  - apply (load_tdep lsq text lp M' x E3 E6). right. 
    rewrite EO. intros X. injection X as X. lia.
  - intros p d t Hd I. rewrite (E8 p d t Hd I). destruct (Nat.ltb_spec d (1 * 1 - 1)); [lia|reflexivity].
Qed.

(** tdep part, order 1, at least two pieces *)
Lemma chaos_const_round_trip now fs name c0 x D c tq cq path model lp b lsq :
  let M := model_init (Some x) None (Some (mkc3 1 (List.length x - 1) D c)) (Some "internal"%string) in
  ch_tdep c0 = Some M -> (model = None \/ model = Some "tdep"%string) -> good_breaks x -> (3 <= List.length x)%nat -> exported M tq cq ->
  (1 <= b)%nat -> (b * (b + 2) <= D)%nat -> (D < (b + 1) * (b + 3))%nat ->
  ~ In "010"%char name -> ~ In "010"%char now ->
  (lp = Some true -> forall i, (i + 1 < List.length x)%nat -> -106650 <= nth i x 0 < 107016) ->
  exists fs' text M' y c',
    chaos_save_shc now fs name c0 tq cq path model lp = (fs', Ok tt) /\ fs' path = Some text /\
    load_chaos_shc lsq text lp = Ok (mkchaos (Some M') None None None None None None) /\
    M' = model_init (Some y) (Some 1%Z) (Some (mkc3 1 (List.length x - 1) (b * (b + 2)) c')) None /\
    List.length y = List.length x /\
    (forall i, (i + 1 < List.length x)%nat -> Rabs (nth i y 0 - nth i x 0) <= 2 / 1000000) /\
    forall i j, (i + 1 < List.length x)%nat -> (j < b * (b + 2))%nat -> Rabs (c' 0%nat i j - c 0%nat i j) <= 1 / 200000000.
Proof.
  intros M HT HM G L3 EX Hb Hb1 Hb2 Hn1 Hn2 Hlp.
  assert (BB : b_breaks (m_base M) = Some x) by (clear - L3; destruct x as [|? [|? ?]]; cbn in L3; try lia; reflexivity).
  destruct (degree_of_size_spec D) as (N0 & D1 & D2 & D3). assert (N0 = b) by nia. subst N0.
  assert (MN : m_nmax M = Some (Z.of_nat b)) by (unfold M, model_init, base_init; cbn; rewrite D3; destruct x as [|? [|? ?]]; reflexivity).
  destruct (save_tdep now fs name c0 tq cq path model lp M (Z.of_nat b) 1%Z x HM HT MN eq_refl BB) as (np & step & ES). rewrite ES.
  destruct (const_round_trip now fs name x D c (Some "internal"%string) tq cq path (Some (leap_flag lp)) (Some 1%Z) None (Some (tdep_header name 1 (Z.of_nat b) np 1 step)) 1 b None lsq
    G EX eq_refl (conj Hb1 Hb2) ltac:(lia) Hb1) as (fs' & text & M' & y & c' & E1 & E2 & E3 & E4 & E5 & E6 & E7 & E8).
  { apply tdep_comment. exact Hn1. } { exact Hn2. } { intros E. apply Hlp. destruct lp as [[]|]; cbn in E; congruence. }
  exists fs', text, M', y, c'. split; [exact E1|]. split; [exact E2|]. split.
  - apply (load_tdep lsq text lp M' y E3); [|left; lia]. rewrite E4. destruct y as [|? [|? ?]]; [cbn in E5; lia|cbn in E5; lia|reflexivity].
  - split; [exact E4|]. split; [exact E5|]. split; [exact E6|]. intros i j Hi Hj. apply (E8 i j Hi Hj). lia.
Qed.

(** A single bin becomes the static part *)
Lemma load_static lsq text lp M t0 D v : from_shc lsq text (Some (leap_flag lp)) None = Ok M ->
  M = model_init (Some [t0; t0]) (Some 1%Z) (Some (mkc3 1 1 D v)) None ->
  exists v', (forall r i d, v' r i d = v r i d) /\
  load_chaos_shc lsq text lp = Ok (mkchaos None (Some (model_init (Some [t0; t0]) (Some 1%Z) (Some (mkc3 1 1 D v')) (Some "internal"%string))) None None None None None).
Proof.
  intros H ->. exists (fun r i d => v (r + 0)%nat i d). split; [intros; rewrite Nat.add_0_r; reflexivity|].
  unfold load_chaos_shc. fold (leap_flag lp). rewrite H. reflexivity.
Qed.

Lemma static_eval t0 D v nmax : (1 <= D)%nat ->
  let m := model_init (Some [t0; t0]) (Some 1%Z) (Some (mkc3 1 1 D v)) (Some "internal"%string) in
  exists r, model_coeffs m (scalar (static_time m)) nmax None XNone = Ok r /\ s_sh r = [] /\
    s_dim r = match nmax with None => D | Some n => Nat.min (n * (n + 2)) D end /\ forall d, (d < s_dim r)%nat -> s_at r [] d = Some (v 0%nat 0%nat d).
Proof.
  intros HD m. unfold model_coeffs. change (m_base m) with (mkbase (Some [t0; t0]) (Some 1%Z) (Some 1%Z) (Some (mkc3 1 1 D (fun r i d => v (r + 0)%nat i d))) (Some D)).
  change (static_time m) with t0. unfold synth_coeffs. cbn [b_coeffs b_breaks b_dim b_order c_k c_m c_d c_v].
  replace ((1 =? 0) || (1 =? 0) || (D =? 0))%nat%bool with false by (symmetry; cbn; apply Nat.eqb_neq; lia).
  cbn [List.length Nat.sub nth]. change (elems (scalar t0)) with [t0]. cbn [amin amax fold_left bind].
  destruct (Rlt_dec t0 t0) as [X|X]; [exfalso; lra|]. cbn [bind]. eexists. split; [reflexivity|]. split; [reflexivity|]. cbn [s_dim s_at]. split.
  - destruct nmax as [n|]; [|reflexivity]. cbn [option_map]. destruct (Nat.ltb_spec D (n * (n + 2))); lia.
  - intros d _. unfold pp_eval, pp_deriv. cbn [p_k Nat.leb p_x p_c p_ext]. unfold interval. cbn [p_x nth List.length Nat.sub]. change (at_ (scalar t0) []) with t0.
    destruct (Rlt_dec t0 t0); [exfalso; lra|]. destruct (Req_EM_T t0 t0); [|exfalso; lra]. cbn [option_map]. f_equal. unfold poly_eval. cbn. ring.
Qed.

(** static part *)
Lemma chaos_static_round_trip now fs name c0 td x D v tq cq path lp N b lsq :
  let M := model_init (Some x) None (Some (mkc3 1 1 D v)) (Some "internal"%string) in
  ch_static c0 = Some M -> ch_tdep c0 = Some td -> m_nmax td = Some (Z.of_nat N) ->
  List.length x = 2%nat -> good_breaks x -> exported M tq cq ->
  (N + 1 <= b)%nat -> (b * (b + 2) <= D)%nat -> (D < (b + 1) * (b + 3))%nat ->
  ~ In "010"%char name -> ~ In "010"%char now -> (lp = Some true -> -106650 <= first_break x < 107016) ->
  exists fs' text c' w,
    chaos_save_shc now fs name c0 tq cq path (Some "static"%string) lp = (fs', Ok tt) /\ fs' path = Some text /\
    load_chaos_shc lsq text lp = Ok c' /\ ch_tdep c' = None /\ ch_sm c' = None /\ ch_gsm c' = None /\ ch_euler c' = None /\ ch_cal c' = None /\
    (forall nmax, exists r, synth_coeffs_static c' nmax None XNone = Ok r /\ s_sh r = [] /\
      s_dim r = (match nmax with None => b * (b + 2) | Some n => Nat.min (n * (n + 2)) (b * (b + 2)) end)%nat /\ forall d, (d < s_dim r)%nat -> s_at r [] d = Some (w d)) /\
    forall d, (d < b * (b + 2))%nat -> ((d < N * (N + 2))%nat -> w d = 0) /\ ((N * (N + 2) <= d)%nat -> Rabs (w d - v 0%nat 0%nat d) <= 1 / 200000000).
Proof.
  intros M HS HT HN L2 G EX Hb Hb1 Hb2 Hn1 Hn2 Hlp.
  destruct (degree_of_size_spec D) as (N0 & D1 & D2 & D3). assert (N0 = b) by nia. subst N0.
  assert (MN : m_nmax M = Some (Z.of_nat b)) by (unfold M, model_init, base_init; cbn; rewrite D3; destruct x as [|? [|? ?]]; reflexivity).
  assert (ME : M = model_init (Some x) None (Some (mkc3 1 (List.length x - 1) D v)) (Some "internal"%string)) by (unfold M; rewrite L2; reflexivity).
  destruct (const_round_trip now fs name x D v (Some "internal"%string) tq cq path (Some (leap_flag lp)) (Some (Z.of_nat N + 1)%Z) None (Some (static_header name (Z.of_nat N + 1) (Z.of_nat b))) (N + 1) b None lsq
    G ltac:(rewrite <- ME; exact EX) ltac:(cbn; lia) (conj Hb1 Hb2) ltac:(lia) Hb1) as (fs' & text & M' & y & c' & E1 & E2 & E3 & E4 & E5 & E6 & E7 & E8).
  { apply static_comment. exact Hn1. } { exact Hn2. }
  { intros E i Hi. assert (i = 0)%nat by lia. subst i. apply Hlp. destruct lp as [[]|]; cbn in E; congruence. }
  rewrite L2 in E4, E5, E7, E8. cbn [Nat.sub] in E4, E7. destruct y as [|y0 [|y1 [|y2 y]]]; cbn in E5; try discriminate E5. cbn [nth] in E7. subst y1.
  destruct (load_static lsq text lp M' y0 (b * (b + 2)) c' E3 E4) as (v' & VE & EL).
  eexists fs', text, _, (fun d => v' 0%nat 0%nat d). split; [|split; [exact E2|split; [exact EL|]]].
  - unfold chaos_save_shc. fold (leap_flag lp). change ("static" =? "tdep")%string with false. change ("static" =? "static")%string with true. cbv iota. rewrite HS, HT, HN, MN. rewrite ME. exact E1.
  - do 5 (split; [reflexivity|]). split.
    + intros nmax. destruct (static_eval y0 (b * (b + 2)) v' nmax ltac:(nia)) as (r & R1 & R2 & R3 & R4). exists r. split; [exact R1|]. split; [exact R2|]. split; [exact R3|exact R4].
    + intros d Hd. specialize (E8 0%nat d ltac:(lia) Hd). rewrite VE. replace ((N + 1) * (N + 1) - 1)%nat with (N * (N + 2))%nat in E8 by lia. exact E8.
Qed.

(** one piece of order one *)
Lemma chaos_single_bin now fs name c0 x D c tq cq path model lp b lsq :
  let M := model_init (Some x) None (Some (mkc3 1 1 D c)) (Some "internal"%string) in
  ch_tdep c0 = Some M -> (model = None \/ model = Some "tdep"%string) -> good_breaks x -> List.length x = 2%nat -> exported M tq cq ->
  (1 <= b)%nat -> (b * (b + 2) <= D)%nat -> (D < (b + 1) * (b + 3))%nat ->
  ~ In "010"%char name -> ~ In "010"%char now -> (lp = Some true -> -106650 <= first_break x < 107016) ->
  exists fs' text c', chaos_save_shc now fs name c0 tq cq path model lp = (fs', Ok tt) /\ fs' path = Some text /\
    load_chaos_shc lsq text lp = Ok c' /\ ch_tdep c' = None /\ ch_static c' <> None.
Proof.
  intros M HT HM G L2 EX Hb Hb1 Hb2 Hn1 Hn2 Hlp.
  assert (BB : b_breaks (m_base M) = Some x) by (clear - L2; destruct x as [|? [|? ?]]; cbn in L2; try lia; reflexivity).
  destruct (degree_of_size_spec D) as (N0 & D1 & D2 & D3). assert (N0 = b) by nia. subst N0.
  assert (MN : m_nmax M = Some (Z.of_nat b)) by (unfold M, model_init, base_init; cbn; rewrite D3; destruct x as [|? [|? ?]]; reflexivity).
  assert (ME : M = model_init (Some x) None (Some (mkc3 1 (List.length x - 1) D c)) (Some "internal"%string)) by (unfold M; rewrite L2; reflexivity).
  destruct (save_tdep now fs name c0 tq cq path model lp M (Z.of_nat b) 1%Z x HM HT MN eq_refl BB) as (np & step & ES). rewrite ES.
  destruct (const_round_trip now fs name x D c (Some "internal"%string) tq cq path (Some (leap_flag lp)) (Some 1%Z) None (Some (tdep_header name 1 (Z.of_nat b) np 1 step)) 1 b None lsq
    G ltac:(rewrite <- ME; exact EX) eq_refl (conj Hb1 Hb2) ltac:(lia) Hb1) as (fs' & text & M' & y & c' & E1 & E2 & E3 & E4 & E5 & E6 & E7 & E8).
  { apply tdep_comment. exact Hn1. } { exact Hn2. } { intros E i Hi. assert (i = 0)%nat by lia. subst i. apply Hlp. destruct lp as [[]|]; cbn in E; congruence. }
  rewrite L2 in E4, E5, E7. cbn [Nat.sub] in E4, E7. destruct y as [|y0 [|y1 [|y2 y]]]; cbn in E5; try discriminate E5. cbn [nth] in E7. subst y1.
  destruct (load_static lsq text lp M' y0 (b * (b + 2)) c' E3 E4) as (v' & VE & EL).
  eexists fs', text, _. split; [rewrite ME; exact E1|]. split; [exact E2|]. split; [exact EL|]. split; [reflexivity|discriminate].
Qed.
