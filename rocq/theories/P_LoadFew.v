From Coq Require Import Reals QArith Qreals List Arith ZArith String Ascii Bool Lia Lra.
From Verif Require Import M_Prelude M_Time M_ND M_Spectrum M_Spline M_PP M_Model M_Text M_SHC M_FromSpline M_Loaders.
From Verif Require Import Spec_PP Spec_Spline Spec_Text Spec_Loaders Spec_LoadErr Spec_LoadCut P_Text P_TextSpec P_Spectrum P_Spectrum2 P_Spectrum3 P_Spline P_Spline2 P_Spline3 P_Spline4 P_PP P_PP2 P_Loaders P_Loaders2 P_LoadErr P_SHCRead P_LoadCut.
Import ListNotations.
Open Scope nat_scope.

Lemma zero_coeffs_zero nmax order rows t c M : (forall i d, c i d = 0%R) ->
  from_bspline rows (Z.to_nat (Z.of_nat nmax * (Z.of_nat nmax + 2))) c t (Z.to_nat (Z.of_nat order)) (Some "internal"%string) = Ok M -> zero_model M nmax.
Proof.
  intros CZ E.
  replace (Z.to_nat (Z.of_nat nmax * (Z.of_nat nmax + 2))) with (nmax * (nmax + 2)) in E by lia. rewrite Nat2Z.id in E.
  unfold from_bspline, pp_from_bspline in E. destruct (_ && _)%bool in E; [discriminate|]. destruct (_ && _)%bool in E; [discriminate|]. cbn [bind] in E. injection E as <-.
  split; [unfold model_init, base_init; cbn [m_nmax b_dim option_map c_d]; f_equal; apply degree_full|].
  eexists. split; [reflexivity|]. split; [reflexivity|]. intros j i d. unfold take_last. cbn [c_v c_k].
  unfold from_spline. match goal with |- match ?x with _ => _ end = _ => assert (Z0 : match x with Some v => v = 0%R | None => True end) end.
  { apply eval_zero. intros i0. clear - CZ. revert i0. generalize (seq 0 rows). induction l as [|r l IH]; intros [|i]; cbn; try reflexivity; [apply CZ|apply IH]. }
  destruct (bspline_eval _ _ _ _ _); [rewrite Z0; unfold Rdiv; ring|reflexivity].
Qed.

(** Fewer knots than the order. *)
Lemma few_knots nmax order years data M : 1 <= nmax -> 1 <= order -> List.length years < order ->
  spline_model (Z.of_nat nmax) (Z.of_nat order) years data = Ok M ->
  List.length years + 1 = order /\ (List.length data = 0 \/ List.length data = nmax * (nmax + 2)) /\ zero_model M nmax.
Proof.
  intros Hn Ho L E. unfold spline_model in E. rewrite mapM_mjdq in E. cbn [bind] in E. fold (day_breaks years) in E.
  destruct (augment_breaks (day_breaks years) (Z.of_nat order)) as [t|] eqn:EA; [|discriminate]. cbn [bind] in E.
  destruct (Z.ltb_spec (Z.of_nat order) 1); [lia|].
  destruct (insert_rows (List.length t) (List.length (map mjdq years)) (Z.of_nat order) (Z.of_nat nmax * (Z.of_nat nmax + 2)) data) as [[rows c]|] eqn:R; [|discriminate]. cbn [bind] in E.
  rewrite map_length in R. unfold insert_rows in R.
  destruct (Z.ltb_spec (Z.of_nat (List.length t) - Z.of_nat order) 0) as [|RP]; [discriminate|].
  destruct (Z.ltb_spec (Z.of_nat nmax * (Z.of_nat nmax + 2)) 0); [discriminate|]. cbn [orb] in R.
  assert (LT : List.length t = List.length years + 2 * (order - 1)).
  { apply aug_length in EA; [|lia]. rewrite EA. unfold day_breaks. rewrite !map_length. reflexivity. }
  unfold reshape_rows in R.
  assert (DP : (0 < Z.of_nat nmax * (Z.of_nat nmax + 2))%Z) by nia.
  destruct (Z.eqb_spec (Z.of_nat (List.length years) - Z.of_nat order) (-1)) as [K|K].
  2:{ destruct (Z.ltb_spec (Z.of_nat (List.length years) - Z.of_nat order) 0); [discriminate|lia]. }
  destruct (Z.eqb_spec (Z.of_nat nmax * (Z.of_nat nmax + 2)) 0); [lia|].
  destruct (Z.eqb_spec (Z.of_nat (List.length data) mod (Z.of_nat nmax * (Z.of_nat nmax + 2))) 0) as [MZ|]; [|discriminate]. cbn [bind] in R.
  set (given := Z.to_nat (Z.of_nat (List.length data) / (Z.of_nat nmax * (Z.of_nat nmax + 2)))) in *.
  set (target := if (Z.to_nat (Z.of_nat order - 1) =? 0)%nat then 0 else Z.to_nat (Z.of_nat (List.length t) - Z.of_nat order) - Z.to_nat (Z.of_nat order - 1) - Z.to_nat (Z.of_nat order - 1)) in *.
  assert (T0 : target = 0).
  { unfold target. destruct (Z.to_nat (Z.of_nat order - 1) =? 0); [reflexivity|]. lia. }
  rewrite T0 in R. destruct (negb ((given =? 0) || (given =? 1))) eqn:G; [discriminate|].
  apply negb_false_iff, orb_true_iff in G.
  split; [lia|]. split.
  { pose proof (Z.div_mod (Z.of_nat (List.length data)) (Z.of_nat nmax * (Z.of_nat nmax + 2)) ltac:(lia)) as DM. rewrite MZ in DM.
    pose proof (Z.div_pos (Z.of_nat (List.length data)) (Z.of_nat nmax * (Z.of_nat nmax + 2)) ltac:(lia) DP) as DN.
    destruct G as [G|G]; apply Nat.eqb_eq in G; unfold given in G; [left|right]; nia. }
  assert (CZ : forall i d, c i d = 0%R).
  { pose proof (f_equal (fun r => match r with Ok p => snd p | Err _ => c end) R) as X. cbv beta iota in X. cbn [snd] in X. rewrite <- X.
    intros i d. cbv beta. destruct (Nat.leb_spec (Z.to_nat (Z.of_nat order - 1)) i), (Nat.ltb_spec i (Z.to_nat (Z.of_nat order - 1) + 0)); cbn [andb]; try reflexivity; lia. }
  exact (zero_coeffs_zero nmax order rows t c M CZ E).
Qed.

(** The three formats read the numbers of a layout. *)
Lemma covobs_same content nmax order years data : covobs_layout content nmax order years data ->
  load_CovObs_txtfile content = spline_model (Z.of_nat nmax) (Z.of_nat order) years data.
Proof.
  intros (title & params & rest & datas & qn & q1 & qo & EL & NP & E1 & E2 & ND & ->).
  unfold load_CovObs_txtfile. rewrite EL. unfold item at 1. cbn [nth_error bind]. rewrite (numbers_fromstring _ _ NP).
  unfold item. cbn [nth_error bind skipn]. rewrite (numbers_fromstring _ _ (numbers_join _ _ ND)).
  rewrite (Qtrunc_int _ _ E1), (Qtrunc_int _ _ E2). reflexivity.
Qed.
Lemma gufm1_same content nmax years data : gufm1_layout content nmax years data ->
  load_gufm1_txtfile content = spline_model (Z.of_nat nmax) 4 years data.
Proof.
  intros (title & rest & datas & qn & qs & EL & ND & EC & E1 & E2).
  unfold load_gufm1_txtfile. rewrite EL. cbn [skipn]. rewrite (numbers_fromstring _ _ (numbers_join _ _ ND)), EC.
  unfold item. cbn [nth_error bind]. rewrite (Qtrunc_int _ _ E1), (Qtrunc_int _ _ E2).
  change (qn :: qs :: years ++ data)%list with ([qn; qs] ++ years ++ data)%list.
  rewrite slice_mid by (cbn [List.length]; try reflexivity; lia). rewrite slice_end by (cbn [List.length]; lia). reflexivity.
Qed.
Lemma cals7k_same content nmax years data : cals7k_layout content nmax years data ->
  load_CALS7K_txtfile content = spline_model (Z.of_nat nmax) 4 years data.
Proof.
  intros (ts & te & qo & q3 & qn & q5 & qs & ND & E1 & E2).
  unfold load_CALS7K_txtfile. rewrite (numbers_D_fromstring _ _ ND).
  unfold item. cbn [nth_error bind]. rewrite (Qtrunc_int _ _ E1), (Qtrunc_int _ _ E2).
  change (ts :: te :: qo :: q3 :: qn :: q5 :: qs :: years ++ data)%list with ([ts; te; qo; q3; qn; q5; qs] ++ years ++ data)%list.
  rewrite slice_mid by (cbn [List.length]; try reflexivity; lia). rewrite slice_end by (cbn [List.length]; lia). reflexivity.
Qed.

(** and these tables are indeed loaded *)
Lemma few_loads nmax years data : 1 <= nmax -> 2 <= List.length years -> increasing years ->
  (List.length data = 0 \/ List.length data = nmax * (nmax + 2)) ->
  exists M, spline_model (Z.of_nat nmax) (Z.of_nat (List.length years + 1)) years data = Ok M /\ zero_model M nmax.
Proof.
  intros Hn Hy I D. set (order := List.length years + 1). set (b := day_breaks years). assert (LB : List.length b = List.length years) by apply day_breaks_length.
  assert (G : good_breaks b) by (apply day_breaks_good; [exact I|lia]).
  assert (X : exists M, spline_model (Z.of_nat nmax) (Z.of_nat order) years data = Ok M).
  { unfold spline_model. rewrite mapM_mjdq. cbn [bind]. fold (day_breaks years). fold b.
    destruct (augment_breaks b (Z.of_nat order)) as [t|e] eqn:Ea.
    2:{ exfalso. unfold augment_breaks in Ea. destruct b; [cbn in LB; lia|discriminate]. }
    cbn [bind]. destruct (Z.ltb_spec (Z.of_nat order) 1); [lia|]. rewrite map_length.
    pose proof (len_t b order t G ltac:(lia) Ea) as LT.
    unfold insert_rows. destruct (Z.ltb_spec (Z.of_nat (List.length t) - Z.of_nat order) 0); [lia|]. destruct (Z.ltb_spec (Z.of_nat nmax * (Z.of_nat nmax + 2)) 0); [lia|]. cbn [orb].
    assert (NR : exists g, reshape_rows (List.length data) (Z.of_nat (List.length years) - Z.of_nat order) (Z.of_nat nmax * (Z.of_nat nmax + 2)) = Ok g /\ (g = 0 \/ g = 1)).
    { unfold reshape_rows. destruct (Z.eqb_spec (Z.of_nat (List.length years) - Z.of_nat order) (-1)); [|lia].
      destruct (Z.eqb_spec (Z.of_nat nmax * (Z.of_nat nmax + 2)) 0); [nia|].
      destruct D as [-> | ->].
      - change (Z.of_nat 0) with 0%Z. rewrite Z.mod_0_l by nia. rewrite Z.eqb_refl. rewrite Z.div_0_l by nia. exists 0. split; [reflexivity|left; reflexivity].
      - replace (Z.of_nat (nmax * (nmax + 2))) with (Z.of_nat nmax * (Z.of_nat nmax + 2))%Z by lia. rewrite Z.mod_same by nia. rewrite Z.eqb_refl, Z.div_same by nia. exists 1. split; [reflexivity|right; reflexivity]. }
    destruct NR as (g & -> & HG). cbn [bind].
    destruct (Nat.eqb_spec (Z.to_nat (Z.of_nat order - 1)) 0); [lia|].
    match goal with |- context [negb (?x =? ?y)] => idtac | |- context [negb ?q] => destruct (negb q) eqn:NG end.
    { exfalso. apply negb_true_iff, orb_false_iff in NG. destruct NG as (N1 & N2). apply Nat.eqb_neq in N1, N2. lia. }
    cbn [bind].
    replace (Z.to_nat (Z.of_nat nmax * (Z.of_nat nmax + 2))) with (nmax * (nmax + 2)) by lia. rewrite Nat2Z.id.
    replace (Z.to_nat (Z.of_nat (List.length t) - Z.of_nat order)) with (List.length t - order) by lia.
    match goal with |- exists M, from_bspline _ _ ?f _ _ _ = _ => set (c := f) end.
    destruct (model_spline b order t (List.length t - order) (nmax * (nmax + 2)) c (Some "internal"%string) G ltac:(lia) ltac:(nia) Ea ltac:(lia)) as (M & EM & _).
    exists M. exact EM. }
  destruct X as (M & E). exists M. split; [exact E|]. exact (proj2 (proj2 (few_knots nmax order years data M Hn ltac:(lia) ltac:(lia) E))).
Qed.
