(** The loaders of spline files, from the text. *)
From Coq Require Import Reals QArith Qreals List Arith ZArith String Ascii Bool Lia Lra.
From Verif Require Import M_Prelude M_Time M_ND M_Text M_SHC Spec_Field Spec_Spline Spec_PP Spec_Loaders M_Spectrum M_Spline M_PP M_Model M_FromSpline M_Loaders
  P_Text P_SHC P_SHC2 P_Spectrum P_Spectrum2 P_Spectrum3 P_Spline P_Spline2 P_Spline3 P_Spline4 P_PP P_PP2 P_Loaders.
Import ListNotations.
Open Scope R_scope.

Lemma numbers_fromstring t qs : numbers t qs -> fromstring t = qs.
Proof. intros H. apply floats_all. exact H. Qed.
Lemma words_join_lines ls : words (join_lines ls) = List.concat (map words ls).
Proof.
  induction ls as [|l ls IH]; [reflexivity|]. cbn [map List.concat]. rewrite <- IH. unfold join_lines. cbn [flat_map].
  rewrite <- !app_assoc. change (l ++ nl ++ txt " " ++ flat_map (fun l0 : list ascii => l0 ++ nl ++ txt " ") ls)%list with (l ++ "010"%char :: (" "%char :: join_lines ls))%list.
  rewrite words_space by reflexivity. f_equal. 
Qed.
Lemma numbers_join ls : forall datas, Forall2 numbers ls datas -> numbers (join_lines ls) (List.concat datas).
Proof.
  unfold numbers. intros datas H. rewrite words_join_lines. induction H as [|l qs ls datas H1 _ IH]; [constructor|].
  cbn [map List.concat]. apply Forall2_app; assumption.
Qed.
Lemma Qtrunc_int q z : (q == inject_Z z)%Q -> Qtrunc q = z.
Proof.
  unfold Qeq, Qtrunc. cbn [Qnum Qden inject_Z]. intros H. rewrite Z.mul_1_r in H. rewrite H. apply Z.quot_mul. lia.
Qed.
Lemma slice_pos_nat k len : (k <= len)%nat -> slice_pos (Z.of_nat k) len = k.
Proof. intros H. unfold slice_pos. destruct (Z.ltb_spec (Z.of_nat k) 0); lia. Qed.
Lemma slice_mid {A} (p a b : list A) z n : List.length p = n -> z = Z.of_nat (n + List.length a) -> slice_to n z (p ++ a ++ b) = a.
Proof.
  intros H ->. unfold slice_to. rewrite slice_pos_nat by (rewrite !app_length; lia). subst n.
  replace (List.length p + List.length a - List.length p)%nat with (List.length a + 0)%nat by lia.
  rewrite skipn_app, skipn_all, Nat.sub_diag. cbn [skipn]. change ([] ++ a ++ b)%list with (a ++ b)%list. rewrite firstn_app_2. cbn [firstn]. apply app_nil_r.
Qed.
Lemma slice_end {A} (p a b : list A) z : z = Z.of_nat (List.length p + List.length a) -> slice_from z (p ++ a ++ b) = b.
Proof.
  intros ->. unfold slice_from. rewrite slice_pos_nat by (rewrite !app_length; lia). rewrite app_assoc, <- app_length, skipn_app, skipn_all, Nat.sub_diag. reflexivity.
Qed.

Lemma covobs_loads content nmax order years data : (1 <= nmax)%nat -> (2 <= order)%nat -> covobs_file content nmax order years data ->
  exists M, load_CovObs_txtfile content = Ok M /\ is_spline_model M nmax order years data.
Proof.
  intros Hn Ho (title & params & rest & datas & qn & q1 & qo & EL & NP & E1 & E2 & ND & -> & I & L1 & L2 & LD).
  unfold load_CovObs_txtfile. rewrite EL. unfold item at 1. cbn [nth_error bind]. rewrite (numbers_fromstring _ _ NP).
  unfold item. cbn [nth_error bind skipn]. rewrite (numbers_fromstring _ _ (numbers_join _ _ ND)).
  rewrite (Qtrunc_int _ _ E1), (Qtrunc_int _ _ E2). apply spline_model_ok; assumption.
Qed.

Lemma gufm1_loads content nmax years data : (1 <= nmax)%nat -> gufm1_file content nmax years data ->
  exists M, load_gufm1_txtfile content = Ok M /\ is_spline_model M nmax 4 years data.
Proof.
  intros Hn (title & rest & datas & qn & qs & EL & ND & EC & E1 & E2 & I & L1 & LD).
  unfold load_gufm1_txtfile. rewrite EL. cbn [skipn]. rewrite (numbers_fromstring _ _ (numbers_join _ _ ND)), EC.
  unfold item. cbn [nth_error bind]. rewrite (Qtrunc_int _ _ E1), (Qtrunc_int _ _ E2).
  change (qn :: qs :: years ++ data)%list with ([qn; qs] ++ years ++ data)%list.
  rewrite slice_mid by (cbn [List.length]; try reflexivity; lia). rewrite slice_end by (cbn [List.length]; lia).
  apply (spline_model_ok nmax 4); try assumption. lia.
Qed.

Lemma D_E_space c : is_space (D_to_E c) = is_space c.
Proof. unfold D_to_E. destruct (Ascii.eqb_spec c "D"); [subst; reflexivity|reflexivity]. Qed.
Lemma words_acc_D l : forall w, words_acc (map D_to_E w) (map D_to_E l) = map (map D_to_E) (words_acc w l).
Proof.
  induction l as [|c l IH]; intros w; cbn [map words_acc].
  - destruct w as [|a w]; [reflexivity|]. change (map (map D_to_E) [rev (a :: w)]) with [map D_to_E (rev (a :: w))]. rewrite map_rev. reflexivity.
  - rewrite D_E_space. destruct (is_space c).
    + destruct w as [|a w]; [apply (IH [])|]. change (map D_to_E (a :: w)) with (D_to_E a :: map D_to_E w). cbn [map]. rewrite <- (IH []). f_equal.
      rewrite map_rev. reflexivity.
    + apply (IH (c :: w)).
Qed.
Lemma numbers_D_fromstring t qs : numbers_D t qs -> fromstring (replace_D t) = qs.
Proof.
  unfold numbers_D. intros H. apply floats_all. pose proof (words_acc_D t []) as W. cbn [map] in W. unfold words. change (replace_D t) with (map D_to_E t). rewrite W.
  revert H. change (words t) with (words_acc [] t). generalize (words_acc [] t). intros ws H. induction H; constructor; assumption.
Qed.
Lemma cals7k_loads content nmax years data : (1 <= nmax)%nat -> cals7k_file content nmax years data ->
  exists M, load_CALS7K_txtfile content = Ok M /\ is_spline_model M nmax 4 years data.
Proof.
  intros Hn (ts & te & qo & q3 & qn & q5 & qs & ND & E1 & E2 & I & L1 & LD).
  unfold load_CALS7K_txtfile. rewrite (numbers_D_fromstring _ _ ND).
  unfold item. cbn [nth_error bind]. rewrite (Qtrunc_int _ _ E1), (Qtrunc_int _ _ E2).
  change (ts :: te :: qo :: q3 :: qn :: q5 :: qs :: years ++ data)%list with ([ts; te; qo; q3; qn; q5; qs] ++ years ++ data)%list.
  rewrite slice_mid by (cbn [List.length]; try reflexivity; lia). rewrite slice_end by (cbn [List.length]; lia).
  apply (spline_model_ok nmax 4); try assumption. lia.
Qed.

(** Order one: the slice coeffs[0:-0] is empty. *)
Lemma covobs_order_one content nmax years data : (1 <= nmax)%nat -> covobs_file content nmax 1 years data ->
  (2 < List.length years)%nat -> load_CovObs_txtfile content = Err ValueError.
Proof.
  intros Hn (title & params & rest & datas & qn & q1 & qo & EL & NP & E1 & E2 & ND & -> & I & L1 & L2 & LD) L3.
  unfold load_CovObs_txtfile. rewrite EL. unfold item at 1. cbn [nth_error bind]. rewrite (numbers_fromstring _ _ NP).
  unfold item. cbn [nth_error bind skipn]. rewrite (numbers_fromstring _ _ (numbers_join _ _ ND)).
  rewrite (Qtrunc_int _ _ E1), (Qtrunc_int _ _ E2). set (data := List.concat datas) in *.
  unfold spline_model. rewrite mapM_mjdq. cbn [bind]. fold (day_breaks years). pose proof (day_breaks_length years) as LB.
  destruct (augment_breaks (day_breaks years) (Z.of_nat 1)) as [t|e] eqn:Ea.
  2:{ exfalso. unfold augment_breaks in Ea. destruct (day_breaks years); [cbn in LB; lia|discriminate]. }
  pose proof (len_t _ 1 t (day_breaks_good years I L2) ltac:(lia) Ea) as LT.
  cbn [bind]. change (Z.of_nat 1 <? 1)%Z with false. cbv iota. unfold insert_rows. change (Z.to_nat (Z.of_nat 1 - 1)) with 0%nat.
  destruct (Z.ltb_spec (Z.of_nat (List.length t) - Z.of_nat 1) 0); [lia|]. destruct (Z.ltb_spec (Z.of_nat nmax * (Z.of_nat nmax + 2)) 0); [lia|]. cbn [orb Nat.eqb].
  rewrite map_length. rewrite reshape_ok by nia. cbn [bind].
  destruct (Nat.eqb_spec (Z.to_nat (Z.of_nat (List.length years) - Z.of_nat 1)) 0); [lia|].
  destruct (Nat.eqb_spec (Z.to_nat (Z.of_nat (List.length years) - Z.of_nat 1)) 1); [lia|]. reflexivity.
Qed.
Lemma covobs_order_one_zero content nmax years data : (1 <= nmax)%nat -> covobs_file content nmax 1 years data ->
  List.length years = 2%nat -> exists M, load_CovObs_txtfile content = Ok M /\
    takes_values M (nmax * (nmax + 2)) (days (nth 0 (map Q2R years) 0)) (days (last (map Q2R years) 0)) (fun _ _ => 0).
Proof.
  intros Hn (title & params & rest & datas & qn & q1 & qo & EL & NP & E1 & E2 & ND & -> & I & L1 & L2 & LD) L3.
  unfold load_CovObs_txtfile. rewrite EL. unfold item at 1. cbn [nth_error bind]. rewrite (numbers_fromstring _ _ NP).
  unfold item. cbn [nth_error bind skipn]. rewrite (numbers_fromstring _ _ (numbers_join _ _ ND)).
  rewrite (Qtrunc_int _ _ E1), (Qtrunc_int _ _ E2). set (data := List.concat datas) in *.
  unfold spline_model. rewrite mapM_mjdq. cbn [bind]. fold (day_breaks years). pose proof (day_breaks_length years) as LB.
  set (b := day_breaks years) in *. pose proof (day_breaks_good years I L2) as G. fold b in G.
  destruct (augment_breaks b (Z.of_nat 1)) as [t|e] eqn:Ea.
  2:{ exfalso. unfold augment_breaks in Ea. destruct b; [cbn in LB; lia|discriminate]. }
  pose proof (len_t _ 1 t G ltac:(lia) Ea) as LT.
  cbn [bind]. change (Z.of_nat 1 <? 1)%Z with false. cbv iota. unfold insert_rows. change (Z.to_nat (Z.of_nat 1 - 1)) with 0%nat.
  set (dim := (nmax * (nmax + 2))%nat) in *. replace (Z.of_nat nmax * (Z.of_nat nmax + 2))%Z with (Z.of_nat dim) by (unfold dim; lia).
  destruct (Z.ltb_spec (Z.of_nat (List.length t) - Z.of_nat 1) 0); [lia|]. destruct (Z.ltb_spec (Z.of_nat dim) 0); [lia|]. cbn [orb Nat.eqb].
  rewrite map_length. rewrite reshape_ok by nia. cbn [bind]. rewrite L3. change (Z.to_nat (Z.of_nat 2 - Z.of_nat 1)) with 1%nat. cbn [Nat.eqb orb negb bind].
  change (Z.to_nat (Z.of_nat 1)) with 1%nat. rewrite Nat2Z.id.
  match goal with |- exists M, from_bspline _ _ ?f _ _ _ = _ /\ _ => set (c := f) end.
  assert (HD : (1 <= dim)%nat) by (unfold dim; nia).
  destruct (model_spline b 1 t (Z.to_nat (Z.of_nat (List.length t) - Z.of_nat 1)) dim c (Some "internal"%string) G ltac:(lia) HD Ea ltac:(lia)) as (M & EM & _ & _ & _ & TV).
  exists M. split; [exact EM|].
  assert (NE : map Q2R years <> []) by (intros E0; apply (f_equal (@List.length R)) in E0; rewrite map_length in E0; cbn in E0; lia).
  assert (F1 : days (nth 0 (map Q2R years) 0) = first_break b) by (unfold first_break, b; rewrite day_breaks_nth by lia; reflexivity).
  assert (F2 : days (last (map Q2R years) 0) = last_break b).
  { unfold last_break. rewrite LB. unfold b. rewrite day_breaks_nth by lia. rewrite (last_nth _ NE), map_length. reflexivity. }
  rewrite F1, F2. intros time n0 HE. destruct (TV time n0 HE) as (r & Er & S1 & S2 & V). exists r. split; [exact Er|]. split; [exact S1|]. split; [exact S2|].
  intros idx d Vi Hd Hx. rewrite (V idx d Vi Hd Hx). f_equal. unfold spline. change (fold_right Rplus 0 ?l) with (Rsum l).
  rewrite (Rsum_seq_ext _ (fun _ => 0)), Rsum_const0; [reflexivity|]. intros i Hi. unfold c. 
  destruct (Nat.ltb_spec i (0 + 0)); [lia|]. rewrite andb_false_r. ring.
Qed.
