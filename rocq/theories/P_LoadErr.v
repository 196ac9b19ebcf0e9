(** Malformed model files are reported. *)
From Coq Require Import Reals QArith Qreals List Arith ZArith String Ascii Bool Lia Lra.
From Verif Require Import M_Prelude M_Time M_ND M_Text M_SHC M_Spectrum M_PP M_Model M_FromSpline M_Loaders Spec_PP Spec_Loaders Spec_LoadErr P_Loaders P_Loaders2 P_Loaders3.
Import ListNotations.
Open Scope R_scope.

Lemma sortedb_adjacent l : sortedb l = true -> forall i, (i + 1 < List.length l)%nat -> nth i l 0 <= nth (i + 1) l 0.
Proof.
  induction l as [|x [|y l] IH]; intros S i Hi; [cbn in Hi; lia|cbn in Hi; lia|]. cbn [sortedb] in S. destruct (Rlt_dec y x) as [|N]; [discriminate|].
  destruct i as [|i]; [cbn; lra|]. apply (IH S i). cbn [List.length] in *. lia.
Qed.
Lemma sortedb_mid a b c i : (i + 1 < List.length b)%nat -> nth (i + 1) b 0 < nth i b 0 -> sortedb (a ++ b ++ c) = false.
Proof.
  intros Hi H. destruct (sortedb (a ++ b ++ c)) eqn:S; [|reflexivity]. exfalso.
  pose proof (sortedb_adjacent _ S (List.length a + i)%nat) as K. rewrite !app_length in K. specialize (K ltac:(lia)).
  replace (List.length a + i + 1)%nat with (List.length a + (i + 1))%nat in K by lia. rewrite !app_nth2_plus in K.
  rewrite (app_nth1 b c 0 (n := i)) in K by lia. rewrite (app_nth1 b c 0 (n := i + 1)) in K by lia. lra.
Qed.

Lemma from_bspline_unsorted rows dim c knots order source : (1 <= dim)%nat -> sortedb knots = false -> from_bspline rows dim c knots order source = Err ValueError.
Proof.
  intros Hd S. unfold from_bspline, pp_from_bspline. destruct (Nat.ltb_spec 0 dim); [|lia]. unfold bspline_check. rewrite S, andb_false_r. reflexivity.
Qed.

Lemma aug_length {A} (b : list A) (order : nat) t : (1 <= order)%nat -> augment_breaks b (Z.of_nat order) = Ok t -> List.length t = (List.length b + 2 * (order - 1))%nat.
Proof.
  intros Ho E. unfold augment_breaks in E. destruct b as [|b0 b]; [discriminate|]. apply (f_equal (fun r => match r with Ok l => List.length l | Err _ => 0%nat end)) in E. rewrite <- E.
  rewrite !app_length, !repeat_length. lia.
Qed.

Lemma spline_wrong_count nmax order years data : (1 <= nmax)%nat -> (1 <= order)%nat -> (order <= List.length years)%nat ->
  wrong_count nmax order years data -> spline_model (Z.of_nat nmax) (Z.of_nat order) years data = Err ValueError.
Proof.
  intros Hn Ho L W. unfold spline_model. rewrite mapM_mjdq. cbn [bind]. fold (day_breaks years). pose proof (day_breaks_length years) as LB.
  destruct (augment_breaks (day_breaks years) (Z.of_nat order)) as [t|e] eqn:Ea.
  2:{ exfalso. unfold augment_breaks in Ea. destruct (day_breaks years); [cbn in LB; lia|discriminate]. }
  cbn [bind]. destruct (Z.ltb_spec (Z.of_nat order) 1); [lia|]. rewrite map_length.
  pose proof (aug_length _ _ _ Ho Ea) as LT. unfold insert_rows.
  destruct (Z.ltb_spec (Z.of_nat (List.length t) - Z.of_nat order) 0); [lia|]. destruct (Z.ltb_spec (Z.of_nat nmax * (Z.of_nat nmax + 2)) 0); [nia|]. cbn [orb].
  assert (R : reshape_rows (List.length data) (Z.of_nat (List.length years) - Z.of_nat order) (Z.of_nat nmax * (Z.of_nat nmax + 2)) = Err ValueError); [|rewrite R; reflexivity].
  unfold reshape_rows. destruct (Z.eqb_spec (Z.of_nat (List.length years) - Z.of_nat order) (-1)); [lia|]. destruct (Z.ltb_spec (Z.of_nat (List.length years) - Z.of_nat order) 0); [lia|].
  destruct (Z.eqb_spec ((Z.of_nat (List.length years) - Z.of_nat order) * (Z.of_nat nmax * (Z.of_nat nmax + 2))) (Z.of_nat (List.length data))) as [E|E]; [|reflexivity].
  exfalso. apply W. nia.
Qed.

Lemma spline_out_of_order nmax order years data : (1 <= nmax)%nat -> (1 <= order)%nat -> (order <= List.length years)%nat ->
  out_of_order years -> spline_model (Z.of_nat nmax) (Z.of_nat order) years data = Err ValueError.
Proof.
  intros Hn Ho L (i & Hi & O). unfold spline_model. rewrite mapM_mjdq. cbn [bind]. fold (day_breaks years). pose proof (day_breaks_length years) as LB.
  destruct (augment_breaks (day_breaks years) (Z.of_nat order)) as [t|e] eqn:Ea.
  2:{ exfalso. unfold augment_breaks in Ea. destruct (day_breaks years); [cbn in LB; lia|discriminate]. }
  cbn [bind]. destruct (Z.ltb_spec (Z.of_nat order) 1); [lia|]. rewrite map_length.
  assert (S : sortedb t = false).
  { unfold augment_breaks in Ea. set (b := day_breaks years) in *. destruct b as [|b0 b'] eqn:Eb; [discriminate|]. rewrite <- Eb in *. injection Ea as <-.
    apply (sortedb_mid _ _ _ i); [lia|]. unfold b. rewrite !day_breaks_nth by lia. unfold days. rewrite <- !Q2R_nth. apply Qlt_Rlt in O. lra. }
  destruct (insert_rows (List.length t) (List.length years) (Z.of_nat order) (Z.of_nat nmax * (Z.of_nat nmax + 2)) data) as [[rows c]|e] eqn:IR.
  - cbn [bind]. apply from_bspline_unsorted; [nia|exact S].
  - cbn [bind]. unfold insert_rows in IR. repeat match type of IR with
      | (if ?b then _ else _) = _ => destruct b
      | bind ?x _ = _ => let E := fresh in destruct x eqn:E; cbn [bind] in IR
      | _ => discriminate || (injection IR as <-; try reflexivity)
      end.
    unfold reshape_rows in H0. repeat match type of H0 with (if ?b then _ else _) = _ => destruct b | _ => discriminate || (injection H0 as <-; try reflexivity) end.
Qed.

Lemma covobs_err content nmax order years data e : covobs_layout content nmax order years data ->
  spline_model (Z.of_nat nmax) (Z.of_nat order) years data = Err e -> load_CovObs_txtfile content = Err e.
Proof.
  intros (title & params & rest & datas & qn & q1 & qo & EL & NP & E1 & E2 & ND & ->) H.
  unfold load_CovObs_txtfile. rewrite EL. unfold item at 1. cbn [nth_error bind]. rewrite (numbers_fromstring _ _ NP).
  unfold item. cbn [nth_error bind skipn]. rewrite (numbers_fromstring _ _ (numbers_join _ _ ND)).
  rewrite (Qtrunc_int _ _ E1), (Qtrunc_int _ _ E2). exact H.
Qed.
Lemma gufm1_err content nmax years data e : gufm1_layout content nmax years data ->
  spline_model (Z.of_nat nmax) 4 years data = Err e -> load_gufm1_txtfile content = Err e.
Proof.
  intros (title & rest & datas & qn & qs & EL & ND & EC & E1 & E2) H.
  unfold load_gufm1_txtfile. rewrite EL. cbn [skipn]. rewrite (numbers_fromstring _ _ (numbers_join _ _ ND)), EC.
  unfold item. cbn [nth_error bind]. rewrite (Qtrunc_int _ _ E1), (Qtrunc_int _ _ E2).
  change (qn :: qs :: years ++ data)%list with ([qn; qs] ++ years ++ data)%list.
  rewrite slice_mid by (cbn [List.length]; try reflexivity; lia). rewrite slice_end by (cbn [List.length]; lia). exact H.
Qed.
Lemma cals7k_err content nmax years data e : cals7k_layout content nmax years data ->
  spline_model (Z.of_nat nmax) 4 years data = Err e -> load_CALS7K_txtfile content = Err e.
Proof.
  intros (ts & te & qo & q3 & qn & q5 & qs & ND & E1 & E2) H.
  unfold load_CALS7K_txtfile. rewrite (numbers_D_fromstring _ _ ND).
  unfold item. cbn [nth_error bind]. rewrite (Qtrunc_int _ _ E1), (Qtrunc_int _ _ E2).
  change (ts :: te :: qo :: q3 :: qn :: q5 :: qs :: years ++ data)%list with ([ts; te; qo; q3; qn; q5; qs] ++ years ++ data)%list.
  rewrite slice_mid by (cbn [List.length]; try reflexivity; lia). rewrite slice_end by (cbn [List.length]; lia). exact H.
Qed.

(** ** IGRF *)
Lemma mapM_float_err ws : (forall q, mapM to_float ws <> Ok q) -> mapM to_float ws = Err ValueError.
Proof.
  induction ws as [|w ws IH]; intros H; [exfalso; exact (H [] eq_refl)|]. cbn [mapM] in *. unfold to_float in *. destruct (parse_float w) as [q|]; [|reflexivity].
  cbn [bind] in *. fold to_float in *. rewrite IH; [reflexivity|]. intros qs E. change (mapM to_float ws = Ok qs) in E.
  apply (H (q :: qs)). change (bind (mapM to_float ws) (fun v => Ok (q :: v)) = Ok (q :: qs)). rewrite E. reflexivity.
Qed.
Lemma fold_err ls e : fold_left igrf_line ls (Err e) = Err e.
Proof. induction ls as [|l ls IH]; [reflexivity|]. cbn [fold_left]. exact IH. Qed.
Lemma not_all_numbers ws : ~ (exists qs, Forall2 number ws qs) -> mapM to_float ws = Err ValueError.
Proof.
  intros N. apply mapM_float_err. intros q E. apply N. exists q. revert q E. induction ws as [|w ws IH]; intros q E.
  - cbn in E. injection E as <-. constructor.
  - cbn [mapM] in E. unfold to_float at 1 in E. destruct (parse_float w) as [x|] eqn:P; [|discriminate]. cbn [bind] in E.
    destruct (mapM to_float ws) as [xs|] eqn:M; [|discriminate]. cbn [bind] in E. injection E as <-. constructor; [exact P|]. apply IH; [|reflexivity].
    intros [qs F]. apply N. exists (x :: qs). constructor; assumption.
Qed.
Lemma fold_bad_row b : forall ls body, without_comments ls body -> forall data,
  (exists l, In l body /\ ~ exists qs, Forall2 number (skipn 3 (words l)) qs) -> fold_left igrf_line ls (Ok (Some b, data)) = Err ValueError.
Proof.
  induction 1 as [|l ls cs C W IH|l ls cs C W IH]; intros data (l0 & I & B); [destruct I| |].
  - cbn [fold_left]. unfold igrf_line at 2. cbn [bind]. rewrite (proj2 (comment_spec l) C). apply IH. exists l0. split; assumption.
  - cbn [fold_left]. unfold igrf_line at 2. cbn [bind].
    destruct (prefix (txt "#") (lstrip l) || prefix (txt "c/s") (lstrip l))%bool eqn:P; [apply comment_spec in P; contradiction|].
    destruct (mapM to_float (skipn 3 (words l))) as [v|e] eqn:M; cbn [bind].
    + destruct I as [<- |I]; [rewrite (not_all_numbers _ B) in M; discriminate|]. apply IH. exists l0. split; assumption.
    + rewrite fold_err. f_equal. rewrite mapM_float_err in M; [congruence|]. intros q Q. congruence.
Qed.
Lemma fold_any_rows b : forall ls body, without_comments ls body -> forall table data, Forall2 (fun l row => Forall2 number (skipn 3 (words l)) row) body table ->
  fold_left igrf_line ls (Ok (Some b, data)) = Ok (Some b, (data ++ List.concat table)%list).
Proof.
  induction 1 as [|l ls cs C W IH|l ls cs C W IH]; intros table data F.
  - inversion F; subst. cbn. rewrite app_nil_r. reflexivity.
  - cbn [fold_left]. unfold igrf_line at 2. cbn [bind]. rewrite (proj2 (comment_spec l) C). apply IH, F.
  - inversion F as [|? row ? tab FN F']; subst. cbn [fold_left]. unfold igrf_line at 2. cbn [bind].
    destruct (prefix (txt "#") (lstrip l) || prefix (txt "c/s") (lstrip l))%bool eqn:P; [apply comment_spec in P; contradiction|].
    rewrite (mapM_float _ _ FN). cbn [bind]. rewrite (IH tab _ F'). cbn [List.concat]. rewrite app_assoc. reflexivity.
Qed.
Lemma fold_igrf_header ls header body : without_comments ls (header :: body) -> exists ls', without_comments ls' body /\
  forall epochs a b c ws sv, words header = a :: b :: c :: (ws ++ [sv])%list -> Forall2 number ws epochs -> epochs <> [] ->
  fold_left igrf_line ls (Ok (None, [])) = fold_left igrf_line ls' (Ok (Some (igrf_epochs epochs), [])).
Proof.
  intros W. remember (header :: body) as cs eqn:Ecs. revert header body Ecs.
  induction W as [|l ls cs C W IH|l ls cs C W IH]; intros header body Ecs; [discriminate| |].
  - destruct (IH _ _ Ecs) as (ls' & W' & H). exists ls'. split; [exact W'|]. intros. cbn [fold_left]. unfold igrf_line at 2. cbn [bind]. rewrite (proj2 (comment_spec l) C). eapply H; eassumption.
  - injection Ecs as -> ->. exists ls. split; [exact W|]. intros epochs a b c ws sv E FN NE. cbn [fold_left]. unfold igrf_line at 2. cbn [bind].
    destruct (prefix (txt "#") (lstrip header) || prefix (txt "c/s") (lstrip header))%bool eqn:P; [apply comment_spec in P; contradiction|].
    rewrite E. cbn [skipn]. rewrite removelast_last, (mapM_float _ _ FN). cbn [bind]. destruct epochs as [|e0 epochs]; [contradiction|].
    unfold igrf_epochs. replace (last (e0 :: epochs) e0) with (last (e0 :: epochs) 0%Q); [reflexivity|].
    clear. revert e0. assert (H : forall l e a b, last (e :: l) a = last (e :: l) b :> Q) by (induction l as [|x l IH]; intros; [reflexivity|apply IH]). intros e0. apply H.
Qed.

Lemma igrf_bad_word content header body epochs a b c ws sv : without_comments (lines content) (header :: body) ->
  words header = a :: b :: c :: (ws ++ [sv])%list -> Forall2 number ws epochs -> epochs <> [] ->
  (exists l, In l body /\ ~ exists qs, Forall2 number (skipn 3 (words l)) qs) -> load_IGRF_txtfile content = Err ValueError.
Proof.
  intros W E F NE B. destruct (fold_igrf_header _ _ _ W) as (ls' & W' & H). unfold load_IGRF_txtfile. rewrite (H _ _ _ _ _ _ E F NE), (fold_bad_row _ _ _ W' _ B). reflexivity.
Qed.
Lemma igrf_bad_count content header body epochs a b c ws sv table : without_comments (lines content) (header :: body) ->
  words header = a :: b :: c :: (ws ++ [sv])%list -> Forall2 number ws epochs -> epochs <> [] ->
  Forall2 (fun l row => Forall2 number (skipn 3 (words l)) row) body table ->
  (List.length (List.concat table) mod (List.length epochs + 1) <> 0)%nat -> load_IGRF_txtfile content = Err ValueError.
Proof.
  intros W E F NE T L. destruct (fold_igrf_header _ _ _ W) as (ls' & W' & H). unfold load_IGRF_txtfile. rewrite (H _ _ _ _ _ _ E F NE), (fold_any_rows _ _ _ W' _ _ T).
  cbn [bind app]. rewrite igrf_epochs_length. replace (S (List.length epochs)) with (List.length epochs + 1)%nat by lia. apply Nat.eqb_neq in L. rewrite L. reflexivity.
Qed.
Lemma fold_no_header ls : without_comments ls [] -> forall st, fold_left igrf_line ls (Ok st) = Ok st.
Proof.
  intros W. remember (@nil text) as cs eqn:Ecs. induction W as [|l ls cs C W IH|l ls cs C W IH]; intros [b d]; [reflexivity| |discriminate].
  cbn [fold_left]. unfold igrf_line at 2. cbn [bind]. rewrite (proj2 (comment_spec l) C). apply (IH Ecs).
Qed.
Lemma igrf_no_header content : without_comments (lines content) [] -> load_IGRF_txtfile content = Err OtherError.
Proof. intros W. unfold load_IGRF_txtfile. rewrite (fold_no_header _ W). reflexivity. Qed.
