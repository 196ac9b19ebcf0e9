From Coq Require Import Reals QArith Qreals List Arith ZArith String Ascii Bool Lia Lra.
From Verif Require Import M_Prelude M_Time M_ND M_Spectrum M_Spline M_PP M_Model M_Text M_SHC M_FromSpline M_Loaders.
From Verif Require Import Spec_Text Spec_Loaders Spec_LoadErr Spec_LoadCut P_Text P_TextSpec P_Loaders P_Loaders2 P_LoadErr P_SHCRead.
Import ListNotations.
Open Scope nat_scope.

Lemma words_lines_acc t : forall w, List.concat (map words (lines_acc w t)) = words (rev w ++ t).
Proof.
  induction t as [|c t IH]; intros w; cbn [lines_acc].
  - destruct w as [|x w]; [reflexivity|]. cbn [map List.concat]. rewrite !app_nil_r. reflexivity.
  - destruct (Ascii.eqb c "010") eqn:N.
    + apply Ascii.eqb_eq in N. subst c. cbn [map List.concat]. rewrite IH. cbn [rev app]. rewrite words_space by reflexivity. reflexivity.
    + rewrite IH. cbn [rev]. rewrite <- app_assoc. reflexivity.
Qed.
Lemma fromstring_join t : fromstring (join_lines (lines t)) = fromstring t.
Proof. unfold fromstring. rewrite words_join_lines. unfold lines. rewrite words_lines_acc. reflexivity. Qed.
Lemma fromstring_nil : fromstring [] = [].
Proof. reflexivity. Qed.

(** ** Lines of a cut file *)
Lemma lines_one l : ~ In newline l -> lines l = [] \/ lines l = [l].
Proof. intros H. destruct l as [|c l]; [left; reflexivity|]. right. apply lines_last_line; [apply not_in_one, H|discriminate]. Qed.
Lemma lines_first l t : ~ In newline l -> lines (l ++ newline :: t) = l :: lines t.
Proof. intros H. apply lines_spec. apply lines_more; [exact H|]. apply lines_spec. reflexivity. Qed.
Lemma lines_cons content title rest : lines content = title :: rest -> ~ In newline title /\
  ((content = title /\ rest = []) \/ exists body, content = (title ++ newline :: body)%list /\ rest = lines body).
Proof.
  intros H. apply lines_spec in H. inversion H as [|l A B|l r ls A B]; subst; (split; [assumption|]).
  - left. split; reflexivity.
  - right. exists r. split; [reflexivity|]. symmetry. apply lines_spec. exact B.
Qed.
Lemma cut_line cut rest title body : (cut ++ rest)%list = (title ++ newline :: body)%list ->
  (exists x, title = (cut ++ x)%list) \/ exists c, cut = (title ++ newline :: c)%list /\ body = (c ++ rest)%list.
Proof.
  revert title. induction cut as [|a cut IH]; intros title H.
  - left. exists title. reflexivity.
  - destruct title as [|b title]; cbn [app] in H; injection H as -> H.
    + right. exists cut. split; [reflexivity|symmetry; exact H].
    + destruct (IH title H) as [(x & ->)|(c & -> & ->)]; [left; exists x; reflexivity|right; exists c; split; reflexivity].
Qed.

(** ** What the common lines accept *)
Lemma spline_ok_some nmax order years data M : 1 <= nmax -> 1 <= order -> spline_model (Z.of_nat nmax) (Z.of_nat order) years data = Ok M ->
  years <> [] /\ exists g, reshape_rows (List.length data) (Z.of_nat (List.length years) - Z.of_nat order) (Z.of_nat (nmax * (nmax + 2))) = Ok g.
Proof.
  intros Hn Ho E. split.
  - intros ->. unfold spline_model in E. cbn in E. discriminate.
  - unfold spline_model in E. rewrite mapM_mjdq in E. cbn [bind] in E. fold (day_breaks years) in E.
    destruct (augment_breaks (day_breaks years) (Z.of_nat order)) as [t|]; [|discriminate]. cbn [bind] in E.
    destruct (Z.ltb_spec (Z.of_nat order) 1); [lia|]. unfold insert_rows in E. rewrite map_length in E.
    destruct ((Z.of_nat (List.length t) - Z.of_nat order <? 0)%Z || (Z.of_nat nmax * (Z.of_nat nmax + 2) <? 0)%Z)%bool; [discriminate|].
    replace (Z.of_nat nmax * (Z.of_nat nmax + 2))%Z with (Z.of_nat (nmax * (nmax + 2))) in E by lia.
    destruct (reshape_rows (List.length data) (Z.of_nat (List.length years) - Z.of_nat order) (Z.of_nat (nmax * (nmax + 2)))) as [g|] eqn:R; [|discriminate].
    exists g. reflexivity.
Qed.
Lemma spline_ok_empty nmax order years M : 1 <= nmax -> 1 <= order -> spline_model (Z.of_nat nmax) (Z.of_nat order) years [] = Ok M ->
  List.length years = order \/ List.length years + 1 = order.
Proof.
  intros Hn Ho E. destruct (spline_ok_some _ _ _ _ _ Hn Ho E) as (NE & g & R). unfold reshape_rows in R. cbn [List.length] in R.
  destruct (Z.eqb_spec (Z.of_nat (List.length years) - Z.of_nat order) (-1)); [right; lia|].
  destruct (Z.ltb_spec (Z.of_nat (List.length years) - Z.of_nat order) 0); [discriminate|].
  destruct (Z.eqb_spec ((Z.of_nat (List.length years) - Z.of_nat order) * Z.of_nat (nmax * (nmax + 2))) (Z.of_nat 0)) as [Z0|]; [left|discriminate].
  nia.
Qed.
Lemma spline_ok_count nmax order years data M : 1 <= nmax -> 1 <= order -> order <= List.length years ->
  spline_model (Z.of_nat nmax) (Z.of_nat order) years data = Ok M -> List.length data = (List.length years - order) * (nmax * (nmax + 2)).
Proof.
  intros Hn Ho L E. destruct (Nat.eq_dec (List.length data) ((List.length years - order) * (nmax * (nmax + 2)))) as [X|X]; [exact X|].
  rewrite (spline_wrong_count nmax order years data Hn Ho L X) in E. discriminate.
Qed.

(** ** Cut lists of numbers *)
Lemma removelast_app_one {A} (l e : list A) : List.length e <= 1 -> e <> [] -> removelast (l ++ e) = l.
Proof. intros H N. destruct e as [|x [|y e]]; [congruence|apply removelast_last|cbn in H; lia]. Qed.
(** C = P ++ E of the same length as F = P ++ M *)
Lemma cut_same (P E M : list Q) : List.length E <= 1 -> List.length (P ++ E) = List.length (P ++ M) -> same_but_last (P ++ M) (P ++ E).
Proof.
  intros H L. split; [exact L|]. rewrite !app_length in L. destruct E as [|x E].
  - destruct M; [reflexivity|cbn in L; lia].
  - destruct E; [|cbn in H; lia]. destruct M as [|y [|z M]]; cbn in L; try lia. rewrite !removelast_last. reflexivity.
Qed.
Lemma cut_beginning (P E M : list Q) : List.length E <= 1 -> List.length (P ++ E) <= List.length (P ++ M) -> beginning (P ++ E) (P ++ M).
Proof.
  intros H L. exists (List.length (P ++ E)). split; [exact L|]. rewrite !app_length in *.
  replace (firstn (List.length P + List.length E) (P ++ M)) with (P ++ firstn (List.length E) M)%list by (symmetry; apply firstn_app_2).
  apply cut_same; [exact H|]. rewrite !app_length, firstn_length. lia.
Qed.
Lemma skipn_cut (P E M : list Q) k : k <= List.length P -> skipn k (P ++ E) = (skipn k P ++ E)%list /\ skipn k (P ++ M) = (skipn k P ++ M)%list.
Proof. intros H. rewrite !skipn_app. replace (k - List.length P) with 0 by lia. split; reflexivity. Qed.
Lemma firstn_cut (P E M : list Q) k : k <= List.length P -> firstn k (P ++ E) = firstn k (P ++ M).
Proof. intros H. rewrite !firstn_app. replace (k - List.length P) with 0 by lia. reflexivity. Qed.

(** head [hd], years and data; the cut list has more than the head *)
Lemma cut_core nmax order hd years data P E M0 M : 1 <= nmax -> 2 <= order < List.length years ->
  List.length data = (List.length years - order) * (nmax * (nmax + 2)) ->
  (hd ++ years ++ data)%list = (P ++ M0)%list -> List.length E <= 1 -> let C := (P ++ E)%list in let h := List.length hd in let n := List.length years in
  h <= List.length P ->
  spline_model (Z.of_nat nmax) (Z.of_nat order) (firstn n (skipn h C)) (skipn (h + n) C) = Ok M ->
  (skipn (h + n) C = [] /\ (List.length C = h + order \/ List.length C + 1 = h + order)) \/
  (firstn n (skipn h C) = years /\ same_but_last data (skipn (h + n) C)).
Proof.
  intros Hn Ho LD EF LE C h n HP S0.
  assert (LC : List.length C = List.length P + List.length E) by apply app_length.
  destruct (le_lt_dec (List.length C) (h + n)) as [LT|GT].
  - left. assert (Z0 : skipn (h + n) C = []) by (apply skipn_all2; exact LT). rewrite Z0 in S0. split; [exact Z0|].
    pose proof (spline_ok_empty nmax order _ M Hn ltac:(lia) S0) as K. rewrite firstn_length, skipn_length in K. lia.
  - right. assert (HN : h + n <= List.length P) by lia.
    destruct (skipn_cut P E M0 (h + n) HN) as (K1 & K2). destruct (skipn_cut P E M0 h ltac:(lia)) as (K3 & K4).
    assert (Y : firstn n (skipn h C) = years).
    { unfold C. rewrite K3. rewrite (firstn_cut (skipn h P) E M0 n) by (rewrite skipn_length; lia). rewrite <- K4, <- EF. unfold h. rewrite skipn_app, skipn_all, Nat.sub_diag. cbn [app skipn].
      unfold n. rewrite firstn_app, firstn_all, Nat.sub_diag, firstn_O, app_nil_r. reflexivity. }
    assert (D : skipn (h + n) (P ++ M0) = data).
    { rewrite <- EF. unfold h, n. rewrite app_assoc, <- app_length, skipn_app, skipn_all, Nat.sub_diag. reflexivity. }
    split; [exact Y|]. rewrite Y in S0. pose proof (spline_ok_count nmax order years _ M Hn ltac:(lia) ltac:(lia) S0) as K.
    rewrite <- D. rewrite K2. unfold C in *. rewrite K1 in *. apply cut_same; [exact LE|]. rewrite <- K2, D, K, LD. reflexivity.
Qed.
Lemma spline_of nmax order years data data' M : 1 <= nmax -> 2 <= order <= List.length years -> increasing years ->
  List.length data = (List.length years - order) * (nmax * (nmax + 2)) -> same_but_last data data' ->
  spline_model (Z.of_nat nmax) (Z.of_nat order) years data' = Ok M -> is_spline_model M nmax order years data'.
Proof.
  intros Hn Ho I LD (L & _) S0. destruct (spline_model_ok nmax order years data' Hn ltac:(lia) I ltac:(lia) ltac:(lia)) as (M' & S1 & K).
  rewrite S1 in S0. injection S0 as ->. exact K.
Qed.
Lemma slice_to_firstn {A} (l : list A) a n : slice_to a (Z.of_nat (a + n)) l = firstn n (skipn a l).
Proof.
  unfold slice_to, slice_pos. destruct (Z.ltb_spec (Z.of_nat (a + n)) 0); [lia|].
  destruct (le_lt_dec (a + n) (List.length l)).
  - replace (Nat.min (Z.to_nat (Z.of_nat (a + n))) (List.length l) - a) with n by lia. reflexivity.
  - rewrite !firstn_all2; [reflexivity| |]; rewrite skipn_length; lia.
Qed.
Lemma slice_from_skipn {A} (l : list A) a : slice_from (Z.of_nat a) l = skipn a l.
Proof.
  unfold slice_from, slice_pos. destruct (Z.ltb_spec (Z.of_nat a) 0); [lia|].
  destruct (le_lt_dec a (List.length l)).
  - replace (Nat.min (Z.to_nat (Z.of_nat a)) (List.length l)) with a by lia. reflexivity.
  - rewrite !skipn_all2; [reflexivity| |]; lia.
Qed.

(** ** A table without numbers gives zero *)
Lemma eval_zero t c k x nu : (forall i, nth i c 0%R = 0%R) -> match bspline_eval t c k x nu with Some v => v = 0%R | None => True end.
Proof.
  intros H. unfold bspline_eval. destruct (Rlt_dec _ _); [exact I|]. destruct (Rlt_dec _ _); [exact I|].
  generalize (seq 0 (k + 1)). intros l. generalize (deboor t x k (find_interval (List.length t) t (List.length t - k - 1) x k) nu). intros h.
  assert (G : forall out, out = 0%R -> fold_left (fun out a => (out + nth (find_interval (List.length t) t (List.length t - k - 1) x k + a - k) c 0 * h a)%R) l out = 0%R).
  { induction l as [|a l IH]; intros out Ho; [exact Ho|]. cbn [fold_left]. apply IH. rewrite H, Ho. ring. }
  apply G. reflexivity.
Qed.
Lemma empty_zero nmax order years M : 1 <= nmax -> 1 <= order -> spline_model (Z.of_nat nmax) (Z.of_nat order) years [] = Ok M -> zero_model M nmax.
Proof.
  intros Hn Ho E. unfold spline_model in E. rewrite mapM_mjdq in E. cbn [bind] in E.
  destruct (augment_breaks (map Q2R (map mjdq years)) (Z.of_nat order)) as [t|]; [|discriminate]. cbn [bind] in E.
  destruct (Z.ltb_spec (Z.of_nat order) 1); [lia|].
  destruct (insert_rows (List.length t) (List.length (map mjdq years)) (Z.of_nat order) (Z.of_nat nmax * (Z.of_nat nmax + 2)) []) as [[rows c]|] eqn:R; [|discriminate]. cbn [bind] in E.
  assert (CZ : forall i d, c i d = 0%R).
  { unfold insert_rows in R. destruct (_ || _)%bool; [discriminate|]. destruct (reshape_rows _ _ _) as [g|]; [|discriminate]. cbn [bind] in R.
    destruct (negb _); [discriminate|]. pose proof (f_equal (fun r => match r with Ok p => snd p | Err _ => c end) R) as X. cbv beta iota in X. cbn [snd] in X. rewrite <- X.
    intros i d. cbv beta. destruct (_ && _)%bool; [|reflexivity]. assert (NN : forall n, nth n (@nil Q) 0%Q = 0%Q) by (intros [|n]; reflexivity). rewrite NN. exact Q2R_0. }
  replace (Z.to_nat (Z.of_nat nmax * (Z.of_nat nmax + 2))) with (nmax * (nmax + 2)) in E by lia. rewrite Nat2Z.id in E.
  unfold from_bspline, pp_from_bspline in E. destruct (_ && _)%bool in E; [discriminate|]. destruct (_ && _)%bool in E; [discriminate|]. cbn [bind] in E. injection E as <-.
  split; [unfold model_init, base_init; cbn [m_nmax b_dim option_map c_d]; f_equal; apply degree_full|].
  eexists. split; [reflexivity|]. split; [reflexivity|]. intros j i d. unfold take_last. cbn [c_v c_k].
  unfold from_spline. match goal with |- match ?x with _ => _ end = _ => assert (Z0 : match x with Some v => v = 0%R | None => True end) end.
  { apply eval_zero. intros i0. clear - CZ. revert i0. generalize (seq 0 rows). induction l as [|r l IH]; intros [|i]; cbn; try reflexivity; [apply CZ|apply IH]. }
  destruct (bspline_eval _ _ _ _ _); [rewrite Z0; unfold Rdiv; ring|reflexivity].
Qed.

(** ** The three formats *)
Lemma beginning_firstn (P E M0 : list Q) hd years data n : (hd ++ years ++ data)%list = (P ++ M0)%list -> List.length E <= 1 -> n = List.length years ->
  List.length hd <= List.length P -> List.length (P ++ E) <= List.length hd + n -> beginning (firstn n (skipn (List.length hd) (P ++ E))) years.
Proof.
  intros EF LE -> HP LC. rewrite firstn_all2 by (rewrite skipn_length; lia).
  destruct (skipn_cut P E M0 (List.length hd) HP) as (K1 & K2). rewrite K1. rewrite <- EF in K2. rewrite skipn_app, skipn_all, Nat.sub_diag in K2. cbn [app skipn] in K2.
  set (P' := skipn (List.length hd) P) in *.
  assert (LP : List.length (P' ++ E) <= List.length years). { rewrite <- K1, skipn_length. lia. }
  exists (List.length (P' ++ E)). split; [exact LP|].
  assert (FN : firstn (List.length (P' ++ E)) years = (P' ++ firstn (List.length E) M0)%list).
  { rewrite <- (firstn_app_2 (List.length E) P' M0), <- K2, app_length. rewrite firstn_app.
    rewrite app_length in LP. replace (List.length P' + List.length E - List.length years) with 0 by lia. cbn [firstn]. rewrite app_nil_r. reflexivity. }
  rewrite FN. apply cut_same; [exact LE|]. apply (f_equal (@List.length Q)) in FN. rewrite firstn_length in FN. lia.
Qed.
Lemma core_outcome nmax order hd years data P E M0 M : 1 <= nmax -> 2 <= order < List.length years -> increasing years ->
  List.length data = (List.length years - order) * (nmax * (nmax + 2)) ->
  (hd ++ years ++ data)%list = (P ++ M0)%list -> List.length E <= 1 -> List.length hd <= List.length P ->
  spline_model (Z.of_nat nmax) (Z.of_nat order) (firstn (List.length years) (skipn (List.length hd) (P ++ E))) (skipn (List.length hd + List.length years) (P ++ E)) = Ok M ->
  outcome M nmax order years data.
Proof.
  intros Hn Ho I LD EF LE HP S0. destruct (cut_core nmax order hd years data P E M0 M Hn Ho LD EF LE HP S0) as [(Z0 & K)|(Y & D)].
  - right. rewrite Z0 in S0. exists (firstn (List.length years) (skipn (List.length hd) (P ++ E))). split; [|split].
    + apply (beginning_firstn P E M0 hd years data); [exact EF|exact LE|reflexivity|exact HP|]. lia.
    + rewrite firstn_length, skipn_length. lia.
    + exact (empty_zero nmax order _ M Hn ltac:(lia) S0).
  - left. exists (skipn (List.length hd + List.length years) (P ++ E)). split; [exact D|]. rewrite Y in S0. exact (spline_of nmax order years data _ M Hn ltac:(lia) I LD D S0).
Qed.
Lemma head_two {A} (P E : list A) a b C : List.length E <= 1 -> (P ++ E)%list = a :: b :: C -> C <> [] -> exists P', P = a :: b :: P'.
Proof.
  intros L H N. destruct P as [|x [|y P]].
  - cbn in H. subst E. cbn in L. lia.
  - cbn in H. injection H as -> H. subst E. destruct C; [congruence|cbn in L; lia].
  - cbn in H. injection H as -> -> H. exists P. reflexivity.
Qed.

Theorem gufm1_cut content cut nmax years data M : 1 <= nmax -> 4 < List.length years -> gufm1_file content nmax years data ->
  cut_off cut content -> load_gufm1_txtfile cut = Ok M -> outcome M nmax 4 years data.
Proof.
  intros Hn Hy (title & rest & datas & qn & qs & EL & ND & EC & E1 & E2 & I & L1 & LD) (tail & NT & ->) S0.
  destruct (lines_cons _ _ _ EL) as (NL & [(EQ & ->)|(body & EQ & ->)]).
  { inversion ND; subst. discriminate. }
  assert (FB : fromstring body = qn :: qs :: years ++ data). { rewrite <- fromstring_join, <- EC. apply numbers_fromstring, numbers_join, ND. }
  unfold load_gufm1_txtfile in S0. destruct (cut_line _ _ _ _ EQ) as [(x & ET)|(c & -> & ->)].
  { exfalso. assert (NC : ~ In newline cut) by (intros K; apply NL; rewrite ET; apply in_app_iff; left; exact K).
    destruct (lines_one cut NC) as [K|K]; rewrite K in S0; cbn in S0; discriminate. }
  rewrite lines_first in S0 by exact NL. cbn [skipn] in S0. rewrite fromstring_join in S0.
  destruct (fromstring_cut c tail) as (P & E & M0 & A & B & C). rewrite A in S0. rewrite FB in C.
  destruct (P ++ E)%list as [|a [|b C']] eqn:PE; [discriminate|discriminate|]. unfold item in S0. cbn [nth_error bind] in S0.
  destruct C' as [|q C'].
  { exfalso. unfold slice_to in S0. cbn [List.length skipn] in S0. rewrite firstn_nil in S0. unfold spline_model in S0. cbn in S0. discriminate. }
  destruct (head_two P E a b (q :: C') B PE ltac:(discriminate)) as (P' & EP). subst P. cbn [app] in C. injection C as <- <- C.
  rewrite (Qtrunc_int _ _ E1), (Qtrunc_int _ _ E2) in S0.
  replace (Z.of_nat (List.length years - 4) + 4 + 2)%Z with (Z.of_nat (2 + List.length years)) in S0 by lia.
  rewrite slice_to_firstn, slice_from_skipn in S0. rewrite <- PE in S0.
  apply (core_outcome nmax 4 [qn; qs] years data (qn :: qs :: P') E M0 M Hn ltac:(lia) I LD); [cbn [app]; rewrite C; reflexivity|exact B|cbn; lia|].
  exact S0.
Qed.

Lemma head_seven {A} (P E : list A) C7 C : List.length E <= 1 -> (P ++ E)%list = (C7 ++ C)%list -> C <> [] -> exists P', P = (C7 ++ P')%list.
Proof.
  revert P. induction C7 as [|a C7 IH]; intros P L H N; [exists P; reflexivity|]. destruct P as [|x P].
  - cbn in H. subst E. destruct C7; cbn in L; destruct C; try congruence; cbn in L; rewrite ?app_length in L; cbn in L; lia.
  - cbn in H. injection H as -> H. destruct (IH P L H N) as (P' & ->). exists P'. reflexivity.
Qed.
Lemma replace_D_app a b : replace_D (a ++ b) = (replace_D a ++ replace_D b)%list.
Proof. apply map_app. Qed.
Theorem cals7k_cut content cut nmax years data M : 1 <= nmax -> 4 < List.length years -> cals7k_file content nmax years data ->
  cut_off cut content -> load_CALS7K_txtfile cut = Ok M -> outcome M nmax 4 years data.
Proof.
  intros Hn Hy (ts & te & qo & q3 & qn & q5 & qs & ND & E1 & E2 & I & L1 & LD) (tail & NT & ->) S0.
  pose proof (numbers_D_fromstring _ _ ND) as FB. rewrite replace_D_app in FB.
  unfold load_CALS7K_txtfile in S0. destruct (fromstring_cut (replace_D cut) (replace_D tail)) as (P & E & M0 & A & B & C). rewrite A in S0. rewrite FB in C.
  destruct (P ++ E)%list as [|c0 [|c1 [|c2 [|c3 [|c4 [|c5 [|c6 C']]]]]]] eqn:PE; try discriminate. unfold item in S0. cbn [nth_error bind] in S0.
  destruct C' as [|q C'].
  { exfalso. unfold slice_to in S0. cbn [List.length skipn] in S0. rewrite firstn_nil in S0. unfold spline_model in S0. cbn in S0. discriminate. }
  destruct (head_seven P E [c0; c1; c2; c3; c4; c5; c6] (q :: C') B PE ltac:(discriminate)) as (P' & EP). subst P. cbn [app] in C. injection C as <- <- <- <- <- <- <- C.
  rewrite (Qtrunc_int _ _ E1), (Qtrunc_int _ _ E2) in S0.
  replace (7 + (Z.of_nat (List.length years - 4) + 4))%Z with (Z.of_nat (7 + List.length years)) in S0 by lia.
  rewrite slice_to_firstn, slice_from_skipn in S0. rewrite <- PE in S0.
  apply (core_outcome nmax 4 [ts; te; qo; q3; qn; q5; qs] years data ([ts; te; qo; q3; qn; q5; qs] ++ P') E M0 M Hn ltac:(lia) I LD); [cbn [app]; rewrite C; reflexivity|exact B|rewrite app_length; cbn; lia|].
  exact S0.
Qed.

Theorem covobs_cut content cut nmax order years data M : 1 <= nmax -> 2 <= order < List.length years -> covobs_file content nmax order years data ->
  cut_off cut content -> load_CovObs_txtfile cut = Ok M -> outcome M nmax order years data.
Proof.
  intros Hn Ho (title & params & rest & datas & qn & q1 & qo & EL & NP & E1 & E2 & ND & -> & I & L1 & L2 & LD) (tail & NT & ->) S0.
  set (data := List.concat datas) in *. pose proof (numbers_fromstring _ _ NP) as FP.
  destruct (lines_cons _ _ _ EL) as (NL & [(_ & K)|(body & EQ & EB)]); [discriminate|]. symmetry in EB.
  destruct (lines_cons _ _ _ EB) as (NL2 & [(EQ2 & ->)|(body2 & EQ2 & ->)]).
  { exfalso. inversion ND; subst. assert (K : (List.length years - order) * (nmax * (nmax + 2)) = 0) by (symmetry; exact LD). nia. }
  assert (FB : fromstring body2 = data). { rewrite <- fromstring_join. apply numbers_fromstring, numbers_join, ND. }
  unfold load_CovObs_txtfile in S0. destruct (cut_line _ _ _ _ EQ) as [(x & ET)|(c & -> & EC)].
  { exfalso. assert (NC : ~ In newline cut) by (intros K; apply NL; rewrite ET; apply in_app_iff; left; exact K).
    destruct (lines_one cut NC) as [K|K]; rewrite K in S0; cbn in S0; discriminate. }
  rewrite lines_first in S0 by exact NL. unfold item at 1 in S0. cbn [nth_error] in S0. subst body. symmetry in EC.
  destruct (cut_line _ _ _ _ EC) as [(x & ET)|(c2 & -> & ->)].
  - (* inside the line of parameters *)
    assert (NC : ~ In newline c) by (intros K; apply NL2; rewrite ET; apply in_app_iff; left; exact K).
    destruct (lines_one c NC) as [K|K]; rewrite K in S0; [discriminate|]. cbn [nth_error bind skipn] in S0. change (join_lines []) with (@nil ascii) in S0. rewrite fromstring_nil in S0.
    subst params. destruct (fromstring_cut c x) as (P & E & M0 & A & B & C). rewrite FP in C. rewrite A in S0.
    destruct (P ++ E)%list as [|c0 [|c1 [|c2 C']]] eqn:PE; try discriminate. unfold item in S0. cbn [nth_error bind skipn] in S0.
    destruct C' as [|q C']; [exfalso; unfold spline_model in S0; cbn in S0; discriminate|].
    destruct (head_seven P E [c0; c1; c2] (q :: C') B PE ltac:(discriminate)) as (P' & EP). subst P. cbn [app] in C. injection C as <- <- <- C.
    rewrite (Qtrunc_int _ _ E1), (Qtrunc_int _ _ E2) in S0.
    pose proof (spline_ok_empty nmax order _ M Hn ltac:(lia) S0) as LC.
    right. exists (q :: C'). split; [|split; [exact LC|exact (empty_zero nmax order _ M Hn ltac:(lia) S0)]].
    cbn [app] in PE. injection PE as PE. rewrite <- PE in *. rewrite C. apply cut_beginning; [exact B|]. rewrite <- C. lia.
  - (* inside the table *)
    rewrite lines_first in S0 by exact NL2. cbn [nth_error bind skipn] in S0. rewrite FP in S0. unfold item in S0. cbn [nth_error bind skipn] in S0.
    rewrite (Qtrunc_int _ _ E1), (Qtrunc_int _ _ E2), fromstring_join in S0.
    destruct (fromstring_cut c2 tail) as (P & E & M0 & A & B & C). rewrite FB in C. rewrite A in S0.
    pose proof (spline_ok_count nmax order years _ M Hn ltac:(lia) ltac:(lia) S0) as K.
    assert (D : same_but_last data (P ++ E)). { rewrite C. apply cut_same; [exact B|]. rewrite <- C, K, LD. reflexivity. }
    left. exists (P ++ E)%list. split; [exact D|]. exact (spline_of nmax order years data _ M Hn ltac:(lia) I LD D S0).
Qed.
